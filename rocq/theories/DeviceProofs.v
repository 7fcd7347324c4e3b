(** Proofs about the device model. *)
From Coq Require Import Bool Arith Lia String Sorted Permutation List.
From Verif Require Import SimpModel SimpSpec SimpProofs SimpProofs2 DeviceModel DeviceSpec.
Import ListNotations.
Local Open Scope nat_scope.

(* ---------------------------------------------------------------- inference *)
Section Infer.
Variables (auto : bool) (kind_of : string -> option kind).
Let devs (args : list (option string)) := flat_map (fun a : option string => match a with Some d => [d] | None => [] end) args.
Lemma devs_In args d : In d (devs args) <-> In (Some d) args.
Proof.
  unfold devs. rewrite in_flat_map. split.
  - intros ([x|] & Hx & Hd); [destruct Hd as [<-|[]]; exact Hx|destruct Hd].
  - intros H. exists (Some d). split; [exact H|left; reflexivity].
Qed.
Lemma nodup_devs args d : In d (nodup string_dec (devs args)) <-> In (Some d) args.
Proof. rewrite nodup_In. apply devs_In. Qed.
Lemma secure_b d : (match kind_of d with Some k => is_secure k | None => false end) = true <-> secure kind_of d.
Proof. unfold secure. destruct (kind_of d) as [[]|]; cbn; split; try discriminate; try (intros [H|H]; discriminate H); try tauto; intros _; auto. Qed.

Lemma NoDup_singleton {A : Type} (l : list A) x : NoDup l -> In x l -> (forall y, In y l -> y = x) -> l = [x].
Proof.
  intros ND Hx H. destruct l as [|a l]; [destruct Hx|]. assert (a = x) as -> by (apply H; left; reflexivity). f_equal.
  destruct l as [|b l]; [reflexivity|]. exfalso. inversion ND as [|? ? N _]; subst. apply N. rewrite (H b); [left; reflexivity|right; left; reflexivity].
Qed.
Lemma filter_NoDup {A : Type} (f : A -> bool) l : NoDup l -> NoDup (filter f l).
Proof. induction 1 as [|a l N ND IH]; cbn; [constructor|]. destruct (f a); [constructor; [rewrite filter_In; tauto|exact IH]|exact IH]. Qed.

Lemma infer_unfold args : infer auto kind_of args =
  match nodup string_dec (devs args) with
  | [] => InferenceError
  | [d] => Dev d
  | _ =>
      if negb auto then InferenceError
      else if existsb (fun d => match kind_of d with None => true | _ => false end) (nodup string_dec (devs args)) then KeyError
      else match filter (fun d => match kind_of d with Some k => is_secure k | None => false end) (nodup string_dec (devs args)) with
           | [d] => Dev d
           | _ => InferenceError
           end
  end.
Proof. reflexivity. Qed.

Lemma infer_dev args d : infer auto kind_of args = Dev d <->
  occurs args d /\ ((forall d', occurs args d' -> d' = d) \/
   (auto = true /\ (forall d', occurs args d' -> kind_of d' <> None) /\ secure kind_of d /\ (forall d', occurs args d' -> secure kind_of d' -> d' = d))).
Proof.
  rewrite infer_unfold. unfold occurs. pose proof (NoDup_nodup string_dec (devs args)) as ND. pose proof (nodup_devs args) as HI. remember (nodup string_dec (devs args)) as l eqn:Hl. clear Hl.
  assert (forall z, In z l -> (forall d', In (Some d') args -> d' = d) -> z = d) as U by (intros z Hz H; apply H, HI, Hz).
  destruct l as [|a [|b l0]] eqn:El.
  - split; [discriminate|]. intros [H _]. apply HI in H. destruct H.
  - split.
    + intros E. injection E as ->. split; [apply HI; left; reflexivity|]. left. intros d' Hd'. apply HI in Hd'. destruct Hd' as [<-|[]]. reflexivity.
    + intros [H _]. apply HI in H. destruct H as [<-|[]]. reflexivity.
  - rewrite <- El in *. assert (In a l /\ In b l /\ a <> b) as (Ha & Hb & Nab).
    { subst l. split; [left; reflexivity|]. split; [right; left; reflexivity|]. intros ->. inversion ND as [|? ? N _]; subst. apply N. left. reflexivity. }
    destruct auto; cbn [negb].
    2:{ split; [discriminate|]. intros [_ [H|(H & _)]]; [|discriminate H]. exfalso. apply Nab. rewrite (U a Ha H), (U b Hb H). reflexivity. }
    destruct (existsb (fun d0 => match kind_of d0 with None => true | _ => false end) l) eqn:Ex.
    { apply existsb_exists in Ex. destruct Ex as (u & Hu & Eu). split; [discriminate|]. intros [_ [H|(_ & H & _)]]; [exfalso; apply Nab; rewrite (U a Ha H), (U b Hb H); reflexivity|].
      apply HI in Hu. specialize (H u Hu). destruct (kind_of u); [discriminate Eu|congruence]. }
    assert (forall d', In (Some d') args -> kind_of d' <> None) as HK.
    { intros d' Hd' E. apply HI in Hd'. assert (existsb (fun d0 => match kind_of d0 with None => true | _ => false end) l = true) by (apply existsb_exists; exists d'; rewrite E; auto). congruence. }
    set (S := filter (fun d0 => match kind_of d0 with Some k => is_secure k | None => false end) l).
    assert (forall z, In z S <-> In (Some z) args /\ secure kind_of z) as HS by (intros z; unfold S; rewrite filter_In, HI, secure_b; reflexivity).
    assert (NoDup S) as NS by (apply filter_NoDup, ND). clearbody S.
    split.
    + intros E. assert (S = [d]) as ES by (destruct S as [|s [|s' S']]; [discriminate E| |discriminate E]; injection E as ->; reflexivity).
      destruct (proj1 (HS d)) as [D1 D2]; [rewrite ES; left; reflexivity|]. split; [exact D1|]. right. split; [reflexivity|]. split; [exact HK|]. split; [exact D2|].
      intros d' A B. assert (In d' S) as Hd' by (apply HS; auto). rewrite ES in Hd'. destruct Hd' as [<-|[]]. reflexivity.
    + intros [D1 [H|(_ & _ & D2 & H)]]; [exfalso; apply Nab; rewrite (U a Ha H), (U b Hb H); reflexivity|].
      replace S with [d]; [reflexivity|]. symmetry. apply NoDup_singleton; [exact NS|apply HS; auto|]. intros y Hy. apply HS in Hy. apply H; tauto.
Qed.
Lemma infer_key args : infer auto kind_of args = KeyError <->
  auto = true /\ (exists d1 d2, occurs args d1 /\ occurs args d2 /\ d1 <> d2) /\ exists d, occurs args d /\ kind_of d = None.
Proof.
  rewrite infer_unfold. unfold occurs. pose proof (NoDup_nodup string_dec (devs args)) as ND. pose proof (nodup_devs args) as HI. remember (nodup string_dec (devs args)) as l eqn:Hl. clear Hl.
  destruct l as [|a [|b l0]] eqn:El.
  - split; [discriminate|]. intros (_ & (d1 & _ & H & _) & _). apply HI in H. destruct H.
  - split; [discriminate|]. intros (_ & (d1 & d2 & H1 & H2 & N) & _). apply HI in H1. apply HI in H2. destruct H1 as [<-|[]]. destruct H2 as [<-|[]]. congruence.
  - rewrite <- El in *. assert (In a l /\ In b l /\ a <> b) as (Ha & Hb & Nab).
    { subst l. split; [left; reflexivity|]. split; [right; left; reflexivity|]. intros ->. inversion ND as [|? ? N _]; subst. apply N. left. reflexivity. }
    destruct auto; cbn [negb]; [|split; [discriminate|intros [H _]; discriminate H]].
    destruct (existsb (fun d0 => match kind_of d0 with None => true | _ => false end) l) eqn:Ex.
    + split; [|reflexivity]. intros _. split; [reflexivity|]. split; [exists a, b; rewrite <- !HI; auto|]. apply existsb_exists in Ex. destruct Ex as (u & Hu & Eu). exists u. rewrite <- HI. split; [exact Hu|]. destruct (kind_of u); [discriminate Eu|reflexivity].
    + split; [destruct (filter _ l) as [|? [|? ?]]; discriminate|]. intros (_ & _ & d & Hd & Ed). apply HI in Hd. exfalso.
      assert (existsb (fun d0 => match kind_of d0 with None => true | _ => false end) l = true) by (apply existsb_exists; exists d; rewrite Ed; auto). congruence.
Qed.
Lemma infer_same args args' : (forall d, occurs args d <-> occurs args' d) -> infer auto kind_of args = infer auto kind_of args'.
Proof.
  intros H. destruct (infer auto kind_of args) as [d| |] eqn:E; symmetry.
  - apply infer_dev in E. apply infer_dev. rewrite <- H. destruct E as [A B]. split; [exact A|]. destruct B as [B|(B1 & B2 & B3 & B4)]; [left|right; split; [exact B1|split; [|split; [exact B3|]]]]; intros d' Hd'; apply H in Hd'; auto.
  - destruct (infer auto kind_of args') as [d| |] eqn:E'; [exfalso|reflexivity|exfalso].
    + apply infer_dev in E'. assert (infer auto kind_of args = Dev d); [|congruence]. apply infer_dev. rewrite H. destruct E' as [A B]. split; [exact A|]. destruct B as [B|(B1 & B2 & B3 & B4)]; [left|right; split; [exact B1|split; [|split; [exact B3|]]]]; intros d' Hd'; apply H in Hd'; auto.
    + apply infer_key in E'. assert (infer auto kind_of args = KeyError); [|congruence]. apply infer_key. destruct E' as (A & (d1 & d2 & B1 & B2 & B3) & d & C1 & C2). split; [exact A|]. split; [exists d1, d2; rewrite !H; auto|exists d; rewrite H; auto].
  - apply infer_key in E. apply infer_key. destruct E as (A & (d1 & d2 & B1 & B2 & B3) & d & C1 & C2). split; [exact A|]. split; [exists d1, d2; rewrite <- !H; auto|exists d; rewrite <- H; auto].
Qed.
End Infer.

(* ---------------------------------------------------------------- building blocks *)
Section T.
Context {VT V : Type}.
Variable vt_eqb : VT -> VT -> bool.
Hypothesis vt_eqb_spec : forall a b, vt_eqb a b = true <-> a = b.
Variable n : nat.
Variables (share_t key_t : VT).
Variables (make_shares : V -> nat -> list V) (reconstruct : list V -> V)
          (encrypt decrypt : V -> V -> V) (pub hkdf quote attest : V -> V) (derive : V -> V -> V).
Notation object := (object VT V). Notation local := (local VT V). Notation step := (step VT V).
Notation pcall := (pcall VT V n). Notation pcall1 := (pcall1 VT V n).
Notation shuffle := (shuffle_static VT V n).

Lemma shuffle1 (x y : object) t s : shuffle x [(t, s)] = Some y ->
  fst y = MP _ (vt _ (fst x)) (Some [t]) /\ forall r, snd y r = if r =? t then snd x s else None.
Proof.
  unfold shuffle_static, type_shuffle, run_shuffle. intros H. destruct (match parties VT (fst x) with None => true | Some p => _ end); [|discriminate H].
  destruct (_ && _); [|discriminate H]. injection H as <-. cbn [fst snd map]. rewrite norm_single. split; [reflexivity|]. intros r. unfold all_act, dict_get. cbn [find fst snd]. rewrite (Nat.eqb_sym t r). destruct (r =? t); reflexivity.
Qed.
Lemma shuffle1_ok (x : object) t s P : parties _ (fst x) = Some P -> In s P -> s < n -> t < n -> exists y, shuffle x [(t, s)] = Some y.
Proof.
  intros HP Hs Hsn Htn. destruct (shuffle_accepts n x [(t, s)] P) as (y & E & _); [discriminate|exact HP| |eauto].
  intros t' s' [E|[]]. injection E as <- <-. auto.
Qed.
Lemma nth_combine {A B : Type} (l : list A) (m : list B) i p : nth_error (combine l m) i = Some p <-> nth_error l i = Some (fst p) /\ nth_error m i = Some (snd p).
Proof.
  revert m i. induction l as [|a l IH]; intros [|b m] [|i]; cbn; try (split; [discriminate|intros [H1 H2]; discriminate]); [|apply IH].
  destruct p as [x y]. cbn. split; [intros E; injection E as <- <-; auto|intros [E1 E2]; congruence].
Qed.
Lemma pcall_sound p (f : local) (xs ys : list object) : pcall [p] f xs = Some ys ->
  length ys = length (lf_out _ _ f) /\ forall i y, nth_error ys i = Some y -> exists t, nth_error (lf_out _ _ f) i = Some t /\ fst y = MP _ t (Some [p]) /\
    forall r, snd y r = if r =? p then lf_sem _ _ f (map (fun x : object => snd x p) xs) i else None.
Proof.
  unfold DeviceModel.pcall, type_pcall_static, run_pcall. destruct (match deduce_parties VT (map fst xs) with None => true | Some d => _ end); [|discriminate]. cbn [andb negb].
  intros H. injection H as <-. split; [etransitivity; [apply combine_length|]; rewrite !map_length, seq_length; apply Nat.min_id|].
  intros i y Hy. apply nth_combine in Hy. destruct Hy as [H1 H2]. rewrite nth_error_map in H1, H2.
  destruct (nth_error (lf_out _ _ f) i) as [t|] eqn:Et; [|discriminate H1]. exists t. split; [reflexivity|]. rewrite norm_single in *. cbn in H1. injection H1 as H1. split; [symmetry; exact H1|].
  rewrite seq_nth_error in H2 by (apply nth_error_Some; congruence). cbn in H2. injection H2 as H2. intros r. rewrite <- H2, orb_false_r. destruct (Nat.eqb_spec r p) as [->|]; [|reflexivity]. rewrite map_map. reflexivity.
Qed.
Lemma fold_filter_In r (ts : list (mptype VT)) cur : In r cur -> (forall t p, In t ts -> parties _ t = Some p -> In r p) ->
  In r (fold_left (fun cur t => match parties _ t with Some p => filter (fun r => inb r p) cur | None => cur end) ts cur).
Proof.
  revert cur. induction ts as [|t ts IH]; intros cur Hc H; [exact Hc|]. cbn. apply IH; [|intros t' p' Ht'; apply H; right; exact Ht'].
  destruct (parties _ t) as [p|] eqn:E; [|exact Hc]. apply filter_In. split; [exact Hc|]. apply inb_In. apply (H t p (or_introl eq_refl) E).
Qed.
Lemma pcall_ok p (f : local) (xs : list object) : (forall x, In x xs -> exists P, parties _ (fst x) = Some P /\ In p P) -> exists ys, pcall [p] f xs = Some ys.
Proof.
  intros H. unfold DeviceModel.pcall, type_pcall_static, run_pcall. cbn [andb negb]. rewrite norm_single.
  replace (match deduce_parties VT (map fst xs) with None => true | Some d => subset [p] d end) with true; [eauto|]. symmetry.
  destruct (deduce_parties VT (map fst xs)) as [d|] eqn:E; [|reflexivity]. apply subset_spec. intros r [<-|[]].
  destruct xs as [|x xs]; [discriminate E|]. unfold deduce_parties in E. cbn [map] in E. destruct (existsb _ _); [discriminate E|]. injection E as <-. apply norm_In.
  destruct (H x (or_introl eq_refl)) as (P & HP & Hp). rewrite HP. apply fold_filter_In; [exact Hp|]. intros t q Ht Hq. apply in_map_iff in Ht. destruct Ht as (z & <- & Hz).
  destruct (H z (or_intror Hz)) as (P' & HP' & Hp'). congruence.
Qed.
Lemma pcall1_sound p t sem (xs : list object) (y : object) : pcall1 [p] (Local _ _ [t] sem) xs = Some y ->
  fst y = MP _ t (Some [p]) /\ forall r, snd y r = if r =? p then sem (map (fun x : object => snd x p) xs) 0 else None.
Proof.
  unfold DeviceModel.pcall1. intros H. destruct (pcall [p] (Local _ _ [t] sem) xs) as [ys|] eqn:E; [|discriminate H]. destruct (pcall_sound _ _ _ _ E) as [L K].
  destruct ys as [|z [|]]; try discriminate H. injection H as ->. destruct (K 0 y eq_refl) as (t' & Et & A & B). cbn in Et. injection Et as <-. auto.
Qed.
Lemma pcall1_ok p t sem (xs : list object) : (forall x, In x xs -> exists P, parties _ (fst x) = Some P /\ In p P) -> exists y, pcall1 [p] (Local _ _ [t] sem) xs = Some y.
Proof.
  intros H. destruct (pcall_ok p (Local _ _ [t] sem) xs H) as (ys & E). unfold DeviceModel.pcall1. rewrite E. destruct (pcall_sound _ _ _ _ E) as [L _].
  destruct ys as [|y [|]]; try discriminate L. eauto.
Qed.
Lemma eqb_only (y : object) (p : nat) o : (forall r, snd y r = if r =? p then o else None) -> only_at y [p].
Proof. intros H r Hr. rewrite H. destruct (Nat.eqb_spec r p) as [->|]; [exfalso; apply Hr; left; reflexivity|reflexivity]. Qed.
Lemma plain_of (y : object) t p v : fst y = MP _ t (Some [p]) -> (forall r, snd y r = if r =? p then Some v else None) -> plain_at y t p v.
Proof. intros A B. split; [rewrite A; reflexivity|]. split; [rewrite A; reflexivity|]. split; [rewrite B, Nat.eqb_refl; reflexivity|]. exact (eqb_only y p (Some v) B). Qed.
Lemma only_weaken (x : object) P Q : only_at x P -> (forall r, In r P -> In r Q) -> only_at x Q.
Proof. intros H I r Hr. apply H. intros C. apply Hr, I, C. Qed.
Lemma pcall1_only p t sem xs (y : object) : pcall1 [p] (Local _ _ [t] sem) xs = Some y -> only_at y [p].
Proof. intros H. apply pcall1_sound in H. destruct H as [_ H]. eapply eqb_only, H. Qed.
Lemma shuffle1_only (x y : object) t s : shuffle x [(t, s)] = Some y -> only_at y [t].
Proof. intros H. apply shuffle1 in H. destruct H as [_ H]. eapply eqb_only, H. Qed.
Lemma pcall_only p f xs (ys : list object) y : pcall [p] f xs = Some ys -> In y ys -> only_at y [p].
Proof. intros H Hy. apply In_nth_error in Hy. destruct Hy as (i & Hi). destruct (pcall_sound _ _ _ _ H) as [_ K]. destruct (K i y Hi) as (t & _ & _ & B). eapply eqb_only, B. Qed.

(* ---------------------------------------------------------------- confinement *)
Notation session := (session VT V n key_t pub hkdf quote attest derive).
Notation d2d := (d2d VT V vt_eqb n share_t key_t make_shares reconstruct encrypt decrypt pub hkdf quote attest derive).
Notation to_spu := (to_spu VT V vt_eqb n share_t make_shares).
Notation from_spu := (from_spu VT V n share_t reconstruct).
Notation encrypted := (encrypted VT V n key_t encrypt decrypt).
Definition steps_at (tr : list step) (P : list nat) : Prop := forall z, In z tr -> only_at (obj_of z) P.

Ltac step_out H := match type of H with
  | match ?e with Some _ => _ | None => None end = Some _ => let E := fresh "E" in destruct e eqn:E; [|discriminate H]
  end.
Lemma session_steps a b tsk vsk sf st tr : session a b tsk vsk = Some ((sf, st), tr) -> steps_at tr [a; b].
Proof.
  unfold DeviceModel.session. intros H.
  repeat match type of H with match ?e with Some _ => _ | None => None end = Some _ => let E := fresh "E" in destruct e eqn:E; [|discriminate H] end.
  injection H as <- <- <-. intros z Hz.
  cbn [In] in Hz. repeat destruct Hz as [<-|Hz]; try destruct Hz; cbn [obj_of];
  match goal with
  | E : pcall1 [?p] _ _ = Some ?o |- only_at ?o _ => apply pcall1_only in E; eapply only_weaken; [exact E|]; cbn; tauto
  | E : shuffle _ [(?p, _)] = Some ?o |- only_at ?o _ => apply shuffle1_only in E; eapply only_weaken; [exact E|]; cbn; tauto
  end.
Qed.
Lemma encrypted_steps a b ka kb obj y tr : encrypted a b ka kb obj = Some (y, tr) -> steps_at tr [a; b] /\ only_at y [b].
Proof.
  unfold DeviceModel.encrypted. intros H.
  repeat match type of H with match ?e with Some _ => _ | None => None end = Some _ => let E := fresh "E" in destruct e eqn:E; [|discriminate H] end.
  injection H as <- <-. apply pcall1_only in E1. split; [|exact E1]. apply pcall1_only in E. apply shuffle1_only in E0. intros z Hz. cbn in Hz. destruct Hz as [<-|[<-|[<-|[]]]]; cbn [obj_of]; eapply only_weaken; try eassumption; cbn; tauto.
Qed.
Lemma steps_app tr tr' P : steps_at tr P -> steps_at tr' P -> steps_at (tr ++ tr') P.
Proof. intros A B z Hz. apply in_app_iff in Hz. destruct Hz; auto. Qed.
Lemma steps_weaken tr P Q : steps_at tr P -> (forall r, In r P -> In r Q) -> steps_at tr Q.
Proof. intros A B z Hz. eapply only_weaken; [apply A, Hz|exact B]. Qed.
Lemma mapO_In {A B : Type} (f : A -> option B) l ys y : mapO f l = Some ys -> In y ys -> exists a, In a l /\ f a = Some y.
Proof.
  intros H Hy. apply In_nth_error in Hy. destruct Hy as (i & Hi). destruct (mapO_nth f l ys H) as [L K].
  destruct (nth_error l i) as [a|] eqn:E; [|apply nth_error_None in E; assert (i < length ys) by (apply nth_error_Some; congruence); lia].
  destruct (K i a E) as (b & Hb & Hf). exists a. split; [exact (nth_error_In _ _ E)|]. congruence.
Qed.
Lemma to_spu_steps a ms obj y tr : to_spu a ms obj = Some (y, tr) -> steps_at tr (a :: ms) /\ only_at y ms.
Proof.
  unfold DeviceModel.to_spu. intros H. destruct (pcall _ _ _) as [shares|] eqn:E1; [|discriminate H]. destruct (mapO _ _) as [dealt|] eqn:E2; [|discriminate H]. destruct (converge _ _ _ _) as [y'|] eqn:E3; [|discriminate H].
  injection H as <- <-.
  assert (forall z, In z dealt -> only_at z ms) as D.
  { intros z Hz. destruct (mapO_In _ _ _ _ E2 Hz) as ([t s] & Hi & Hs). apply in_combine_l in Hi. apply shuffle1_only in Hs. eapply only_weaken; [exact Hs|]. intros r [<-|[]]. exact Hi. }
  assert (only_at y' ms) as Y.
  { unfold converge in E3. destruct (type_converge _ _ _); [|discriminate E3]. injection E3 as <-. intros r Hr. cbn [snd]. apply run_converge_None. apply Forall_forall. intros v Hv. apply in_map_iff in Hv. destruct Hv as (z & <- & Hz). apply (D z Hz r Hr). }
  split; [|exact Y]. apply steps_app; [|apply steps_app].
  - intros z Hz. apply in_map_iff in Hz. destruct Hz as (s & <- & Hs). cbn [obj_of]. eapply only_weaken; [exact (pcall_only _ _ _ _ _ E1 Hs)|]. intros r [<-|[]]. left. reflexivity.
  - intros z Hz. apply in_map_iff in Hz. destruct Hz as (s & <- & Hs). cbn [obj_of]. eapply only_weaken; [exact (D s Hs)|]. intros r Hr. right. exact Hr.
  - intros z [<-|[]]. cbn [obj_of]. eapply only_weaken; [exact Y|]. intros r Hr. right. exact Hr.
Qed.
Lemma from_spu_steps ms b obj y tr : from_spu ms b obj = Some (y, tr) -> steps_at tr (ms ++ [b]) /\ only_at y [b].
Proof.
  unfold DeviceModel.from_spu. intros H. destruct (mapO _ ms) as [src|] eqn:E1; [|discriminate H]. destruct (mapO _ (combine _ _)) as [gath|] eqn:E2; [|discriminate H]. destruct (pcall1 _ _ _) as [y'|] eqn:E3; [|discriminate H].
  injection H as <- <-. apply pcall1_only in E3. split; [|exact E3]. apply steps_app; [|apply steps_app].
  - intros z Hz. apply in_map_iff in Hz. destruct Hz as (s & <- & Hs). cbn [obj_of]. destruct (mapO_In _ _ _ _ E1 Hs) as (m & Hm & Hp). apply pcall1_only in Hp. eapply only_weaken; [exact Hp|]. intros r [<-|[]]. apply in_app_iff. left. exact Hm.
  - intros z Hz. apply in_map_iff in Hz. destruct Hz as (s & <- & Hs). cbn [obj_of]. destruct (mapO_In _ _ _ _ E2 Hs) as (m & Hm & Hp). apply shuffle1_only in Hp. eapply only_weaken; [exact Hp|]. intros r Hr. apply in_app_iff. right. exact Hr.
  - intros z [<-|[]]. cbn [obj_of]. eapply only_weaken; [exact E3|]. intros r Hr. apply in_app_iff. right. exact Hr.
Qed.
Lemma with_session_steps a b cached tsk vsk k y tr Q :
  with_session VT V n key_t pub hkdf quote attest derive a b cached tsk vsk k = Some (y, tr) ->
  (forall sf st y tr, k sf st = Some (y, tr) -> steps_at tr [a; b] /\ only_at y Q) -> steps_at tr [a; b] /\ only_at y Q.
Proof.
  unfold with_session. intros H K. destruct cached as [[sf st]|]; [exact (K _ _ _ _ H)|]. destruct (session a b tsk vsk) as [[[sf st] tr1]|] eqn:E; [|discriminate H].
  destruct (k sf st) as [[y' tr']|] eqn:Ek; [|discriminate H]. injection H as <- <-. apply session_steps in E. destruct (K _ _ _ _ Ek) as [A B]. split; [apply steps_app; assumption|exact B].
Qed.
Theorem d2d_confined (from to_ : device) cached tsk vsk obj y tr : d2d from to_ cached tsk vsk obj = Some (y, tr) ->
  steps_at tr (dv_members from ++ dv_members to_) /\ (dv_name from = dv_name to_ /\ y = obj \/ only_at y (dv_members to_)).
Proof.
  unfold DeviceModel.d2d. intros H. destruct (String.eqb_spec (dv_name from) (dv_name to_)) as [En|En].
  { injection H as <- <-. split; [intros z []|]. left. auto. }
  assert (forall P, (exists Q, (steps_at tr Q /\ only_at y (dv_members to_)) /\ forall r, In r Q -> In r P) -> steps_at tr P /\ (dv_name from = dv_name to_ /\ y = obj \/ only_at y (dv_members to_))) as G.
  { intros P (Q & [A B] & C). split; [eapply steps_weaken; eassumption|right; exact B]. }
  destruct (dv_kind from), (dv_kind to_); try discriminate H; apply G.
  - destruct (dv_members from) as [|a [|]]; try discriminate H. destruct (dv_members to_) as [|b [|]]; try discriminate H. unfold ppu_to_ppu in H. destruct (shuffle obj [(b, a)]) as [z|] eqn:E; [|discriminate H]. injection H as <- <-.
    apply shuffle1_only in E. exists [b]. split; [split; [intros q [<-|[]]; exact E|exact E]|]. cbn. tauto.
  - destruct (dv_members from) as [|a [|]]; try discriminate H. apply to_spu_steps in H. exists (a :: dv_members to_). split; [exact H|]. cbn. tauto.
  - destruct (dv_members from) as [|a [|]]; try discriminate H. destruct (dv_members to_) as [|b [|]]; try discriminate H. apply (with_session_steps _ _ _ _ _ _ _ _ [b]) in H; [|intros sf st y' tr' Hk; exact (encrypted_steps _ _ _ _ _ _ _ Hk)]. exists [a; b]. split; [exact H|]. cbn. tauto.
  - destruct (dv_members to_) as [|b [|]]; try discriminate H. apply from_spu_steps in H. exists (dv_members from ++ [b]). split; [exact H|]. auto.
  - destruct (dv_members to_) as [|b [|]]; try discriminate H. apply from_spu_steps in H. exists (dv_members from ++ [b]). split; [exact H|]. auto.
  - destruct (dv_members from) as [|a [|]]; try discriminate H. destruct (dv_members to_) as [|b [|]]; try discriminate H. 
    apply (with_session_steps _ _ _ _ _ _ _ _ [b]) in H; [|intros sf st y' tr' Hk; destruct (encrypted_steps _ _ _ _ _ _ _ Hk) as [A B]; split; [eapply steps_weaken; [exact A|cbn; tauto]|exact B]]. exists [b; a]. split; [exact H|]. cbn. tauto.
  - destruct (dv_members from) as [|a [|]]; try discriminate H. apply to_spu_steps in H. exists (a :: dv_members to_). split; [exact H|]. cbn. tauto.
Qed.

(* ---------------------------------------------------------------- what travels *)
Lemma session_spec a b tsk vsk : a < n -> b < n -> (forall x, attest (quote x) = x) -> (forall s s', derive s (pub s') = derive s' (pub s)) ->
  exists sf st tr, session a b tsk vsk = Some ((sf, st), tr) /\ 
    plain_at sf key_t a (hkdf (derive vsk (pub tsk))) /\ plain_at st key_t b (hkdf (derive vsk (pub tsk))) /\
    (forall x r v, In (Sent _ _ x) tr -> snd x r = Some v -> (r = a /\ v = quote (pub tsk)) \/ (r = b /\ v = pub vsk)).
Proof.
  intros Ha Hb Hat Hdh. unfold DeviceModel.session.
  assert (forall p t sem xs, (forall x : object, In x xs -> parties _ (fst x) = Some [p]) -> exists y : object, pcall1 [p] (Local _ _ [t] sem) xs = Some y /\ fst y = MP _ t (Some [p]) /\ forall r, snd y r = if r =? p then sem (map (fun x : object => snd x p) xs) 0 else None) as PC.
  { intros p t sem xs H. destruct (pcall1_ok p t sem xs) as (y & E); [intros x Hx; exists [p]; split; [apply H, Hx|left; reflexivity]|]. exists y. split; [exact E|]. exact (pcall1_sound _ _ _ _ _ E). }
  assert (forall (x : object) t s, parties _ (fst x) = Some [s] -> t < n -> s < n -> exists y : object, shuffle x [(t, s)] = Some y /\ fst y = MP _ (vt _ (fst x)) (Some [t]) /\ forall r, snd y r = if r =? t then snd x s else None) as SH.
  { intros x t s H Ht Hs. destruct (shuffle1_ok x t s [s] H (or_introl eq_refl) Hs Ht) as (y & E). exists y. split; [exact E|]. exact (shuffle1 _ _ _ _ E). }
  unfold const, fn1, fn2.
  destruct (PC b key_t (fun _ _ => Some tsk) []) as (tee_sk & -> & T1 & V1); [intros x []|].
  destruct (PC b key_t (fun _ _ => Some (pub tsk)) []) as (tee_pk & -> & T2 & V2); [intros x []|].
  destruct (PC b key_t (fun (args : list (option V)) (_ : nat) => match args with [Some a0] => Some (quote a0) | _ => None end) [tee_pk]) as (q & -> & T3 & V3); [intros x [<-|[]]; rewrite T2; reflexivity|].
  destruct (SH q a b) as (q_at & -> & T4 & V4); [rewrite T3; reflexivity|exact Ha|exact Hb|].
  destruct (PC a key_t (fun (args : list (option V)) (_ : nat) => match args with [Some a0] => Some (attest a0) | _ => None end) [q_at]) as (pk_at & -> & T5 & V5); [intros x [<-|[]]; rewrite T4; reflexivity|].
  destruct (PC a key_t (fun _ _ => Some vsk) []) as (v_sk & -> & T6 & V6); [intros x []|].
  destruct (PC a key_t (fun _ _ => Some (pub vsk)) []) as (v_pk & -> & T7 & V7); [intros x []|].
  destruct (SH v_pk b a) as (v_at & -> & T8 & V8); [rewrite T7; reflexivity|exact Hb|exact Ha|].
  destruct (PC a key_t (fun (args : list (option V)) (_ : nat) => match args with [Some a0; Some b0] => Some (derive a0 b0) | _ => None end) [v_sk; pk_at]) as (sh_a & -> & T9 & V9); [intros x [<-|[<-|[]]]; [rewrite T6|rewrite T5]; reflexivity|].
  destruct (PC b key_t (fun (args : list (option V)) (_ : nat) => match args with [Some a0; Some b0] => Some (derive a0 b0) | _ => None end) [tee_sk; v_at]) as (sh_b & -> & T10 & V10); [intros x [<-|[<-|[]]]; [rewrite T1|rewrite T8]; reflexivity|].
  destruct (PC a key_t (fun (args : list (option V)) (_ : nat) => match args with [Some a0] => Some (hkdf a0) | _ => None end) [sh_a]) as (sf & -> & T11 & V11); [intros x [<-|[]]; rewrite T9; reflexivity|].
  destruct (PC b key_t (fun (args : list (option V)) (_ : nat) => match args with [Some a0] => Some (hkdf a0) | _ => None end) [sh_b]) as (st & -> & T12 & V12); [intros x [<-|[]]; rewrite T10; reflexivity|].
  cbn [map] in *. rewrite (V2 b), Nat.eqb_refl in V3. rewrite (V3 b), Nat.eqb_refl in V4. rewrite (V4 a), Nat.eqb_refl in V5. rewrite (V7 a), Nat.eqb_refl in V8.
  rewrite (V6 a), (V5 a), Nat.eqb_refl, Hat in V9. rewrite (V1 b), (V8 b), Nat.eqb_refl in V10. rewrite (V9 a), Nat.eqb_refl in V11. rewrite (V10 b), Nat.eqb_refl, Hdh in V12.
  do 3 eexists. split; [reflexivity|]. split; [apply plain_of; [exact T11|exact V11]|]. split; [apply plain_of; [exact T12|exact V12]|].
  intros x r v Hx Hv. cbn [In] in Hx. repeat destruct Hx as [Hx|Hx]; try discriminate Hx; try contradiction; injection Hx as <-.
  - rewrite V4 in Hv. destruct (Nat.eqb_spec r a) as [->|]; [|discriminate Hv]. injection Hv as <-. left. auto.
  - rewrite V8 in Hv. destruct (Nat.eqb_spec r b) as [->|]; [|discriminate Hv]. injection Hv as <-. right. auto.
Qed.

Lemma encrypted_spec a b ka kb (obj : object) k t v : a < n -> b < n -> plain_at ka key_t a k -> plain_at kb key_t b k -> plain_at obj t a v -> (forall k v, decrypt k (encrypt k v) = v) ->
  exists y tr, encrypted a b ka kb obj = Some (y, tr) /\ plain_at y t b v /\ (forall x r w, In (Sent _ _ x) tr -> snd x r = Some w -> r = b /\ w = encrypt k v).
Proof.
  intros Ha Hb (K1 & K2 & K3 & K4) (L1 & L2 & L3 & L4) (O1 & O2 & O3 & O4) Hd. unfold DeviceModel.encrypted, fn2.
  destruct (pcall1_ok a key_t (fun (args : list (option V)) (_ : nat) => match args with [Some a0; Some b0] => Some (encrypt a0 b0) | _ => None end) [ka; obj]) as (ct & E1).
  { intros x [<-|[<-|[]]]; [rewrite K2|rewrite O2]; exists [a]; (split; [reflexivity|left; reflexivity]). }
  rewrite E1. apply pcall1_sound in E1. destruct E1 as [T1 V1]. cbn [map] in V1. rewrite K3, O3 in V1.
  destruct (shuffle1_ok ct b a [a]) as (ct_at & E2); [rewrite T1; reflexivity|left; reflexivity|exact Ha|exact Hb|]. rewrite E2. apply shuffle1 in E2. destruct E2 as [T2 V2]. rewrite (V1 a), Nat.eqb_refl in V2.
  destruct (pcall1_ok b (vt _ (fst obj)) (fun (args : list (option V)) (_ : nat) => match args with [Some a0; Some b0] => Some (decrypt a0 b0) | _ => None end) [kb; ct_at]) as (y & E3).
  { intros x [<-|[<-|[]]]; [rewrite L2|rewrite T2]; exists [b]; (split; [reflexivity|left; reflexivity]). }
  rewrite E3. apply pcall1_sound in E3. destruct E3 as [T3 V3]. cbn [map] in V3. rewrite L3, (V2 b), Nat.eqb_refl, Hd in V3. rewrite O1 in T3.
  do 2 eexists. split; [reflexivity|]. split; [apply plain_of; assumption|]. intros x r w Hx Hw. cbn in Hx. destruct Hx as [Hx|[Hx|[Hx|[]]]]; try discriminate Hx. injection Hx as <-. rewrite V2 in Hw. destruct (Nat.eqb_spec r b); [|discriminate Hw]. injection Hw as <-. auto.
Qed.

(** sharing and revealing *)
Lemma NoDup_nth_inj {A : Type} (l : list A) i j x : NoDup l -> nth_error l i = Some x -> nth_error l j = Some x -> i = j.
Proof. intros ND Hi Hj. apply (proj1 (NoDup_nth_error l) ND); [apply nth_error_Some; congruence|congruence]. Qed.
Lemma singles_disjoint (l : list nat) : NoDup l -> ForallOrdPairs disjoint (map (fun i => [i]) l).
Proof.
  induction 1 as [|a l N ND IH]; cbn; constructor; [|exact IH]. apply Forall_forall. intros q Hq. apply in_map_iff in Hq. destruct Hq as (b & <- & Hb). intros r [<-|[]] [<-|[]]. contradiction.
Qed.
Lemma concat_singles (l : list nat) : concat (map (fun i => [i]) l) = l.
Proof. induction l as [|a l IH]; [reflexivity|]. cbn. f_equal. exact IH. Qed.

Lemma to_spu_spec a ms (obj : object) t v : a < n -> (forall m, In m ms -> m < n) -> NoDup ms -> ms <> [] -> plain_at obj t a v -> length (make_shares v (length ms)) = length ms ->
  exists y tr, to_spu a ms obj = Some (y, tr) /\
    (exists Q, parties _ (fst y) = Some Q /\ forall r, In r Q <-> In r ms) /\ vt _ (fst y) = share_t /\
    (forall i r, nth_error ms i = Some r -> snd y r = nth_error (make_shares v (length ms)) i) /\ only_at y ms /\
    (forall z r w, In z tr -> snd (obj_of z) r = Some w -> r <> a -> exists i, nth_error ms i = Some r /\ nth_error (make_shares v (length ms)) i = Some w).
Proof.
  intros Ha Hms ND Hne (O1 & O2 & O3 & O4) Hlen. unfold DeviceModel.to_spu.
  set (deal := Local VT V (repeat share_t (length ms)) _).
  destruct (pcall_ok a deal [obj]) as (shares & E1); [intros x [<-|[]]; exists [a]; split; [exact O2|left; reflexivity]|]. rewrite E1. pose proof (pcall_sound _ _ _ _ E1) as [L1 K1]. cbn [lf_out deal] in L1. rewrite repeat_length in L1.
  assert (forall i s, nth_error shares i = Some s -> fst s = MP _ share_t (Some [a]) /\ forall r, snd s r = if r =? a then nth_error (make_shares v (length ms)) i else None) as SH.
  { intros i s Hs. destruct (K1 i s Hs) as (t' & Et & A & B). cbn [lf_out deal] in Et. assert (In t' (repeat share_t (length ms))) as Hin by (apply nth_error_In with i; exact Et). apply repeat_spec in Hin. subst t'. split; [exact A|]. intros r. rewrite B. cbn [lf_sem deal map]. rewrite O3. reflexivity. }
  assert (forall ts, In ts (combine ms shares) -> exists y, shuffle (snd ts) [(fst ts, a)] = Some y) as SO.
  { intros [m s] Hi. apply In_nth_error in Hi. destruct Hi as (i & Hi). apply nth_combine in Hi. cbn [fst snd] in *. destruct Hi as [Hm Hs]. destruct (SH i s Hs) as [A _].
    apply (shuffle1_ok s m a [a]); [rewrite A; reflexivity|left; reflexivity|exact Ha|apply Hms, (nth_error_In _ _ Hm)]. }
  destruct (mapO_total (fun ts : nat * object => shuffle (snd ts) [(fst ts, a)]) (combine ms shares) SO) as (dealt & E2). rewrite E2. pose proof (mapO_nth _ _ _ E2) as [L2 K2]. rewrite combine_length, L1, Nat.min_id in L2.
  assert (forall i z, nth_error dealt i = Some z -> exists m, nth_error ms i = Some m /\ fst z = MP _ share_t (Some [m]) /\ forall r, snd z r = if r =? m then nth_error (make_shares v (length ms)) i else None) as DI.
  { intros i z Hz. assert (i < length ms) as Hi by (rewrite <- L2; apply nth_error_Some; congruence).
    destruct (nth_error ms i) as [m|] eqn:Em; [|apply nth_error_None in Em; lia]. destruct (nth_error shares i) as [s|] eqn:Es; [|apply nth_error_None in Es; lia].
    destruct (K2 i (m, s)) as (z' & Hz' & Hs); [apply nth_combine; auto|]. cbn [fst snd] in Hs. rewrite Hz in Hz'. injection Hz' as <-. destruct (SH i s Es) as [A B].
    apply shuffle1 in Hs. destruct Hs as [C D]. exists m. split; [reflexivity|]. split; [rewrite C, A; reflexivity|]. intros r. rewrite D, (B a), Nat.eqb_refl. reflexivity. }
  assert (map (parties VT) (map fst dealt) = map Some (map (fun i => [i]) ms)) as PP.
  { assert (forall (d : list object) (m : list nat), length d = length m -> (forall i z, nth_error d i = Some z -> exists q, nth_error m i = Some q /\ parties _ (fst z) = Some [q]) -> map (parties VT) (map fst d) = map Some (map (fun i => [i]) m)) as G.
    { induction d as [|z d IH]; intros [|q m] L H; try discriminate L; [reflexivity|]. cbn [map]. f_equal.
      - destruct (H 0 z eq_refl) as (q' & E & A). cbn in E. injection E as <-. exact A.
      - apply IH; [cbn in L; congruence|]. intros i w Hw. exact (H (S i) w Hw). }
    apply G; [exact L2|]. intros i z Hz. destruct (DI i z Hz) as (m & Em & A & _). exists m. split; [exact Em|]. rewrite A. reflexivity. }
  assert (exists ty, type_converge VT vt_eqb (map fst dealt) = Some ty) as (ty & Ety).
  { apply (converge_iff vt_eqb vt_eqb_spec _ _ PP). split; [|split].
    - intros C. apply Hne. destruct ms; [reflexivity|]. destruct dealt; [discriminate L2|discriminate C].
    - assert (forall q, In q (map fst dealt) -> vt _ q = share_t) as G.
      { intros q Hq. apply in_map_iff in Hq. destruct Hq as (z & <- & Hz). apply In_nth_error in Hz. destruct Hz as (i & Hz). destruct (DI i z Hz) as (m & _ & A & _). rewrite A. reflexivity. }
      intros x y Hx Hy. rewrite (G x Hx), (G y Hy). reflexivity.
    - apply singles_disjoint, ND. }
  destruct (converge VT V vt_eqb dealt) as [y|] eqn:E3; [|unfold converge in E3; rewrite Ety in E3; discriminate E3].
  assert (forall (x : object) r, In x dealt -> exists P, parties _ (fst x) = Some P /\ (In r P <-> snd x r <> None)) as HX.
  { intros x r' Hx. apply In_nth_error in Hx. destruct Hx as (j & Hj). destruct (DI j x Hj) as (m' & Em' & A' & B'). exists [m']. split; [rewrite A'; reflexivity|]. rewrite B'. 
  assert (nth_error (make_shares v (length ms)) j <> None) as NN by (apply nth_error_Some; rewrite Hlen; apply nth_error_Some; congruence).
  destruct (Nat.eqb_spec r' m') as [->|Nr]; split; intros HH; [exact NN|left; reflexivity|destruct HH as [HH|[]]; congruence|congruence]. }
  assert (forall i r, nth_error ms i = Some r -> snd y r = nth_error (make_shares v (length ms)) i) as YV.
  { intros i r Hr. destruct (nth_error dealt i) as [z|] eqn:Ez; [|apply nth_error_None in Ez; assert (i < length ms) by (apply nth_error_Some; congruence); lia].
    destruct (DI i z Ez) as (m & Em & A & B). rewrite Hr in Em. injection Em as <-.
    rewrite (proj1 (converge_values vt_eqb vt_eqb_spec dealt y HX E3) z [r] r (nth_error_In _ _ Ez)); [rewrite B, Nat.eqb_refl; reflexivity|rewrite A; reflexivity|left; reflexivity]. }
  exists y. eexists. split; [reflexivity|].
  assert (fst y = ty) as Fy by (unfold converge in E3; rewrite Ety in E3; injection E3 as <-; reflexivity).
  destruct (converge_type vt_eqb vt_eqb_spec _ _ ty PP Ety) as [TV TP]. rewrite concat_singles in TP. split; [|split; [|split; [exact YV|split]]].
  - rewrite Fy. destruct TP as [[C _]|[_ (Q & HQ & _ & HI)]]; [congruence|]. eauto.
  - rewrite Fy. destruct dealt as [|z0 dealt0]; [destruct ms; [congruence|discriminate L2]|]. rewrite (TV (fst z0) (or_introl eq_refl)). destruct (DI 0 z0 eq_refl) as (m & _ & A & _). rewrite A. reflexivity.
  - assert (to_spu a ms obj = Some (y, map (Made VT V) shares ++ map (Sent VT V) dealt ++ [Made VT V y])) as ET.
    { unfold DeviceModel.to_spu. fold deal. rewrite E1, E2, E3. reflexivity. }
    exact (proj2 (to_spu_steps _ _ _ _ _ ET)).
  - intros z r w Hz Hw Hr. apply in_app_iff in Hz. destruct Hz as [Hz|Hz]; [|apply in_app_iff in Hz; destruct Hz as [Hz|[<-|[]]]].
    + apply in_map_iff in Hz. destruct Hz as (s & <- & Hs). cbn [obj_of] in Hw. apply In_nth_error in Hs. destruct Hs as (i & Hs). destruct (SH i s Hs) as [_ B]. rewrite B in Hw. destruct (Nat.eqb_spec r a); [contradiction|discriminate Hw].
    + apply in_map_iff in Hz. destruct Hz as (s & <- & Hs). cbn [obj_of] in Hw. apply In_nth_error in Hs. destruct Hs as (i & Hs). destruct (DI i s Hs) as (m & Em & _ & B). rewrite B in Hw. destruct (Nat.eqb_spec r m) as [->|]; [|discriminate Hw]. eauto.
    + cbn [obj_of] in Hw. destruct (in_dec Nat.eq_dec r ms) as [Hin|Hin].
      * apply In_nth_error in Hin. destruct Hin as (i & Hi). exists i. split; [exact Hi|]. rewrite <- (YV i r Hi). exact Hw.
      * exfalso. assert (only_at y ms) as OY.
        { assert (to_spu a ms obj = Some (y, map (Made VT V) shares ++ map (Sent VT V) dealt ++ [Made VT V y])) as ET by (unfold DeviceModel.to_spu; fold deal; rewrite E1, E2, E3; reflexivity). exact (proj2 (to_spu_steps _ _ _ _ _ ET)). }
        rewrite (OY r Hin) in Hw. discriminate Hw.
Qed.

Lemma all_some_map {A : Type} (l : list A) : all_some (map Some l) = Some l.
Proof. induction l as [|a l IH]; [reflexivity|]. cbn. rewrite IH. reflexivity. Qed.
Lemma from_spu_spec b ms (obj : object) Q (sh : list V) : b < n -> (forall m, In m ms -> m < n) -> parties _ (fst obj) = Some Q -> (forall m, In m ms -> In m Q) ->
  length sh = length ms -> (forall i r, nth_error ms i = Some r -> snd obj r = nth_error sh i) ->
  exists y tr, from_spu ms b obj = Some (y, tr) /\ plain_at y (vt _ (fst obj)) b (reconstruct sh).
Proof.
  intros Hb Hms HP HQ Hlen Hv. unfold DeviceModel.from_spu, fn1.
  set (pick := fun src : nat => pcall1 [src] (Local VT V [share_t] (fun (args : list (option V)) (_ : nat) => match args with [Some a] => Some a | _ => None end)) [obj]).
  destruct (mapO_total pick ms) as (src & E1).
  { intros m Hm. unfold pick. apply pcall1_ok. intros x [<-|[]]. exists Q. auto. }
  rewrite E1. pose proof (mapO_nth _ _ _ E1) as [L1 K1].
  assert (forall i s, nth_error src i = Some s -> exists m, nth_error ms i = Some m /\ fst s = MP _ share_t (Some [m]) /\ snd s m = nth_error sh i) as SI.
  { intros i s Hs. destruct (nth_error ms i) as [m|] eqn:Em; [|apply nth_error_None in Em; assert (i < length src) by (apply nth_error_Some; congruence); lia].
    destruct (K1 i m Em) as (s' & Es' & Hp). rewrite Hs in Es'. injection Es' as <-. unfold pick in Hp. apply pcall1_sound in Hp. destruct Hp as [A B]. exists m. split; [reflexivity|]. split; [exact A|]. rewrite B, Nat.eqb_refl. cbn. rewrite (Hv i m Em). destruct (nth_error sh i); reflexivity. }
  destruct (mapO_total (fun ss : nat * object => shuffle (snd ss) [(b, fst ss)]) (combine ms src)) as (g & E2).
  { intros [m s] Hi. apply In_nth_error in Hi. destruct Hi as (i & Hi). apply nth_combine in Hi. cbn [fst snd] in *. destruct Hi as [Hm Hs]. destruct (SI i s Hs) as (m' & Hm' & A & _). rewrite Hm in Hm'. injection Hm' as <-.
    apply (shuffle1_ok s b m [m]); [rewrite A; reflexivity|left; reflexivity|apply Hms, (nth_error_In _ _ Hm)|exact Hb]. }
  rewrite E2. pose proof (mapO_nth _ _ _ E2) as [L2 K2]. rewrite combine_length, L1, Nat.min_id in L2.
  assert (forall i z, nth_error g i = Some z -> parties _ (fst z) = Some [b] /\ snd z b = nth_error sh i) as GI.
  { intros i z Hz. assert (i < length ms) as Hi by (rewrite <- L2; apply nth_error_Some; congruence).
    destruct (nth_error ms i) as [m|] eqn:Em; [|apply nth_error_None in Em; lia]. destruct (nth_error src i) as [s|] eqn:Es; [|apply nth_error_None in Es; lia].
    destruct (K2 i (m, s)) as (z' & Hz' & Hs); [apply nth_combine; auto|]. cbn [fst snd] in Hs. rewrite Hz in Hz'. injection Hz' as <-. destruct (SI i s Es) as (m' & Hm' & A & B). rewrite Em in Hm'. injection Hm' as <-.
    apply shuffle1 in Hs. destruct Hs as [C D]. split; [rewrite C; reflexivity|]. rewrite D, Nat.eqb_refl. exact B. }
  set (rc := fun (args : list (option V)) (_ : nat) => option_map reconstruct (all_some args)).
  destruct (pcall1_ok b (vt _ (fst obj)) rc g) as (y & E3).
  { intros x Hx. apply In_nth_error in Hx. destruct Hx as (i & Hx). destruct (GI i x Hx) as [A _]. exists [b]. split; [exact A|left; reflexivity]. }
  rewrite E3. do 2 eexists. split; [reflexivity|]. apply pcall1_sound in E3. destruct E3 as [A B]. apply plain_of; [exact A|]. intros r. rewrite B. 
  replace (map (fun x : object => snd x b) g) with (map Some sh); [unfold rc; rewrite all_some_map; reflexivity|].
  assert (forall (g : list object) (sh : list V), length sh = length g -> (forall i z, nth_error g i = Some z -> snd z b = nth_error sh i) -> map Some sh = map (fun x : object => snd x b) g) as G.
  { clear. induction g as [|z g IH]; intros [|s sh] L H; try discriminate L; [reflexivity|]. cbn [map]. f_equal; [symmetry; exact (H 0 z eq_refl)|]. apply IH; [cbn in L; congruence|]. intros i w Hw. exact (H (S i) w Hw). }
  apply G; [congruence|]. intros i z Hz. exact (proj2 (GI i z Hz)).
Qed.
End T.

(* ---------------------------------------------------------------- share order *)
Lemma index_of_spec r l i : index_of r l = Some i <-> nth_error l i = Some r /\ forall j, j < i -> nth_error l j <> Some r.
Proof.
  revert i. induction l as [|x l IH]; intros i; cbn [index_of].
  - split; [discriminate|]. intros [H _]. destruct i; discriminate H.
  - destruct (Nat.eqb_spec x r) as [->|N].
    + split; [intros E; injection E as <-; split; [reflexivity|intros j Hj; lia]|]. intros [H K]. destruct i as [|i]; [reflexivity|]. exfalso. apply (K 0); [lia|reflexivity].
    + destruct i as [|i].
      * split; [destruct (index_of r l); discriminate|]. intros [H _]. cbn in H. congruence.
      * destruct (index_of r l) as [k|] eqn:E; cbn [option_map].
        -- split.
           ++ intros Ek. injection Ek as <-. destruct (proj1 (IH k) eq_refl) as [A B]. split; [exact A|]. intros [|j] Hj; [cbn; congruence|]. apply B. lia.
           ++ intros [A B]. f_equal. f_equal. assert (Some k = Some i) as Eq; [|congruence]. apply IH. split; [exact A|]. intros j Hj. apply (B (S j)). lia.
        -- split; [discriminate|]. intros [A B]. exfalso. assert (@None nat = Some i) as Eq; [|discriminate Eq]. apply IH. split; [exact A|]. intros j Hj. apply (B (S j)). lia.
Qed.
Lemma index_nth (l : list nat) i r : NoDup l -> nth_error l i = Some r -> index_of r l = Some i.
Proof.
  intros ND H. apply index_of_spec. split; [exact H|]. intros j Hj E. assert (i = j); [|lia]. apply (proj1 (NoDup_nth_error l) ND); [apply nth_error_Some; congruence|congruence].
Qed.
Lemma sorted_NoDup l : StronglySorted lt l -> NoDup l.
Proof. induction 1 as [|a l S IH F]; constructor; [|exact IH]. rewrite Forall_forall in F. intros H. specialize (F a H). lia. Qed.
Lemma norm_of_sorted l : StronglySorted lt l -> norm l = l.
Proof. intros H. apply sorted_ext; [apply norm_sorted|exact H|]. intros r. apply norm_In. Qed.
Lemma share_order_iff ms : NoDup ms -> ((forall r, In r ms -> share_index ms r = local_rank ms r) <-> StronglySorted lt ms).
Proof.
  intros ND. unfold share_index, local_rank. split.
  - intros H. assert (forall i r, nth_error ms i = Some r -> nth_error (norm ms) i = Some r) as K.
    { intros i r Hi. pose proof (H r (nth_error_In _ _ Hi)) as E. rewrite (index_nth ms i r ND Hi) in E. symmetry in E. apply index_of_spec in E. tauto. }
    assert (length (norm ms) = length ms) as L.
    { apply Permutation_length. apply NoDup_Permutation; [apply sorted_NoDup, norm_sorted|exact ND|]. intros r. apply norm_In. }
    replace ms with (norm ms) at 1; [apply norm_sorted|]. apply nth_error_ext_. intros i. destruct (nth_error ms i) as [r|] eqn:E; [apply K, E|]. apply nth_error_None in E. apply nth_error_None. lia.
  - intros S r _. rewrite (norm_of_sorted ms S). reflexivity.
Qed.

(* ---------------------------------------------------------------- sessions *)
Lemma key_eqb_eq a b : key_eqb a b = true <-> a = b.
Proof. unfold key_eqb. rewrite andb_true_iff, !String.eqb_eq. destruct a, b; cbn. split; [intros [-> ->]; reflexivity|intros E; injection E; auto]. Qed.
Lemma ensure_inv (R : nat -> nat -> Prop) c k cur s c' : (forall e, In e c -> R (fst (snd e)) (snd (snd e))) -> R (ctx_addr cur) (ctx_serial cur) ->
  ensure_session c k cur = (s, c') -> R (ctx_addr cur) s /\ (forall e, In e c' -> R (fst (snd e)) (snd (snd e))).
Proof.
  intros Hc Hcur. unfold ensure_session. destruct (find _ c) as [[k0 [cid serial]]|] eqn:F.
  - apply find_some in F. destruct F as [Hin _]. pose proof (Hc _ Hin) as HR. cbn in HR. destruct (Nat.eqb_spec cid (ctx_addr cur)) as [->|N]; intros E; injection E as <- <-; [auto|].
    split; [exact Hcur|]. intros e [<-|He]; [exact Hcur|]. apply filter_In in He. apply Hc. tauto.
  - intros E. injection E as <- <-. split; [exact Hcur|]. intros e [<-|He]; [exact Hcur|apply Hc, He].
Qed.
Lemma run_sessions_ok (serial_of : nat -> nat) l : forall c, (forall e, In e c -> snd (snd e) = serial_of (fst (snd e))) -> (forall k cur, In (k, cur) l -> ctx_serial cur = serial_of (ctx_addr cur)) ->
  run_sessions c l = map (fun kc => ctx_serial (snd kc)) l.
Proof.
  induction l as [|[k cur] l IH]; intros c Hc Hl; [reflexivity|]. cbn [run_sessions map snd]. destruct (ensure_session c k cur) as [s c'] eqn:E.
  destruct (ensure_inv (fun a s => s = serial_of a) c k cur s c' Hc (Hl k cur (or_introl eq_refl)) E) as [A B]. rewrite A, (Hl k cur (or_introl eq_refl)). f_equal. apply IH; [exact B|]. intros k' cur' H. apply (Hl k' cur'). right. exact H.
Qed.

(* ---------------------------------------------------------------- links *)
Lemma link_key_eqb_eq a b : link_key_eqb a b = true -> a = b.
Proof.
  destruct a as [[[r s] c] e], b as [[[r' s'] c'] e']. unfold link_key_eqb. rewrite !andb_true_iff, !Nat.eqb_eq. intros (((-> & ->) & ->) & H). f_equal.
  destruct e as [l|], e' as [l'|]; try discriminate H; [|reflexivity]. f_equal. apply andb_true_iff in H. destruct H as [L F]. apply Nat.eqb_eq in L.
  revert l' L F. induction l as [|x l IH]; intros [|y l'] L F; try discriminate L; [reflexivity|]. cbn in F. apply andb_true_iff in F. destruct F as [F1 F2]. apply String.eqb_eq in F1. cbn in F1. subst. f_equal. apply IH; [cbn in L; congruence|exact F2].
Qed.
Lemma run_execs_ok endpoint me (es : list spu_exec) : 
  (forall e e' k, In e es -> In e' es -> key_of endpoint me e = Some k -> key_of endpoint me e' = Some k -> ex_parties e = ex_parties e') ->
  forall rs, run_execs endpoint me [] es = Some rs -> rs = map ex_parties es.
Proof.
  intros H. assert (forall l c, (forall e, In e l -> In e es) -> (forall k ps, In (k, ps) c -> exists e, In e es /\ key_of endpoint me e = Some k /\ ex_parties e = ps) ->
    forall rs, run_execs endpoint me c l = Some rs -> rs = map ex_parties l) as G.
  { induction l as [|e l IH]; intros c Hl Hc rs R; cbn in R; [injection R as <-; reflexivity|]. unfold get_link in R. destruct (key_of endpoint me e) as [k|] eqn:Ek; [|discriminate R].
    destruct (find (fun x => link_key_eqb (fst x) k) c) as [[k0 ps]|] eqn:F.
    - apply find_some in F. destruct F as [Hin Heq]. cbn in Heq. apply link_key_eqb_eq in Heq. subst k0. destruct (run_execs endpoint me c l) as [rs'|] eqn:R'; [|discriminate R]. injection R as <-. cbn. f_equal.
      + destruct (Hc k ps Hin) as (e' & He' & Hk' & <-). apply (H e' e k); auto. apply Hl. left. reflexivity.
      + apply (IH c); [intros e' He'; apply Hl; right; exact He'|exact Hc|exact R'].
    - destruct (run_execs endpoint me ((k, ex_parties e) :: c) l) as [rs'|] eqn:R'; [|discriminate R]. injection R as <-. cbn. f_equal. apply (IH ((k, ex_parties e) :: c)); [intros e' He'; apply Hl; right; exact He'| |exact R'].
      intros k' ps' [E|E]; [injection E as <- <-; exists e; split; [apply Hl; left; reflexivity|auto]|apply Hc, E]. }
  intros rs R. apply (G es []); auto. intros k ps [].
Qed.
Lemma map_inj_on {A B : Type} (f : A -> B) (P : A -> Prop) l l' : (forall x y, P x -> P y -> f x = f y -> x = y) -> Forall P l -> Forall P l' -> map f l = map f l' -> l = l'.
Proof.
  intros H. revert l'. induction l as [|x l IH]; intros [|y l'] F F' E; try discriminate E; [reflexivity|]. cbn in E. injection E as E1 E2. inversion F; inversion F'; subst. f_equal; [apply H; assumption|apply IH; assumption].
Qed.

(* ---------------------------------------------------------------- handshakes *)
(** the context of the latest earlier request for a pair; [before] lists them latest first *)
Definition latest_for (k : string * string) (before : list ((string * string) * ctx)) : option nat :=
  option_map (fun e => ctx_addr (snd e)) (find (fun e => key_eqb (fst e) k) before).
Lemma find_filter_other c k k' : k <> k' -> find (fun e : (string * string) * (nat * nat) => key_eqb (fst e) k') (filter (fun e => negb (key_eqb (fst e) k)) c) = find (fun e => key_eqb (fst e) k') c.
Proof.
  intros N. induction c as [|e c IH]; [reflexivity|]. cbn [filter find]. destruct (key_eqb (fst e) k) eqn:E; cbn [negb find].
  - destruct (key_eqb (fst e) k') eqn:E'; [|exact IH]. apply key_eqb_eq in E, E'. congruence.
  - destruct (key_eqb (fst e) k'); [reflexivity|exact IH].
Qed.
Lemma key_eqb_refl k : key_eqb k k = true.
Proof. apply key_eqb_eq. reflexivity. Qed.
Lemma run_handshakes_ok l : forall c before, (forall k, option_map (fun e => fst (snd e)) (find (fun e => key_eqb (fst e) k) c) = latest_for k before) ->
  forall i k cur, nth_error l i = Some (k, cur) ->
  nth_error (run_handshakes c l) i = Some (match latest_for k (rev (firstn i l) ++ before) with Some a => negb (a =? ctx_addr cur) | None => true end).
Proof.
  induction l as [|[k0 cur0] l IH]; intros c before H [|i] k cur E; try discriminate E.
  - injection E as -> ->. cbn [run_handshakes nth_error firstn rev app]. f_equal. rewrite <- H. unfold makes_handshake. destruct (find _ c) as [[k1 [a s]]|]; reflexivity.
  - cbn [nth_error] in E. cbn [run_handshakes nth_error firstn rev]. rewrite <- app_assoc. cbn [app]. apply IH; [|exact E].
    intros k'. unfold latest_for. cbn [find fst]. destruct (key_eqb k0 k') eqn:K.
    + apply key_eqb_eq in K. subst k'. cbn [option_map snd]. unfold ensure_session.
      destruct (find (fun e => key_eqb (fst e) k0) c) as [[k1 [a s]]|] eqn:F; [destruct (a =? ctx_addr cur0) eqn:A|]; cbn [snd].
      * rewrite F. cbn. apply Nat.eqb_eq in A. congruence.
      * cbn [find fst]. rewrite key_eqb_refl. reflexivity.
      * cbn [find fst]. rewrite key_eqb_refl. reflexivity.
    + fold (latest_for k' before). rewrite <- H. f_equal. assert (k0 <> k') as N by (intros ->; rewrite key_eqb_refl in K; discriminate K). unfold ensure_session.
      destruct (find (fun e => key_eqb (fst e) k0) c) as [[k1 [a s]]|] eqn:F; [destruct (a =? ctx_addr cur0) eqn:A|]; cbn [snd].
      * reflexivity.
      * cbn [find fst]. rewrite K. apply find_filter_other, N.
      * cbn [find fst]. rewrite K. reflexivity.
Qed.
