From Coq Require Import List String Bool Arith Lia.
From Verif Require Import CtxModel MorphModel MorphProofs TraceModel.
Import ListNotations.
Local Open Scope list_scope.

Lemma ref_eqb_eq a b : ref_eqb a b = true <-> a = b.
Proof.
  destruct a as [a1 a2], b as [b1 b2]. unfold ref_eqb. cbn. rewrite andb_true_iff, !Nat.eqb_eq. split; [intros [-> ->]|intros E; injection E]; auto.
Qed.
Lemma ref_eqb_refl a : ref_eqb a a = true. Proof. now apply ref_eqb_eq. Qed.
Lemma cap_find_some r : forall l g, cap_find r l = Some g -> In (r, g) l.
Proof.
  induction l as [|[r' g'] l IH]; cbn; intros g E; [discriminate|]. destruct (ref_eqb r' r) eqn:H; auto.
  apply ref_eqb_eq in H. subst. injection E as <-. auto.
Qed.
Lemma cap_find_none r : forall l, cap_find r l = None -> ~ In r (map fst l).
Proof.
  induction l as [|[r' g'] l IH]; cbn; intros E; [tauto|]. destruct (ref_eqb r' r) eqn:H; [discriminate|].
  intros [->|Hi]; [rewrite ref_eqb_refl in H; discriminate|now apply IH].
Qed.
Lemma cap_find_in r g : forall l, NoDup (map fst l) -> In (r, g) l -> cap_find r l = Some g.
Proof.
  induction l as [|[r' g'] l IH]; cbn; intros N Hi; [tauto|]. inversion N; subst. destruct Hi as [E|Hi].
  - injection E as -> ->. now rewrite ref_eqb_refl.
  - destruct (ref_eqb r' r) eqn:H; auto. apply ref_eqb_eq in H. subst. exfalso. apply H1. now apply (in_map fst) in Hi.
Qed.

Lemma Forall2_len {A B} (R : A -> B -> Prop) l m : Forall2 R l m -> List.length l = List.length m.
Proof. induction 1; cbn; auto. Qed.

Section Sound.
  Context {C V : Type}.
  Notation tval := (tval C).
  Notation dval := (dval C V).
  Notation tst := (tst C).

  Lemma gvs_v g l : gvs (TV g :: l : list tval) = g :: gvs l. Proof. reflexivity. Qed.
  Lemma gvs_c c l : gvs (TC c :: l : list tval) = gvs l. Proof. reflexivity. Qed.
  Lemma objs_v v l : objs (DV v :: l : list dval) = v :: objs l. Proof. reflexivity. Qed.
  Lemma objs_c c l : objs (DC c :: l : list dval) = objs l. Proof. reflexivity. Qed.
  Lemma consts_v g l : consts (TV g :: l : list tval) = consts l. Proof. reflexivity. Qed.
  Lemma consts_c c l : consts (TC c :: l : list tval) = c :: consts l. Proof. reflexivity. Qed.
  Definition dcs (ds : list dval) : list C := flat_map (fun d => match d with DC c => [c] | _ => [] end) ds.
  Lemma dcs_v v l : dcs (DV v :: l : list dval) = dcs l. Proof. reflexivity. Qed.
  Lemma dcs_c c l : dcs (DC c :: l : list dval) = c :: dcs l. Proof. reflexivity. Qed.
  Local Arguments consts : simpl never. Local Arguments dcs : simpl never.
  Local Arguments gvs : simpl never. Local Arguments objs : simpl never.
  Ltac gv := rewrite ?gvs_v, ?gvs_c, ?objs_v, ?objs_c, ?consts_v, ?consts_c, ?dcs_v, ?dcs_c in *.

  (** ** environments *)
  Lemma bind_all_spec : forall gs vs (e : env V), NoDup gs -> List.length gs = List.length vs ->
    exists e', bind_all e gs vs = Some e' /\ get_all e' gs = Some vs /\ forall g, ~ In g gs -> e' g = e g.
  Proof.
    induction gs as [|g gs IH]; intros [|v vs] e N L; try discriminate; cbn in *; [exists e; auto|].
    inversion N; subst. destruct (IH vs (set1 e g v)) as (e' & E1 & E2 & E3); auto. exists e'. split; auto. split.
    - rewrite E2. rewrite (E3 g) by auto. unfold set1. now rewrite Nat.eqb_refl.
    - intros x Hx. rewrite E3 by tauto. unfold set1. destruct (Nat.eqb_spec x g); auto. subst. exfalso. apply Hx. now left.
  Qed.
  Lemma bind_all_len : forall gs vs (e e' : env V), bind_all e gs vs = Some e' -> List.length gs = List.length vs.
  Proof. induction gs as [|g gs IH]; intros [|v vs] e e' E; try discriminate; cbn; auto. f_equal. eapply IH. exact E. Qed.
  Lemma get_all_len : forall gs (e : env V) vs, get_all e gs = Some vs -> List.length vs = List.length gs.
  Proof.
    induction gs as [|g gs IH]; intros e vs E; cbn in *; [injection E as <-; auto|].
    destruct (e g); [|discriminate]. destruct (get_all e gs) eqn:E'; [|discriminate]. injection E as <-. cbn. f_equal. eauto.
  Qed.
  Lemma get_all_app : forall a b (e : env V) va vb, get_all e a = Some va -> get_all e b = Some vb -> get_all e (a ++ b) = Some (va ++ vb).
  Proof.
    induction a as [|g a IH]; intros b e va vb Ea Eb; cbn in *; [injection Ea as <-; auto|].
    destruct (e g); [|discriminate]. destruct (get_all e a) eqn:E'; [|discriminate]. injection Ea as <-. now rewrite (IH b e l vb).
  Qed.
  Lemma get_all_nth : forall gs (e : env V) vs i g v, get_all e gs = Some vs -> nth_error gs i = Some g -> nth_error vs i = Some v -> e g = Some v.
  Proof.
    induction gs as [|g0 gs IH]; intros e vs [|i] g v E Hg Hv; cbn in *; try discriminate.
    - injection Hg as ->. destruct (e g); [|discriminate]. destruct (get_all e gs); [|discriminate]. injection E as <-. auto.
    - destruct (e g0); [|discriminate]. destruct (get_all e gs) eqn:E'; [|discriminate]. injection E as <-. cbn in Hv. eauto.
  Qed.

  (** ** relations *)
  Definition orel (t : tval) (d : dval) : Prop := match t, d with TV _, DV _ => True | TC c, DC d => c = d | _, _ => False end.
  Definition trel (e : env V) (t : tval) (d : dval) : Prop :=
    match t, d with TV g, DV v => e g = Some v | TC c, DC d => c = d | _, _ => False end.
  Definition outer_rel (outer : list (list tval)) (denv : list (list dval)) : Prop := Forall2 (Forall2 orel) outer denv.
  Definition olook {T} (outer : list (list T)) (r : ref) : option T :=
    match nth_error outer (fst r) with Some f => nth_error f (snd r) | None => None end.

  Lemma trel_orel e t d : trel e t d -> orel t d.
  Proof. destruct t, d; cbn; auto. Qed.
  Lemma trels_orels e ts ds : Forall2 (trel e) ts ds -> Forall2 orel ts ds.
  Proof. induction 1; constructor; auto. eapply trel_orel; eauto. Qed.
  Lemma rel_get e : forall ts ds, Forall2 (trel e) ts ds -> get_all e (gvs ts) = Some (objs ds).
  Proof.
    induction 1 as [|t d ts ds H F IH]; auto. destruct t, d; cbn in H; try tauto; gv; auto. cbn. now rewrite H, IH.
  Qed.
  Lemma get_rel e : forall ts ds, Forall2 orel ts ds -> get_all e (gvs ts) = Some (objs ds) -> Forall2 (trel e) ts ds.
  Proof.
    induction 1 as [|t d ts ds H F IH]; auto. destruct t, d; cbn in H; try tauto; gv; cbn.
    - destruct (e g) eqn:E; [|discriminate]. destruct (get_all e (gvs ts)); [|discriminate]. intros E2. injection E2 as -> ->. constructor; cbn; auto.
    - intros E. constructor; auto.
  Qed.
  Lemma orel_len ts ds : Forall2 orel ts ds -> List.length (gvs ts) = List.length (objs ds).
  Proof. induction 1 as [|t d ts ds H F IH]; auto. destruct t, d; cbn in H; try tauto; gv; cbn; auto. Qed.
  Lemma Forall2_nth {A B} (R : A -> B -> Prop) : forall l m i x, Forall2 R l m -> nth_error l i = Some x -> exists y, nth_error m i = Some y /\ R x y.
  Proof. intros l m i x F. revert i. induction F; intros [|i] E; cbn in *; try discriminate; eauto. injection E as <-. eauto. Qed.
  Lemma olook_rel outer denv r t : outer_rel outer denv -> olook outer r = Some t -> exists d, olook denv r = Some d /\ orel t d.
  Proof.
    unfold olook. intros F E. destruct (nth_error outer (fst r)) as [f|] eqn:Ef; [|discriminate].
    destruct (Forall2_nth _ _ _ _ _ F Ef) as (f' & Ef' & Ff). rewrite Ef'. eapply Forall2_nth; eauto.
  Qed.
  Lemma dlook_snoc (denv : list (list dval)) dframe r : dlook denv dframe r = olook (denv ++ [dframe]) r.
  Proof.
    unfold dlook, olook. destruct (Nat.eqb_spec (fst r) (List.length denv)) as [E|E].
    - rewrite nth_error_app2 by lia. now rewrite E, Nat.sub_diag.
    - destruct (Nat.lt_ge_cases (fst r) (List.length denv)).
      + now rewrite nth_error_app1.
      + rewrite (proj2 (nth_error_None denv (fst r))) by lia. rewrite (proj2 (nth_error_None (denv ++ [dframe]) (fst r))); auto. rewrite app_length. cbn. lia.
  Qed.
  Lemma dlook_outer (denv : list (list dval)) dframe r d : olook denv r = Some d -> dlook denv dframe r = Some d.
  Proof.
    intros E. rewrite dlook_snoc. unfold olook in *. destruct (nth_error denv (fst r)) eqn:Ef; [|discriminate].
    rewrite nth_error_app1 by (apply nth_error_Some; congruence). now rewrite Ef.
  Qed.

  (** ** tracer states *)
  Definition nn (s : tst) : nat := List.length (t_names s).
  Definition tok (s : tst) (t : tval) : Prop := match t with TV g => g < nn s | TC _ => True end.
  Record wf (outer : list (list tval)) (pin : list nat) (s : tst) : Prop := {
    wf_frame : Forall (tok s) (t_frame s);
    wf_inputs : t_inputs s = pin ++ map snd (t_caps s);
    wf_nodup : NoDup (t_inputs s);
    wf_below : Forall (fun g => g < nn s) (t_inputs s);
    wf_caps : NoDup (map fst (t_caps s));
    wf_objs : Forall (fun p => exists g, olook outer (fst p) = Some (TV g)) (t_caps s) }.
  Definition grow (s s' : tst) : Prop :=
    nn s <= nn s' /\ exists nc, t_caps s' = t_caps s ++ nc /\ Forall (fun p => nn s <= snd p) nc.
  Definition caps_ok (e : env V) (denv : list (list dval)) (s : tst) : Prop :=
    Forall (fun p => exists v, olook denv (fst p) = Some (DV v) /\ e (snd p) = Some v) (t_caps s).

  Lemma tok_mono s s' t : nn s <= nn s' -> tok s t -> tok s' t.
  Proof. destruct t; cbn; auto; lia. Qed.
  Lemma grow_refl s : grow s s.
  Proof. split; auto. exists []. rewrite app_nil_r. auto. Qed.
  Lemma grow_trans a b c : grow a b -> grow b c -> grow a c.
  Proof.
    intros [L (n & E & F)] [L' (n' & E' & F')]. split; [lia|]. exists (n ++ n'). split; [now rewrite E', E, app_assoc|].
    apply Forall_app. split; auto. eapply Forall_impl; [|exact F']. cbn. lia.
  Qed.
  Lemma caps_ok_prefix e denv s s' : grow s s' -> caps_ok e denv s' -> caps_ok e denv s.
  Proof. intros [_ (n & E & _)] H. unfold caps_ok in *. rewrite E in H. apply Forall_app in H. tauto. Qed.

  Lemma wf_caps_below outer pin s : wf outer pin s -> Forall (fun p => snd p < nn s) (t_caps s).
  Proof.
    intros W. pose proof (wf_below _ _ _ W) as B. rewrite (wf_inputs _ _ _ W) in B. apply Forall_app in B. destruct B as [_ B].
    rewrite Forall_map in B. exact B.
  Qed.

  Lemma lift_spec outer pin s r s' t : lift outer s r = Some (s', t) -> wf outer pin s ->
    wf outer pin s' /\ grow s s' /\ t_frame s' = t_frame s /\ tok s' t /\
    (forall e denv dframe, outer_rel outer denv -> Forall2 (trel e) (t_frame s) dframe -> caps_ok e denv s' ->
       exists d, dlook denv dframe r = Some d /\ trel e t d).
  Proof.
    unfold lift. intros E W. destruct (Nat.eqb_spec (fst r) (List.length outer)) as [El|El].
    - destruct (nth_error (t_frame s) (snd r)) as [t0|] eqn:Ef; [|discriminate]. injection E as <- <-.
      split; auto. split; [apply grow_refl|]. split; auto. split.
      + pose proof (wf_frame _ _ _ W) as F. rewrite Forall_forall in F. apply F. eapply nth_error_In; eauto.
      + intros e denv dframe O F _. unfold dlook. rewrite El, (Forall2_len _ _ _ O), Nat.eqb_refl.
        eapply Forall2_nth; eauto.
    - destruct (nth_error outer (fst r)) as [f|] eqn:Eo; [|discriminate].
      destruct (nth_error f (snd r)) as [t0|] eqn:Ef; [|discriminate].
      assert (LO : olook outer r = Some t0) by (unfold olook; now rewrite Eo).
      destruct t0 as [g0|c].
      + destruct (cap_find r (t_caps s)) as [g|] eqn:Ec.
        * injection E as <- <-. apply cap_find_some in Ec. split; auto. split; [apply grow_refl|]. split; auto. split.
          -- pose proof (wf_caps_below _ _ _ W) as F. rewrite Forall_forall in F. apply (F _ Ec).
          -- intros e denv dframe O F K. unfold caps_ok in K. rewrite Forall_forall in K. destruct (K _ Ec) as (v & H1 & H2). cbn in H1, H2.
             exists (DV v). split; auto. now apply dlook_outer.
        * cbn in E. injection E as <- <-. apply cap_find_none in Ec.
          match goal with |- wf _ _ ?x /\ _ => set (s1 := x) end.
          assert (L : nn s1 = S (nn s)) by (unfold nn, s1; cbn; rewrite app_length; cbn; lia).
          assert (Q1 : t_frame s1 = t_frame s) by reflexivity. assert (Q2 : t_inputs s1 = t_inputs s ++ [nn s]) by reflexivity.
          assert (Q3 : t_caps s1 = t_caps s ++ [(r, nn s)]) by reflexivity. change (List.length (t_names s)) with (nn s) in *. clearbody s1.
          split; [|split; [|split; [|split]]]; auto.
          -- constructor; rewrite ?Q1, ?Q2, ?Q3.
             ++ eapply Forall_impl; [|apply (wf_frame _ _ _ W)]. intros a. apply tok_mono. rewrite L. lia.
             ++ rewrite (wf_inputs _ _ _ W), map_app, app_assoc. reflexivity.
             ++ pose proof (wf_below _ _ _ W) as B. pose proof (wf_nodup _ _ _ W) as N. rewrite Forall_forall in B.
                rewrite <- (rev_involutive (t_inputs s ++ _)), rev_app_distr. apply NoDup_rev. cbn. constructor.
                ** rewrite <- in_rev. intros Hi. specialize (B _ Hi). lia.
                ** now apply NoDup_rev.
             ++ rewrite L. apply Forall_app. split; [|repeat constructor; lia].
                eapply Forall_impl; [|apply (wf_below _ _ _ W)]. cbn. lia.
             ++ rewrite map_app. cbn. pose proof (wf_caps _ _ _ W) as N.
                rewrite <- (rev_involutive (map fst (t_caps s) ++ _)), rev_app_distr. apply NoDup_rev. cbn. constructor; [now rewrite <- in_rev|now apply NoDup_rev].
             ++ apply Forall_app. split; [apply (wf_objs _ _ _ W)|repeat constructor; cbn; eauto].
          -- split; [rewrite L; lia|]. exists [(r, nn s)]. split; auto.
          -- cbn. rewrite L. lia.
          -- intros e denv dframe O F K. unfold caps_ok in K. rewrite Q3 in K. apply Forall_app in K. destruct K as [_ K].
             inversion K as [|? ? (v & H1 & H2) _]; subst. cbn in H1, H2. exists (DV v). split; auto. now apply dlook_outer.
      + injection E as <- <-. split; auto. split; [apply grow_refl|]. split; auto. split; [exact I|].
        intros e denv dframe O F _. destruct (olook_rel _ _ _ _ O LO) as (d & H1 & H2). exists d. split; [now apply dlook_outer|].
        destruct d; cbn in *; tauto.
  Qed.

  Lemma lift_all_spec outer pin : forall rs s s' ts, lift_all outer s rs = Some (s', ts) -> wf outer pin s ->
    wf outer pin s' /\ grow s s' /\ t_frame s' = t_frame s /\ Forall (tok s') ts /\
    (forall e denv dframe, outer_rel outer denv -> Forall2 (trel e) (t_frame s) dframe -> caps_ok e denv s' ->
       exists ds, dlooks denv dframe rs = Some ds /\ Forall2 (trel e) ts ds).
  Proof.
    induction rs as [|r rs IH]; intros s s' ts E W; cbn in E.
    - injection E as <- <-. split; [|split; [apply grow_refl|split; [|split]]]; auto. intros. exists []. auto.
    - destruct (lift outer s r) as [[s1 t]|] eqn:E1; [|discriminate].
      destruct (lift_all outer s1 rs) as [[s2 ts2]|] eqn:E2; [|discriminate]. injection E as <- <-.
      destruct (lift_spec _ _ _ _ _ _ E1 W) as (W1 & G1 & F1 & T1 & R1).
      destruct (IH _ _ _ E2 W1) as (W2 & G2 & F2 & T2 & R2).
      split; auto. split; [eapply grow_trans; eauto|]. split; [congruence|]. split.
      + constructor; auto. eapply tok_mono; [|exact T1]. apply G2.
      + intros e denv dframe O F K.
        destruct (R1 e denv dframe O F (caps_ok_prefix _ _ _ _ G2 K)) as (d & H1 & H2).
        rewrite F1 in R2. destruct (R2 e denv dframe O F K) as (ds & H3 & H4). exists (d :: ds). cbn. rewrite H1, H3. auto.
  Qed.
  Lemma lift_leaves_spec outer pin : forall ls s s' ts, lift_leaves outer s ls = Some (s', ts) -> wf outer pin s ->
    wf outer pin s' /\ grow s s' /\ t_frame s' = t_frame s /\ Forall (tok s') ts /\
    (forall e denv dframe, outer_rel outer denv -> Forall2 (trel e) (t_frame s) dframe -> caps_ok e denv s' ->
       exists ds, dleaves denv dframe ls = Some ds /\ Forall2 (trel e) ts ds).
  Proof.
    induction ls as [|l ls IH]; intros s s' ts E W; cbn in E.
    - injection E as <- <-. split; [|split; [apply grow_refl|split; [|split]]]; auto. intros. exists []. auto.
    - destruct l as [r|c].
      + destruct (lift outer s r) as [[s1 t]|] eqn:E1; [|discriminate].
        destruct (lift_leaves outer s1 ls) as [[s2 ts2]|] eqn:E2; [|discriminate]. injection E as <- <-.
        destruct (lift_spec _ _ _ _ _ _ E1 W) as (W1 & G1 & F1 & T1 & R1).
        destruct (IH _ _ _ E2 W1) as (W2 & G2 & F2 & T2 & R2).
        split; auto. split; [eapply grow_trans; eauto|]. split; [congruence|]. split.
        * constructor; auto. eapply tok_mono; [|exact T1]. apply G2.
        * intros e denv dframe O F K.
          destruct (R1 e denv dframe O F (caps_ok_prefix _ _ _ _ G2 K)) as (d & H1 & H2).
          rewrite F1 in R2. destruct (R2 e denv dframe O F K) as (ds & H3 & H4). exists (d :: ds). cbn. rewrite H1, H3. auto.
      + destruct (lift_leaves outer s ls) as [[s2 ts2]|] eqn:E2; [|discriminate]. injection E as <- <-.
        destruct (IH _ _ _ E2 W) as (W2 & G2 & F2 & T2 & R2).
        split; auto. split; auto. split; auto. split; [constructor; cbn; auto|].
        intros e denv dframe O F K. destruct (R2 e denv dframe O F K) as (ds & H3 & H4). exists (DC c :: ds). cbn. rewrite H3. split; auto. constructor; cbn; auto.
  Qed.

  (** ** operation results *)
  Lemma new_outs_spec outer pin n s s' outs : new_outs n s = (s', outs) -> wf outer pin s ->
    wf outer pin s' /\ grow s s' /\ t_frame s' = t_frame s /\ t_caps s' = t_caps s /\ outs = seq (nn s) n /\ nn s' = nn s + n.
  Proof.
    unfold new_outs. intros E W. injection E as <- <-.
    match goal with |- wf _ _ ?x /\ _ => set (s1 := x) end.
    assert (L : nn s1 = nn s + n) by (unfold nn, s1; cbn [t_names]; now rewrite app_length, map_length, seq_length).
    assert (Q1 : t_frame s1 = t_frame s) by reflexivity. assert (Q2 : t_inputs s1 = t_inputs s) by reflexivity.
    assert (Q3 : t_caps s1 = t_caps s) by reflexivity. clearbody s1.
    split; [|split; [|repeat split; auto]].
    - destruct W. constructor; rewrite ?Q1, ?Q2, ?Q3; auto.
      + eapply Forall_impl; [|eassumption]. intros a. apply tok_mono. lia.
      + eapply Forall_impl; [|eassumption]. cbn. lia.
    - split; [lia|]. exists []. rewrite app_nil_r. auto.
  Qed.
  Lemma push_wf outer pin s ts : wf outer pin s -> Forall (tok s) ts -> wf outer pin (push ts s).
  Proof. intros W F. destruct W. constructor; auto. cbn. apply Forall_app. auto. Qed.
  Lemma push_grow s ts : grow s (push ts s).
  Proof. split; auto. exists []. cbn. rewrite app_nil_r. auto. Qed.

  (** binding fresh results leaves the frame and the captured inputs alone *)
  Lemma bind_outs outer pin s2 s3 n outs sx s4 e e' vs denv dframe :
    new_outs n s2 = (s3, outs) -> wf outer pin s2 -> t_caps sx = t_caps s3 -> nn sx = nn s3 -> grow sx s4 ->
    bind_all e outs vs = Some e' -> caps_ok e denv s4 -> Forall2 (trel e) (t_frame s2) dframe ->
    caps_ok e' denv s4 /\ Forall2 (trel e') (t_frame s2) dframe /\ get_all e' outs = Some vs.
  Proof.
    intros EN W EC EL G EB K F. destruct (new_outs_spec _ _ _ _ _ _ EN W) as (W3 & G3 & F3 & C3 & -> & L3).
    destruct (bind_all_spec (seq (nn s2) n) vs e) as (e2 & E1 & E2 & E3); [apply seq_NoDup|eapply bind_all_len; eauto|].
    rewrite E1 in EB. injection EB as <-. split; [|split]; auto.
    - destruct G as [GL (nc & Ec & Fn)]. unfold caps_ok in *. rewrite Ec in *. apply Forall_app in K. destruct K as [K1 K2]. apply Forall_app. split.
      + rewrite EC, C3 in *. pose proof (wf_caps_below _ _ _ W) as B. rewrite Forall_forall in *. intros p Hp.
        destruct (K1 p Hp) as (v & H1 & H2). exists v. split; auto. rewrite E3; auto. rewrite in_seq. specialize (B p Hp). lia.
      + rewrite Forall_forall in *. intros p Hp. destruct (K2 p Hp) as (v & H1 & H2). exists v. split; auto. rewrite E3; auto.
        rewrite in_seq. specialize (Fn p Hp). lia.
    - pose proof (wf_frame _ _ _ W) as B. clear - F B E3. induction F as [|t d ts ds H F IH]; constructor.
      + inversion B; subst. destruct t, d; cbn in *; auto. rewrite E3; auto. rewrite in_seq. lia.
      + apply IH. now inversion B.
  Qed.

  (** ** reconstruction of results *)
  Definition is_dv (d : dval) : bool := match d with DV _ => true | DC _ => false end.
  Lemma split_map {X Y} (h : X -> Y) (p : X -> bool) (q : Y -> bool) : (forall x, q (h x) = p x) -> forall l i,
    list_split q i (map h l) = let '(f, s, k) := list_split p i l in (map h f, map h s, k).
  Proof.
    intros H. induction l as [|x l IH]; intros i; cbn; auto. rewrite IH, H.
    destruct (list_split p (S i) l) as [[f s] k]. destruct (p x); auto.
  Qed.
  Lemma split_rel : forall ts (ds : list dval), Forall2 orel ts ds -> forall i,
    snd (list_split is_obj i ts) = snd (list_split is_dv i ds) /\
    consts (snd (fst (list_split is_obj i ts))) = dcs (snd (fst (list_split is_dv i ds))).
  Proof.
    induction 1 as [|t d ts ds H F IH]; intros i; cbn; auto. destruct (IH (S i)) as [I1 I2].
    destruct (list_split is_obj (S i) ts) as [[f s] k]. destruct (list_split is_dv (S i) ds) as [[f' s'] k']. cbn in I1, I2. subst k'.
    destruct t, d; cbn in *; try tauto; gv; auto. subst. now rewrite I2.
  Qed.
  Lemma objs_filter : forall ds : list dval, map DV (objs ds) = filter is_dv ds.
  Proof. induction ds as [|d ds IH]; auto. destruct d; gv; cbn; now rewrite IH. Qed.
  Lemma dc_filter : forall ds : list dval, map DC (dcs (filter (fun x => negb (is_dv x)) ds)) = filter (fun x => negb (is_dv x)) ds.
  Proof. induction ds as [|d ds IH]; cbn; auto. destruct d; gv; cbn; gv; cbn; rewrite ?IH; auto. Qed.

  (** the reconstruction puts the results where the variables were *)
  Lemma d_reconstruct_rel ts ds : Forall2 orel ts ds -> d_reconstruct (out_morph ts) (objs ds) = Some ds.
  Proof.
    intros F. unfold out_morph, d_reconstruct. destruct (split_rel ts ds F 0) as [H1 H2].
    destruct (list_split is_obj 0 ts) as [[f s] k] eqn:E1. destruct (list_split is_dv 0 ds) as [[f' s'] k'] eqn:E2. cbn in *. subst k'.
    destruct (split_fst _ _ _ _ _ _ E2) as [-> ->]. rewrite H2, dc_filter, objs_filter.
    rewrite (reconstruct_split _ _ _ _ _ _ E2) by reflexivity. now rewrite fill_filter.
  Qed.
  Lemma fill_rel e : forall ts ds gs, Forall2 orel ts ds -> get_all e gs = Some (objs ds) ->
    Forall2 (trel e) (fill is_obj ts (map TV gs)) ds.
  Proof.
    induction ts as [|t ts IH]; intros ds gs F E; inversion F; subst; cbn; [constructor|].
    destruct t, y; cbn in H1; try tauto; gv; cbn in *.
    - destruct gs as [|g' gs]; cbn in E; [discriminate|]. destruct (e g') eqn:Eg; [|discriminate].
      destruct (get_all e gs) eqn:Es; [|discriminate]. injection E as -> ->. constructor; cbn; auto.
    - constructor; cbn; auto.
  Qed.
  Lemma tc_filter : forall ts : list tval, map TC (consts (filter (fun x => negb (is_obj x)) ts)) = filter (fun x => negb (is_obj x)) ts.
  Proof. induction ts as [|t ts IH]; cbn; auto. destruct t; gv; cbn; gv; cbn; rewrite ?IH; auto. Qed.
  Lemma gvs_filter : forall ts : list tval, map TV (gvs ts) = filter is_obj ts.
  Proof. induction ts as [|t ts IH]; auto. destruct t; gv; cbn; now rewrite IH. Qed.
  Lemma gvs_len (ts : list tval) : List.length (gvs ts) = List.length (filter is_obj ts).
  Proof. rewrite <- gvs_filter. now rewrite map_length. Qed.
  Lemma reconstruct_fill (ts : list tval) (gs : list nat) : List.length gs = List.length (gvs ts) -> reconstruct (out_morph ts) gs = Some (fill is_obj ts (map TV gs)).
  Proof.
    intros L. unfold out_morph, reconstruct. destruct (list_split is_obj 0 ts) as [[f s] k] eqn:E. cbn.
    destruct (split_fst _ _ _ _ _ _ E) as [Hf Hs]. assert (X : map TC (consts s) = s) by (rewrite Hs; apply tc_filter).
    rewrite X. eapply reconstruct_split; eauto. rewrite map_length, Hf, L. apply gvs_len.
  Qed.
  Lemma fill_tok s : forall (ts : list tval) gs, Forall (fun g => g < nn s) gs -> Forall (tok s) (fill is_obj ts (map TV gs)).
  Proof.
    induction ts as [|t ts IH]; intros gs F; cbn; [constructor|]. destruct t; cbn.
    - destruct gs as [|g' gs]; cbn; constructor; inversion F; subst; cbn; auto.
    - constructor; cbn; auto.
  Qed.

  Lemma imms_eqb_eq (c_eqb : C -> C -> bool) (c_eqb_eq : forall a b, c_eqb a b = true -> a = b) : forall a b : list C, imms_eqb c_eqb a b = true -> a = b.
  Proof.
    induction a as [|x a IH]; intros [|y b] E; cbn in *; try discriminate; auto. apply andb_true_iff in E. destruct E as [E1 E2].
    apply c_eqb_eq in E1. now rewrite E1, (IH b).
  Qed.
  Lemma same_morph_eq (c_eqb : C -> C -> bool) (c_eqb_eq : forall a b, c_eqb a b = true -> a = b) a b : same_morph c_eqb a b = true -> a = b.
  Proof.
    unfold same_morph, nats_eqb. destruct a as [p m], b as [p' m']. cbn [fst snd]. destruct (list_eq_dec Nat.eq_dec p p') as [->|]; intros E; [|discriminate].
    apply imms_eqb_eq in E; auto. congruence.
  Qed.

  (** ** start of a nested trace *)
  Lemma lift_params_spec : forall args (s : tst), let '(s', ts) := lift_params s args in
    nn s' = nn s + List.length (gvs args) /\ t_caps s' = t_caps s /\ t_frame s' = t_frame s /\
    t_inputs s' = t_inputs s ++ seq (nn s) (List.length (gvs args)) /\ gvs ts = seq (nn s) (List.length (gvs args)) /\
    (forall ds : list dval, Forall2 orel args ds -> Forall2 orel ts ds).
  Proof.
    induction args as [|[g|c] args IH]; intros s; cbn [lift_params].
    - cbn. rewrite app_nil_r, Nat.add_0_r. repeat split; auto.
    - unfold new_arg. set (s1 := TSt _ _ _ _ _ _). assert (L1 : nn s1 = S (nn s)) by (unfold nn, s1; cbn; rewrite app_length; cbn; lia).
      specialize (IH s1). destruct (lift_params s1 args) as [s' ts]. destruct IH as (H1 & H2 & H3 & H4 & H5 & H6).
      gv. cbn [List.length]. rewrite L1 in *.
      repeat split; auto; try lia.
      + rewrite H4. unfold s1. cbn [t_inputs]. rewrite <- app_assoc. reflexivity.
      + cbn. f_equal. exact H5.
      + intros ds F. inversion F; subst. constructor; auto.
    - specialize (IH s). destruct (lift_params s args) as [s' ts]. destruct IH as (H1 & H2 & H3 & H4 & H5 & H6).
      gv. repeat split; auto. intros ds F. inversion F; subst. constructor; auto.
  Qed.
  Lemma start_spec outer args : wf outer (seq 0 (List.length (gvs args))) (start args) /\ t_caps (start args) = [] /\
    gvs (t_frame (start args)) = seq 0 (List.length (gvs args)) /\
    (forall ds : list dval, Forall2 orel args ds -> Forall2 orel (t_frame (start args)) ds).
  Proof.
    unfold start. pose proof (lift_params_spec args (TSt [] 0 0 [] [] [])) as H. destruct (lift_params _ args) as [s ts].
    destruct H as (H1 & H2 & H3 & H4 & H5 & H6). cbn in H1, H2, H3, H4, H5. split; [|split; [|split]]; cbn [push t_caps t_frame]; rewrite ?H2, ?H3; auto.
    assert (X : forall l, Forall (fun g => g < nn s) (gvs l) -> Forall (tok (push ts s)) l).
    { induction l as [|[g|c] l IH]; intros F'; constructor; gv; cbn; auto; inversion F'; subst; auto. }
    assert (B : Forall (fun g => g < nn s) (seq 0 (List.length (gvs args)))) by (rewrite H1; apply Forall_forall; intros g Hg; apply in_seq in Hg; lia).
    constructor; cbn [push t_frame t_inputs t_caps]; rewrite ?H2, ?H3, ?H4; cbn; rewrite ?app_nil_r; auto using seq_NoDup, NoDup_nil.
    apply X. now rewrite H5.
  Qed.
End Sound.
