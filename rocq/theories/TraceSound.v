From Coq Require Import List String Bool Arith Lia.
From Verif Require Import CtxModel MorphModel MorphProofs TraceModel TraceProofs.
Import ListNotations.
Local Open Scope list_scope.

(** ** capture lists *)
Lemma add_refs_spec : forall l seen, NoDup seen -> NoDup (add_refs seen l) /\ forall r, In r (add_refs seen l) <-> In r seen \/ In r l.
Proof.
  induction l as [|x l IH]; intros seen N; cbn [add_refs]; [split; auto; cbn; tauto|].
  destruct (existsb (ref_eqb x) seen) eqn:E.
  - destruct (IH seen N) as [H1 H2]. split; auto. intros r. rewrite H2. cbn. apply existsb_exists in E. destruct E as (y & Hy & Ey).
    apply ref_eqb_eq in Ey. subst y. intuition (subst; auto).
  - destruct (IH (seen ++ [x])) as [H1 H2].
    + rewrite <- (rev_involutive (seen ++ _)), rev_app_distr. apply NoDup_rev. cbn. constructor; [|now apply NoDup_rev].
      rewrite <- in_rev. intros Hi. assert (existsb (ref_eqb x) seen = true) by (apply existsb_exists; exists x; split; auto; apply ref_eqb_refl). congruence.
    + split; auto. intros r. rewrite H2, in_app_iff. cbn. intuition.
Qed.
Lemma merge_spec a b : NoDup (merge_captures a b) /\ incl a (merge_captures a b) /\ incl b (merge_captures a b) /\ (forall r, In r (merge_captures a b) -> In r a \/ In r b).
Proof.
  unfold merge_captures. destruct (add_refs_spec (a ++ b) [] ltac:(constructor)) as [H1 H2]. split; auto. split; [|split].
  - intros r Hr. apply H2. right. apply in_or_app. auto.
  - intros r Hr. apply H2. right. apply in_or_app. auto.
  - intros r Hr. apply H2 in Hr. cbn in Hr. rewrite in_app_iff in Hr. tauto.
Qed.
Lemma in_snd_unique (m : list (ref * nat)) r r' g : NoDup (map snd m) -> In (r, g) m -> In (r', g) m -> r = r'.
Proof.
  induction m as [|[r0 g0] m IH]; cbn; intros N H1 H2; [tauto|]. inversion N; subst.
  destruct H1 as [E|H1], H2 as [E'|H2]; try congruence; auto.
  - injection E as -> ->. exfalso. apply H3. now apply (in_map snd) in H2.
  - injection E' as -> ->. exfalso. apply H3. now apply (in_map snd) in H1.
Qed.
Lemma align_caps_spec m : NoDup (map snd m) -> NoDup (map fst m) -> forall order names ninp l ns,
  align_caps m names ninp order = (l, ns) -> NoDup order -> Forall (fun g => g < List.length names) (map snd m) ->
  List.length l = List.length order /\ NoDup l /\
  (forall g, In g l -> (exists r, In r order /\ In (r, g) m) \/ List.length names <= g) /\
  (forall r g, In r order -> In (r, g) m -> exists i, nth_error order i = Some r /\ nth_error l i = Some g).
Proof.
  intros Ns Nf. induction order as [|r order IH]; intros names ninp l ns E No Fb; cbn in E.
  - injection E as <- <-. split; [reflexivity|]. split; [apply NoDup_nil|]. split; cbn; tauto.
  - inversion No as [|? ? Hr No']; subst. destruct (cap_find r m) as [g|] eqn:Ec.
    + destruct (align_caps m names ninp order) as [l0 ns0] eqn:E0. injection E as <- <-.
      destruct (IH _ _ _ _ E0 No' Fb) as (H1 & H2 & H3 & H4). apply cap_find_some in Ec.
      assert (Hg : g < List.length names) by (rewrite Forall_forall in Fb; apply Fb; now apply (in_map snd) in Ec).
      split; [cbn; lia|]. split; [|split].
      * constructor; auto. intros Hi. destruct (H3 _ Hi) as [(r' & Hr' & Hm)|]; [|lia]. rewrite (in_snd_unique _ _ _ _ Ns Ec Hm) in Hr. tauto.
      * intros g' [<-|Hi]; [left; exists r; cbn; auto|]. destruct (H3 _ Hi) as [(r' & Hr' & Hm)|]; auto. left. exists r'. cbn. auto.
      * intros r' g' [<-|Hi] Hm.
        -- exists 0. cbn. split; auto. f_equal. pose proof (cap_find_in _ _ _ Nf Hm). pose proof (cap_find_in _ _ _ Nf Ec). congruence.
        -- destruct (H4 _ _ Hi Hm) as (i & I1 & I2). exists (S i). auto.
    + destruct (align_caps m _ (S ninp) order) as [l0 ns0] eqn:E0. injection E as <- <-.
      apply cap_find_none in Ec.
      destruct (IH _ _ _ _ E0 No') as (H1 & H2 & H3 & H4).
      { eapply Forall_impl; [|exact Fb]. cbn. intros a Ha. rewrite app_length. cbn. lia. }
      rewrite app_length in H3. cbn [List.length] in H3.
      split; [cbn; lia|]. split; [|split].
      * constructor; auto. intros Hi. destruct (H3 _ Hi) as [(r' & Hr' & Hm)|]; [|lia].
        rewrite Forall_forall in Fb. apply (in_map snd) in Hm. cbn in Hm. specialize (Fb _ Hm). lia.
      * intros g' [<-|Hi]; [right; lia|]. destruct (H3 _ Hi) as [(r' & Hr' & Hm)|]; [left; exists r'; cbn; auto|right; lia].
      * intros r' g' [<-|Hi] Hm.
        -- exfalso. apply Ec. now apply (in_map fst) in Hm.
        -- destruct (H4 _ _ Hi Hm) as (i & I1 & I2). exists (S i). auto.
Qed.
Lemma combine_map {A B} (l : list (A * B)) : combine (map fst l) (map snd l) = l.
Proof. induction l as [|[a b] l IH]; cbn; auto. now rewrite IH. Qed.
Lemma NoDup_app_intro {A} (a b : list A) : NoDup a -> NoDup b -> (forall x, In x a -> ~ In x b) -> NoDup (a ++ b).
Proof.
  induction 1 as [|x a Hx Ha IH]; cbn; intros Hb D; auto. constructor.
  - rewrite in_app_iff. intros [|]; [tauto|]. apply (D x); auto.
  - apply IH; auto.
Qed.
Lemma NoDup_app_elim {A} (a b : list A) : NoDup (a ++ b) -> NoDup a /\ NoDup b /\ (forall x, In x a -> ~ In x b).
Proof.
  induction a as [|x a IH]; cbn; intros N; [split; [apply NoDup_nil|split; [auto|cbn; tauto]]|]. inversion N; subst. destruct (IH H2) as (N1 & N2 & D). rewrite in_app_iff in H1.
  split; [constructor; tauto|]. split; auto. intros y [<-|Hy]; auto.
Qed.

Section Sound.
  Context {C V : Type}.
  Variables (sem : nat -> list V -> list V) (truth : V -> bool) (ctruth : C -> bool) (c_eqb : C -> C -> bool).
  Notation tval := (tval C).
  Notation dval := (dval C V).
  Notation tst := (tst C).
  Notation run := (run_body sem truth ctruth).
  Notation evalg := (eval_graph sem truth).

  Definition sound_body (b : body C) : Prop := forall outer pin s s' ops outs,
    trace_body c_eqb true outer s b = Some (s', ops, outs) -> wf outer pin s ->
    wf outer pin s' /\ grow s s' /\ Forall (tok s') outs /\
    forall fuel denv dframe (e : env V), outer_rel outer denv -> Forall2 (trel e) (t_frame s) dframe -> caps_ok e denv s' ->
    match eval_ops sem truth (evalg fuel) fuel e ops with
    | Some e' => exists ds, run (S fuel) denv dframe b = Some ds /\ Forall2 (trel e') outs ds
    | None => run (S fuel) denv dframe b = None
    end.

  Definition agrees (ev : option (list V)) (rn : option (list dval)) (outs : list tval) : Prop :=
    match ev with
    | Some vs => exists ds, rn = Some ds /\ vs = objs ds /\ Forall2 orel outs ds
    | None => rn = None
    end.

  Lemma get_all_prefix (e : env V) : forall a va b vb, get_all e (a ++ b) = Some (va ++ vb) -> List.length a = List.length va -> get_all e a = Some va.
  Proof.
    induction a as [|g a IH]; intros [|v va] b vb E L; try discriminate; auto. cbn in *.
    destruct (e g); [|discriminate]. destruct (get_all e (a ++ b)) eqn:E'; [|discriminate]. injection E as -> ->. rewrite (IH va b vb); auto.
  Qed.

  Lemma region_sound b : sound_body b -> forall outer args s' ops outs, trace_body c_eqb true outer (start args) b = Some (s', ops, outs) ->
    forall order cin denv dargs capvals fuel, outer_rel outer denv -> Forall2 orel args dargs ->
      Forall2 (fun r v => olook denv r = Some (DV v)) order capvals -> List.length cin = List.length order ->
      NoDup (seq 0 (List.length (gvs args)) ++ cin) ->
      (forall r g, In (r, g) (t_caps s') -> exists i, nth_error order i = Some r /\ nth_error cin i = Some g) ->
      agrees (evalg fuel (Graph (seq 0 (List.length (gvs args)) ++ cin) ops (gvs outs)) (objs dargs ++ capvals)) (run fuel denv dargs b) outs.
  Proof.
    intros SB outer args s' ops outs E order cin denv dargs capvals fuel O A CV Lc N K.
    destruct (start_spec (V := V) outer args) as (W0 & C0 & G0 & F0).
    destruct (SB _ _ _ _ _ _ E W0) as (W' & Gr & To & H). clear SB.
    destruct fuel as [|fuel]; [reflexivity|]. cbn [eval_graph g_inputs g_ops g_outputs].
    assert (Ll : List.length (seq 0 (List.length (gvs args)) ++ cin) = List.length (objs dargs ++ capvals)).
    { rewrite !app_length, seq_length, Lc, (orel_len _ _ A). f_equal. eapply Forall2_len; eauto. }
    destruct (bind_all_spec _ _ (fun _ => None) N Ll) as (e0 & B1 & B2 & B3). rewrite B1.
    assert (Fr : Forall2 (trel e0) (t_frame (start args)) dargs).
    { apply get_rel; auto. rewrite G0. eapply get_all_prefix; [exact B2|]. rewrite seq_length. now apply orel_len. }
    assert (CO : caps_ok e0 denv s').
    { unfold caps_ok. apply Forall_forall. intros [r g] Hp. cbn [fst snd]. destruct (K _ _ Hp) as (i & I1 & I2).
      destruct (Forall2_nth _ _ _ _ _ CV I1) as (v & V1 & V2). exists v. split; auto.
      eapply (get_all_nth _ e0 _ (List.length (gvs args) + i)); [exact B2| |].
      - rewrite nth_error_app2 by (rewrite seq_length; lia). rewrite seq_length. now replace (List.length (gvs args) + i - List.length (gvs args)) with i by lia.
      - rewrite (orel_len _ _ A). rewrite nth_error_app2 by lia. now replace (List.length (objs dargs) + i - List.length (objs dargs)) with i by lia. }
    specialize (H fuel denv dargs e0 O Fr CO).
    destruct (eval_ops sem truth (evalg fuel) fuel e0 ops) as [e'|] eqn:Eo.
    - destruct H as (ds & R & F). rewrite (rel_get _ _ _ F). exists ds. split; auto. split; auto. eapply trels_orels; eauto.
    - exact H.
  Qed.

  (** nested function with its inputs aligned to a common capture order *)
  Lemma aligned_sound b : sound_body b -> forall outer args s' ops outs order, trace_body c_eqb true outer (start args) b = Some (s', ops, outs) ->
    NoDup order -> incl (map fst (t_caps s')) order ->
    forall denv dargs capvals fuel, outer_rel outer denv -> Forall2 orel args dargs ->
      Forall2 (fun r v => olook denv r = Some (DV v)) order capvals ->
      agrees (evalg fuel (tf_graph (align (List.length (gvs args)) order (finish s' ops outs))) (objs dargs ++ capvals)) (run fuel denv dargs b) outs.
  Proof.
    intros SB outer args s' ops outs order E N I denv dargs capvals fuel O A CV.
    destruct (start_spec (V := V) outer args) as (W0 & C0 & G0 & F0).
    destruct (SB _ _ _ _ _ _ E W0) as (W' & _).
    unfold align, finish. cbn [tf_graph g_inputs g_ops g_outputs tf_caps tf_names tf_morph]. rewrite (wf_inputs _ _ _ W').
    pose proof (wf_nodup _ _ _ W') as Nd. rewrite (wf_inputs _ _ _ W') in Nd.
    pose proof (wf_below _ _ _ W') as Bl. rewrite (wf_inputs _ _ _ W') in Bl.
    set (pin := seq 0 (List.length (gvs args))) in *.
    assert (Lp : List.length pin = List.length (gvs args)) by apply seq_length.
    rewrite <- Lp, skipn_app, Nat.sub_diag, skipn_all, firstn_app, Nat.sub_diag, firstn_all, app_nil_r, app_nil_l. cbn [skipn].
    rewrite combine_map.
    destruct (align_caps (t_caps s') (t_names s') (List.length (pin ++ map snd (t_caps s'))) order) as [l ns] eqn:Ea. cbn [tf_graph].
    apply NoDup_app_elim in Nd. destruct Nd as (N1 & N2 & N3).
    apply Forall_app in Bl. destruct Bl as [Bl1 Bl2].
    destruct (align_caps_spec _ N2 (wf_caps _ _ _ W') _ _ _ _ _ Ea N Bl2) as (A1 & A2 & A3 & A4).
    unfold pin in *.
    eapply region_sound; eauto.
    - apply NoDup_app_intro; auto. intros x Hx Hl. destruct (A3 _ Hl) as [(r & Hr & Hm)|Hge].
      + apply (in_map snd) in Hm. now apply (N3 x).
      + rewrite Forall_forall in Bl1. specialize (Bl1 _ Hx). unfold nn in Bl1. lia.
    - intros r g Hp. apply A4; auto. apply I. now apply (in_map fst) in Hp.
  Qed.
  Lemma plain_sound b : sound_body b -> forall outer args s' ops outs, trace_body c_eqb true outer (start args) b = Some (s', ops, outs) ->
    forall denv dargs capvals fuel, outer_rel outer denv -> Forall2 orel args dargs ->
      Forall2 (fun r v => olook denv r = Some (DV v)) (map fst (t_caps s')) capvals ->
      agrees (evalg fuel (tf_graph (finish s' ops outs)) (objs dargs ++ capvals)) (run fuel denv dargs b) outs.
  Proof.
    intros SB outer args s' ops outs E denv dargs capvals fuel O A CV.
    destruct (start_spec (V := V) outer args) as (W0 & C0 & G0 & F0).
    destruct (SB _ _ _ _ _ _ E W0) as (W' & _).
    unfold finish. cbn [tf_graph]. pose proof (wf_nodup _ _ _ W') as Nd. rewrite (wf_inputs _ _ _ W') in *.
    eapply region_sound; eauto; [now rewrite !map_length|].
    intros r g Hp. apply In_nth_error in Hp. destruct Hp as [i Hi]. exists i. rewrite !nth_error_map, Hi. auto.
  Qed.

  (** captured references denote objects, so their direct values are values *)
  Lemma caps_values outer denv frame dframe (e : env V) : forall order cs ds,
    Forall (fun r => exists g, olook (outer ++ [frame]) r = Some (TV g : tval)) order ->
    outer_rel (outer ++ [frame]) (denv ++ [dframe]) ->
    dlooks denv dframe order = Some ds -> Forall2 (trel e) cs ds ->
    Forall2 (fun r v => olook (denv ++ [dframe]) r = Some (DV v)) order (objs ds) /\ get_all e (gvs cs) = Some (objs ds).
  Proof.
    intros order cs ds Fo O D R. split; [|now apply rel_get]. clear R cs. revert ds D. induction Fo as [|r order (g & Hg) Fo IH]; intros ds D; cbn in D.
    - injection D as <-. constructor.
    - destruct (dlook denv dframe r) as [d|] eqn:Ed; [|discriminate]. destruct (dlooks denv dframe order) as [ds'|] eqn:Eds; [|discriminate].
      injection D as <-. destruct (olook_rel _ _ _ _ O Hg) as (d' & H1 & H2). rewrite dlook_snoc in Ed. assert (d = d') as -> by congruence. destruct d' as [v|c]; [|destruct H2].
      rewrite objs_v. constructor; auto.
  Qed.
  Lemma caps_objs outer pin s : wf outer pin s -> forall r, In r (map fst (t_caps s)) -> exists g, olook outer r = Some (TV g : tval).
  Proof. intros W r Hr. apply in_map_iff in Hr. destruct Hr as (p & <- & Hp). pose proof (wf_objs _ _ _ W) as F. rewrite Forall_forall in F. apply (F _ Hp). Qed.

  Lemma outer_snoc outer denv frame dframe (e : env V) : outer_rel outer denv -> Forall2 (trel e) frame dframe -> outer_rel (outer ++ [frame : list tval]) (denv ++ [dframe]).
  Proof. intros O F. apply Forall2_app; auto. constructor; [|constructor]. eapply trels_orels; eauto. Qed.

  Lemma gvs_app (a b : list tval) : gvs (a ++ b) = gvs a ++ gvs b.
  Proof. unfold gvs. apply flat_map_app. Qed.
  Lemma gvs_TV l : gvs (map TV l : list tval) = l.
  Proof. induction l as [|x l IH]; auto. change (x :: gvs (map TV l : list tval) = x :: l). now rewrite IH. Qed.
  Lemma objs_DV l : objs (map DV l : list dval) = l.
  Proof. induction l as [|x l IH]; auto. change (x :: objs (map DV l : list dval) = x :: l). now rewrite IH. Qed.
  Lemma rel_TV (e : env V) gs vs : get_all e gs = Some vs -> Forall2 (trel e) (map TV gs : list tval) (map DV vs).
  Proof.
    revert vs. induction gs as [|g gs IH]; intros vs E; cbn in E; [injection E as <-; constructor|].
    destruct (e g) eqn:Eg; [|discriminate]. destruct (get_all e gs) eqn:Es; [|discriminate]. injection E as <-. constructor; cbn; auto.
  Qed.

  Lemma run_S_prim f denv dframe p args n k : run (S f) denv dframe (BPrim p args n k) =
    match dlooks denv dframe args with
    | None => None
    | Some vs => let rs := sem p (objs vs) in if Nat.eqb (List.length rs) n then run (S f) denv (dframe ++ map DV rs) k else None
    end.
  Proof. reflexivity. Qed.
  Lemma run_S_cond f denv dframe pred args t e k : run (S f) denv dframe (BCond pred args t e k) =
    match dlook denv dframe pred, dlooks denv dframe args with
    | Some (DV c), Some vs =>
        match run f (denv ++ [dframe]) vs (if truth c then t else e) with Some rs => run (S f) denv (dframe ++ rs) k | None => None end
    | _, _ => None
    end.
  Proof. reflexivity. Qed.
  Lemma run_S_while f denv dframe init c l k : run (S f) denv dframe (BWhile init c l k) =
    match dlooks denv dframe init with
    | None => None
    | Some vs =>
        match iterate f (fun st => match run f (denv ++ [dframe]) st c with Some [d] => Some (dtruth truth ctruth d) | _ => None end)
                        (fun st => run f (denv ++ [dframe]) st l) vs with
        | Some rs => run (S f) denv (dframe ++ rs) k
        | None => None
        end
    end.
  Proof. reflexivity. Qed.
  Lemma run_S_call f denv dframe args g k : run (S f) denv dframe (BCall args g k) =
    match dlooks denv dframe args with
    | None => None
    | Some vs => match run f (denv ++ [dframe]) vs g with Some rs => run (S f) denv (dframe ++ rs) k | None => None end
    end.
  Proof. reflexivity. Qed.

  (** the common tail: results bound, then the rest of the function *)
  Lemma continue k outer pin s2 n s3 outs rs s4 ops r :
    sound_body k -> wf outer pin s2 -> new_outs n s2 = (s3, outs) -> Forall (tok s3) rs ->
    trace_body c_eqb true outer (push rs s3) k = Some (s4, ops, r) ->
    wf outer pin s4 /\ grow s2 s4 /\ Forall (tok s4) r /\
    forall fuel denv dframe (e : env V) vs ds, outer_rel outer denv -> Forall2 (trel e) (t_frame s2) dframe -> caps_ok e denv s4 ->
      List.length vs = n -> (forall e', get_all e' outs = Some vs -> Forall2 (trel e') rs ds) ->
      exists e1, bind_all e outs vs = Some e1 /\
      match eval_ops sem truth (evalg fuel) fuel e1 ops with
      | Some e' => exists ds', run (S fuel) denv (dframe ++ ds) k = Some ds' /\ Forall2 (trel e') r ds'
      | None => run (S fuel) denv (dframe ++ ds) k = None
      end.
  Proof.
    intros SB W2 EN Tr Et. destruct (new_outs_spec _ _ _ _ _ _ EN W2) as (W3 & G3 & F3 & C3 & Eo & L3).
    destruct (SB _ _ _ _ _ _ Et (push_wf _ _ _ _ W3 Tr)) as (W4 & G4 & T4 & H).
    split; auto. split; [eapply grow_trans; [exact G3|]; eapply grow_trans; [apply push_grow|exact G4]|]. split; auto.
    intros fuel denv dframe e vs ds O Fr K Lv R.
    destruct (bind_all_spec outs vs e) as (e1 & B1 & B2 & B3); [rewrite Eo; apply seq_NoDup|rewrite Eo, seq_length; auto|].
    exists e1. split; auto.
    destruct (bind_outs _ _ _ _ _ _ (push rs s3) s4 _ _ _ denv dframe EN W2 eq_refl eq_refl G4 B1 K Fr) as (K1 & Fr1 & _).
    apply H; auto. cbn [push t_frame]. rewrite F3. apply Forall2_app; auto.
  Qed.

  Hypothesis c_eqb_eq : forall a b, c_eqb a b = true -> a = b.

  Lemma seq_tok (s2 s3 : tst) n outs outer pin : new_outs n s2 = (s3, outs) -> wf outer pin s2 -> Forall (fun g => g < nn s3) outs /\ List.length outs = n.
  Proof. intros EN W. destruct (new_outs_spec _ _ _ _ _ _ EN W) as (_ & _ & _ & _ & -> & L). split; [|apply seq_length]. apply Forall_forall. intros g Hg. apply in_seq in Hg. lia. Qed.
  Lemma tv_tok (s : tst) gs : Forall (fun g => g < nn s) gs -> Forall (tok s) (map TV gs).
  Proof. intros F. apply Forall_map. eapply Forall_impl; [|exact F]. auto. Qed.

  Theorem trace_sound : forall b, sound_body b.
  Proof.
    induction b as [ls|p args n k IHk|pred args t IHt e IHe k IHk|init c IHc l IHl k IHk|args f IHf k IHk]; intros outer pin s s' ops outs E W.
    - cbn in E. destruct (lift_leaves outer s ls) as [[s1 ts]|] eqn:E1; [|discriminate]. injection E as <- <- <-.
      destruct (lift_leaves_spec (V := V) _ _ _ _ _ _ E1 W) as (W1 & G1 & F1 & T1 & R1). split; [auto|]. split; [auto|]. split; [auto|].
      intros fuel denv dframe e O Fr K. cbn. now apply R1.
    - cbn [trace_body] in E. destruct (lift_all outer s args) as [[s1 ts]|] eqn:E1; [|discriminate].
      destruct (lift_all_spec (V := V) _ _ _ _ _ _ E1 W) as (W1 & G1 & F1 & T1 & R1).
      destruct (new_outs n s1) as [s2 os] eqn:E2.
      destruct (trace_body c_eqb true outer (push (map TV os) s2) k) as [[[s3 ops3] r]|] eqn:E3; [|discriminate]. injection E as <- <- <-.
      destruct (seq_tok _ _ _ _ _ _ E2 W1) as [Fo Lo].
      destruct (continue k outer pin s1 n s2 os _ _ _ _ IHk W1 E2 (tv_tok _ _ Fo) E3) as (W3 & G3 & T3 & H).
      split; auto. split; [eapply grow_trans; eauto|]. split; auto.
      intros fuel denv dframe e O Fr K. destruct (R1 e denv dframe O Fr (caps_ok_prefix _ _ _ _ G3 K)) as (ds & D1 & D2).
      cbn [eval_ops eval_op]. rewrite run_S_prim, D1, (rel_get _ _ _ D2). cbn zeta.
      destruct (Nat.eqb_spec (List.length (sem p (objs ds))) n) as [Hn|Hn].
      + rewrite <- F1 in Fr. destruct (H fuel denv dframe e (sem p (objs ds)) (map DV (sem p (objs ds))) O Fr K Hn) as (e1 & B1 & H1).
        { intros e' He'. now apply rel_TV. } rewrite B1. exact H1.
      + destruct (bind_all e os (sem p (objs ds))) eqn:B; auto. apply bind_all_len in B. exfalso. lia.
    - cbn [trace_body] in E. destruct (lift outer s pred) as [[s0 [pg|pc]]|] eqn:E0; try discriminate.
      destruct (lift_spec (V := V) _ _ _ _ _ _ E0 W) as (W0 & G0 & F0 & T0 & R0).
      destruct (lift_all outer s0 args) as [[s1 ts]|] eqn:E1; [|discriminate].
      destruct (lift_all_spec (V := V) _ _ _ _ _ _ E1 W0) as (W1 & G1 & F1 & T1 & R1).
      destruct (trace_body c_eqb true (outer ++ [t_frame s1]) (start ts) t) as [[[st opst] outst]|] eqn:Et; [|discriminate].
      destruct (trace_body c_eqb true (outer ++ [t_frame s1]) (start ts) e) as [[[se opse] outse]|] eqn:Ee; [|discriminate].
      cbn [finish tf_graph g_outputs tf_morph tf_caps andb] in E.
      destruct (Nat.eqb_spec (List.length (gvs outst)) (List.length (gvs outse))) as [Ln|]; [cbn [negb] in E|discriminate].
      destruct (same_morph c_eqb (out_morph outst) (out_morph outse)) eqn:Em; [cbn [negb] in E|discriminate].
      apply same_morph_eq in Em; auto.
      set (order := merge_captures (map fst (t_caps st)) (map fst (t_caps se))) in *.
      destruct (lift_all outer s1 order) as [[s2 cs]|] eqn:E2; [|discriminate].
      destruct (lift_all_spec (V := V) _ _ _ _ _ _ E2 W1) as (W2 & G2 & F2 & T2 & R2).
      destruct (new_outs (List.length (gvs outst)) s2) as [s3 os] eqn:E3.
      destruct (seq_tok _ _ _ _ _ _ E3 W2) as [Fo Lo].
      destruct (reconstruct (out_morph outst) os) as [rs|] eqn:Er; [|discriminate].
      destruct (trace_body c_eqb true outer (push rs s3) k) as [[[s4 ops4] r]|] eqn:E4; [|discriminate].
      change (Traced (Graph (t_inputs st) opst (gvs outst)) (t_names st) (map fst (t_caps st)) (out_morph outst)) with (finish st opst outst) in E.
      change (Traced (Graph (t_inputs se) opse (gvs outse)) (t_names se) (map fst (t_caps se)) (out_morph outse)) with (finish se opse outse) in E.
      injection E as <- <- <-.
      assert (Er1 : rs = fill is_obj outst (map TV os)) by (rewrite reconstruct_fill in Er by lia; congruence).
      assert (Er2 : rs = fill is_obj outse (map TV os)) by (rewrite Em, reconstruct_fill in Er by lia; congruence).
      assert (Tr : Forall (tok s3) rs) by (rewrite Er1; now apply fill_tok).
      destruct (continue k outer pin s2 _ s3 os rs _ _ _ IHk W2 E3 Tr E4) as (W4 & G4 & T4 & H).
      destruct (merge_spec (map fst (t_caps st)) (map fst (t_caps se))) as (M1 & M2 & M3 & M4). fold order in M1, M2, M3, M4.
      destruct (start_spec (V := V) (outer ++ [t_frame s1]) ts) as (Ws & _).
      assert (Fo2 : Forall (fun r => exists g, olook (outer ++ [t_frame s1]) r = Some (TV g : tval)) order).
      { apply Forall_forall. intros x Hx. destruct (M4 _ Hx) as [Hx'|Hx'].
        - destruct (IHt _ _ _ _ _ _ Et Ws) as (Wt & _). eapply caps_objs; eauto.
        - destruct (IHe _ _ _ _ _ _ Ee Ws) as (We & _). eapply caps_objs; eauto. }
      split; auto. split; [eapply grow_trans; [exact G0|]; eapply grow_trans; [exact G1|]; eapply grow_trans; [exact G2|exact G4]|]. split; auto.
      intros fuel denv dframe e0 O Fr K.
      assert (K2 := caps_ok_prefix _ _ _ _ G4 K). assert (K1 := caps_ok_prefix _ _ _ _ G2 K2). assert (K0 := caps_ok_prefix _ _ _ _ G1 K1).
      destruct (R0 e0 denv dframe O Fr K0) as (dp & P1 & P2). destruct dp as [pv|]; [|destruct P2]. cbn in P2.
      rewrite <- F0 in Fr. destruct (R1 e0 denv dframe O Fr K1) as (das & D1 & D2).
      rewrite <- F1 in Fr. destruct (R2 e0 denv dframe O Fr K2) as (dcs & Q1 & Q2).
      assert (O' := outer_snoc _ _ _ _ _ O Fr).
      destruct (caps_values _ _ _ _ _ _ _ _ Fo2 O' Q1 Q2) as [CV Gc].
      cbn [eval_ops eval_op get_all]. rewrite P2, (get_all_app _ _ _ _ _ (rel_get _ _ _ D2) Gc), run_S_cond, P1, D1.
      assert (A : agrees (evalg fuel (if truth pv then tf_graph (align (List.length (gvs ts)) order (finish st opst outst)) else tf_graph (align (List.length (gvs ts)) order (finish se opse outse))) (objs das ++ objs dcs))
                    (run fuel (denv ++ [dframe]) das (if truth pv then t else e)) (if truth pv then outst else outse)).
      { destruct (truth pv).
        - eapply aligned_sound; eauto. eapply trels_orels; eauto.
        - eapply aligned_sound; eauto. eapply trels_orels; eauto. }
      unfold agrees in A. destruct (evalg fuel _ _) as [vs|]; [|now rewrite A].
      destruct A as (ds & A1 & A2 & A3). rewrite A1. rewrite <- F2 in Fr.
      destruct (H fuel denv dframe e0 vs ds O Fr K) as (e1 & B1 & H1).
      { rewrite A2, <- (orel_len _ _ A3). destruct (truth pv); lia. }
      { intros e' He'. subst vs. destruct (truth pv); [rewrite Er1|rewrite Er2]; now apply fill_rel. }
      rewrite B1. exact H1.
    - cbn [trace_body] in E. destruct (lift_all outer s init) as [[s1 ts]|] eqn:E1; [|discriminate].
      destruct (lift_all_spec (V := V) _ _ _ _ _ _ E1 W) as (W1 & G1 & F1 & T1 & R1).
      destruct (Nat.eqb (List.length init) 0 || negb (forallb is_obj ts)) eqn:Ei; [discriminate|].
      apply orb_false_iff in Ei. destruct Ei as [_ Ei]. apply negb_false_iff in Ei.
      destruct (trace_body c_eqb true (outer ++ [t_frame s1]) (start ts) c) as [[[sc opsc] outsc]|] eqn:Ec; [|discriminate].
      destruct (trace_body c_eqb true (outer ++ [t_frame s1]) (start ts) l) as [[[sl opsl] outsl]|] eqn:El; [|discriminate].
      cbn [finish tf_graph g_outputs tf_morph tf_caps andb] in E.
      match type of E with (if negb (Nat.eqb ?a ?b) then _ else _) = _ => destruct (Nat.eqb_spec a b) as [Lc1|]; [cbn [negb] in E|discriminate] end.
      match type of E with (if negb (Nat.eqb ?a ?b) then _ else _) = _ => destruct (Nat.eqb_spec a b) as [Lc2|]; [cbn [negb] in E|discriminate] end.
      match type of E with (if negb (Nat.eqb ?a ?b) then _ else _) = _ => destruct (Nat.eqb_spec a b) as [Ll1|]; [cbn [negb] in E|discriminate] end.
      match type of E with (if negb (Nat.eqb ?a ?b) then _ else _) = _ => destruct (Nat.eqb_spec a b) as [Ll2|]; [cbn [negb] in E|discriminate] end.
      set (order := merge_captures (map fst (t_caps sc)) (map fst (t_caps sl))) in *.
      destruct (lift_all outer s1 order) as [[s2 cs]|] eqn:E2; [|discriminate].
      destruct (lift_all_spec (V := V) _ _ _ _ _ _ E2 W1) as (W2 & G2 & F2 & T2 & R2).
      destruct (new_outs (List.length ts) s2) as [s3 os] eqn:E3.
      destruct (seq_tok _ _ _ _ _ _ E3 W2) as [Fo Lo].
      destruct (trace_body c_eqb true outer (push (map TV os) s3) k) as [[[s4 ops4] r]|] eqn:E4; [|discriminate].
      change (Traced (Graph (t_inputs sc) opsc (gvs outsc)) (t_names sc) (map fst (t_caps sc)) (out_morph outsc)) with (finish sc opsc outsc) in E.
      change (Traced (Graph (t_inputs sl) opsl (gvs outsl)) (t_names sl) (map fst (t_caps sl)) (out_morph outsl)) with (finish sl opsl outsl) in E.
      injection E as <- <- <-.
      destruct (continue k outer pin s2 _ s3 os (map TV os) _ _ _ IHk W2 E3 (tv_tok _ _ Fo) E4) as (W4 & G4 & T4 & H).
      destruct (merge_spec (map fst (t_caps sc)) (map fst (t_caps sl))) as (M1 & M2 & M3 & M4). fold order in M1, M2, M3, M4.
      destruct (start_spec (V := V) (outer ++ [t_frame s1]) ts) as (Ws & _).
      assert (Fo2 : Forall (fun r => exists g, olook (outer ++ [t_frame s1]) r = Some (TV g : tval)) order).
      { apply Forall_forall. intros x Hx. destruct (M4 _ Hx) as [Hx'|Hx'].
        - destruct (IHc _ _ _ _ _ _ Ec Ws) as (Wt & _). eapply caps_objs; eauto.
        - destruct (IHl _ _ _ _ _ _ El Ws) as (We & _). eapply caps_objs; eauto. }
      (* the loop state consists of objects *)
      assert (Lt : List.length (gvs ts) = List.length ts).
      { clear - Ei. induction ts as [|[g|cc] ts IH]; cbn in Ei; auto; [|discriminate]. rewrite gvs_v. cbn. now rewrite IH. }
      split; auto. split; [eapply grow_trans; [exact G1|]; eapply grow_trans; [exact G2|exact G4]|]. split; auto.
      intros fuel denv dframe e0 O Fr K.
      assert (K2 := caps_ok_prefix _ _ _ _ G4 K). assert (K1 := caps_ok_prefix _ _ _ _ G2 K2).
      destruct (R1 e0 denv dframe O Fr K1) as (das & D1 & D2).
      rewrite <- F1 in Fr. destruct (R2 e0 denv dframe O Fr K2) as (dcs & Q1 & Q2).
      assert (O' := outer_snoc _ _ _ _ _ O Fr).
      destruct (caps_values _ _ _ _ _ _ _ _ Fo2 O' Q1 Q2) as [CV Gc].
      cbn [eval_ops eval_op]. rewrite (get_all_app _ _ _ _ _ (rel_get _ _ _ D2) Gc), run_S_while, D1.
      assert (Ld : List.length (objs das) = List.length os) by (rewrite <- (orel_len _ _ (trels_orels _ _ _ D2)); lia).
      rewrite <- Ld, skipn_app, Nat.sub_diag, skipn_all, firstn_app, Nat.sub_diag, firstn_all, app_nil_r, app_nil_l. cbn [skipn].
      rewrite <- Lt.
      set (gc := tf_graph (align (List.length (gvs ts)) order (finish sc opsc outsc))).
      set (gl := tf_graph (align (List.length (gvs ts)) order (finish sl opsl outsl))).
      assert (Ac : forall ds, Forall2 orel ts ds -> agrees (evalg fuel gc (objs ds ++ objs dcs)) (run fuel (denv ++ [dframe]) ds c) outsc)
        by (intros; eapply aligned_sound; eauto).
      assert (Al : forall ds, Forall2 orel ts ds -> agrees (evalg fuel gl (objs ds ++ objs dcs)) (run fuel (denv ++ [dframe]) ds l) outsl)
        by (intros; eapply aligned_sound; eauto).
      assert (OutC : exists g, outsc = [TV g]).
      { clear - Lc1 Lc2. unfold out_morph in *. destruct (list_split is_obj 0 outsc) as [[fo so] ko] eqn:Es. cbn in *.
        destruct (split_lengths _ _ _ _ _ _ Es) as (S1 & S2 & _). destruct (split_fst _ _ _ _ _ _ Es) as [S3 S4].
        assert (List.length (consts so) = List.length so).
        { assert (X : map TC (consts so) = so) by (rewrite S4; apply tc_filter). rewrite <- X at 2. now rewrite map_length. }
        destruct outsc as [|o [|o' l]]; cbn in S2; try lia. destruct o as [g|cc]; [eauto|]. cbn in S3. subst fo. cbn in S1. lia. }
      assert (OutL : forall ds : list dval, Forall2 orel outsl ds -> Forall2 orel ts ds /\ List.length (objs ds) = List.length (gvs ts)).
      { intros ds Fd. assert (X : List.length outsl = List.length ts).
        { clear - Ll1 Ll2. unfold out_morph in *. destruct (list_split is_obj 0 outsl) as [[fo so] ko] eqn:Es. cbn in *.
          destruct (split_lengths _ _ _ _ _ _ Es) as (S1 & S2 & _). destruct (split_fst _ _ _ _ _ _ Es) as [S3 S4].
          assert (List.length (consts so) = List.length so).
          { assert (X : map TC (consts so) = so) by (rewrite S4; apply tc_filter). rewrite <- X at 2. now rewrite map_length. } lia. }
        assert (Y : List.length (objs ds) = List.length ds).
        { rewrite <- (orel_len _ _ Fd), <- (Forall2_len _ _ _ Fd). lia. }
        split; [|rewrite <- (orel_len _ _ Fd); lia].
        assert (Z : List.length ts = List.length ds) by (rewrite <- (Forall2_len _ _ _ Fd); lia).
        assert (B : forall ds : list dval, List.length (objs ds) <= List.length ds).
        { induction ds0 as [|[v|c1] ds0 IH']; auto; rewrite ?objs_v, ?objs_c; cbn; lia. }
        clear - Ei Y Z B. revert ds Y Z. induction ts as [|[g|cc] ts IH]; intros [|[v|c0] ds] Y Z; try discriminate; rewrite ?objs_v, ?objs_c in Y; cbn in Y, Z.
        - constructor.
        - constructor; [exact I|]. apply IH; auto.
        - exfalso. specialize (B ds). lia. }
      (* both loops run in lockstep *)
      assert (It : forall m (ds : list dval), Forall2 orel ts ds -> List.length (objs ds) = List.length (gvs ts) ->
        match iterate m (fun st => match evalg fuel gc (st ++ objs dcs) with Some (v :: _) => Some (truth v) | Some [] => Some false | None => None end)
                        (fun st => evalg fuel gl (st ++ objs dcs)) (objs ds) with
        | Some vs => exists ds', iterate m (fun st => match run fuel (denv ++ [dframe]) st c with Some [d] => Some (dtruth truth ctruth d) | _ => None end)
                        (fun st => run fuel (denv ++ [dframe]) st l) ds = Some ds' /\ vs = objs ds' /\ Forall2 orel ts ds' /\ List.length vs = List.length (gvs ts)
        | None => iterate m (fun st => match run fuel (denv ++ [dframe]) st c with Some [d] => Some (dtruth truth ctruth d) | _ => None end)
                        (fun st => run fuel (denv ++ [dframe]) st l) ds = None
        end).
      { induction m as [|m IHm]; intros ds Hd Hl; cbn [iterate]; auto.
        specialize (Ac ds Hd). unfold agrees in Ac. destruct (evalg fuel gc (objs ds ++ objs dcs)) as [vc|]; [|now rewrite Ac].
        destruct Ac as (dc & C1 & C2 & C3). rewrite C1. destruct OutC as [g ->]. inversion C3 as [|? d ? dr Od Or]; subst. inversion Or; subst.
        destruct d as [v|]; [|destruct Od]. rewrite objs_v. cbn [dtruth objs flat_map].
        destruct (truth v).
        - specialize (Al ds Hd). unfold agrees in Al. destruct (evalg fuel gl (objs ds ++ objs dcs)) as [vl|]; [|now rewrite Al].
          destruct Al as (dl & A1 & A2 & A3). rewrite A1. subst vl. destruct (OutL _ A3) as [X Y]. apply IHm; auto.
        - exists ds. auto. }
      assert (Hl0 : List.length (objs das) = List.length (gvs ts)) by (symmetry; apply orel_len; eapply trels_orels; eauto).
      specialize (It fuel das (trels_orels _ _ _ D2) Hl0).
      destruct (iterate fuel _ _ (objs das)) as [vs|]; [|now rewrite It].
      destruct It as (ds' & I1 & I2 & I3 & I4). rewrite I1. rewrite <- F2 in Fr.
      destruct (H fuel denv dframe e0 vs ds' O Fr K) as (e1 & B1 & H1); [lia| |rewrite B1; exact H1].
      intros e' He'. subst vs. assert (X : ds' = map DV (objs ds')).
      { clear - Ei I3. revert ds' I3. induction ts as [|[g|cc] ts IH]; intros ds I3; inversion I3; subst; auto.
        - destruct y as [v|]; [|destruct H1]. rewrite objs_v. cbn. f_equal. apply IH; auto.
        - discriminate. }
      rewrite X. now apply rel_TV.
    - cbn [trace_body] in E. destruct (lift_all outer s args) as [[s1 ts]|] eqn:E1; [|discriminate].
      destruct (lift_all_spec (V := V) _ _ _ _ _ _ E1 W) as (W1 & G1 & F1 & T1 & R1).
      destruct (trace_body c_eqb true (outer ++ [t_frame s1]) (start ts) f) as [[[st opst] outst]|] eqn:Et; [|discriminate].
      cbn [finish tf_graph g_outputs tf_morph tf_caps] in E.
      destruct (lift_all outer s1 (map fst (t_caps st))) as [[s2 cs]|] eqn:E2; [|discriminate].
      destruct (lift_all_spec (V := V) _ _ _ _ _ _ E2 W1) as (W2 & G2 & F2 & T2 & R2).
      destruct (new_outs (List.length (gvs outst)) s2) as [s3 os] eqn:E3.
      destruct (seq_tok _ _ _ _ _ _ E3 W2) as [Fo Lo].
      destruct (reconstruct (out_morph outst) os) as [rs|] eqn:Er; [|discriminate].
      destruct (trace_body c_eqb true outer (push rs s3) k) as [[[s4 ops4] r]|] eqn:E4; [|discriminate].
      change (Graph (t_inputs st) opst (gvs outst)) with (tf_graph (finish st opst outst)) in E.
      injection E as <- <- <-.
      assert (Er1 : rs = fill is_obj outst (map TV os)) by (rewrite reconstruct_fill in Er by lia; congruence).
      assert (Tr : Forall (tok s3) rs) by (rewrite Er1; now apply fill_tok).
      destruct (continue k outer pin s2 _ s3 os rs _ _ _ IHk W2 E3 Tr E4) as (W4 & G4 & T4 & H).
      destruct (start_spec (V := V) (outer ++ [t_frame s1]) ts) as (Ws & _).
      assert (Fo2 : Forall (fun r => exists g, olook (outer ++ [t_frame s1]) r = Some (TV g : tval)) (map fst (t_caps st))).
      { apply Forall_forall. intros x Hx. destruct (IHf _ _ _ _ _ _ Et Ws) as (Wt & _). eapply caps_objs; eauto. }
      split; auto. split; [eapply grow_trans; [exact G1|]; eapply grow_trans; [exact G2|exact G4]|]. split; auto.
      intros fuel denv dframe e0 O Fr K.
      assert (K2 := caps_ok_prefix _ _ _ _ G4 K). assert (K1 := caps_ok_prefix _ _ _ _ G2 K2).
      destruct (R1 e0 denv dframe O Fr K1) as (das & D1 & D2).
      rewrite <- F1 in Fr. destruct (R2 e0 denv dframe O Fr K2) as (dcs & Q1 & Q2).
      assert (O' := outer_snoc _ _ _ _ _ O Fr).
      destruct (caps_values _ _ _ _ _ _ _ _ Fo2 O' Q1 Q2) as [CV Gc].
      cbn [eval_ops eval_op]. rewrite (get_all_app _ _ _ _ _ (rel_get _ _ _ D2) Gc), run_S_call, D1.
      assert (A : agrees (evalg fuel (tf_graph (finish st opst outst)) (objs das ++ objs dcs)) (run fuel (denv ++ [dframe]) das f) outst).
      { eapply plain_sound; eauto. eapply trels_orels; eauto. }
      unfold agrees in A. destruct (evalg fuel _ _) as [vs|]; [|now rewrite A].
      destruct A as (ds & A1 & A2 & A3). rewrite A1. rewrite <- F2 in Fr.
      destruct (H fuel denv dframe e0 vs ds O Fr K) as (e1 & B1 & H1).
      { rewrite A2, <- (orel_len _ _ A3). lia. }
      { intros e' He'. subst vs. rewrite Er1. now apply fill_rel. }
      rewrite B1. exact H1.
  Qed.
End Sound.
