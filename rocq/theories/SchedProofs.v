(** Proofs: meaning of graphs, the reference-counting synchronous loop. *)
From Coq Require Import List Arith ZArith Bool Lia.
From Verif Require Import SchedSpec SchedModel.
Import ListNotations.

(** ** Environments *)
Section Env.
  Context {V : Type}.
  Notation venv := (@venv V).

  Lemma vset_same (env : venv) k x : vset env k x k = Some x.
  Proof. unfold vset. now rewrite Nat.eqb_refl. Qed.
  Lemma vset_other (env : venv) k j x : j <> k -> vset env k x j = env j.
  Proof. unfold vset. intros H. destruct (Nat.eqb_spec j k); congruence. Qed.

  Lemma vset_all_notin (kvs : list (nat * V)) : forall (env : venv) j, ~ In j (map fst kvs) -> vset_all env kvs j = env j.
  Proof.
    induction kvs as [|[k x] kvs IH]; intros env j H; [reflexivity|]. cbn in *.
    unfold vset_all in *. cbn. rewrite IH by tauto. apply vset_other. intros ->. tauto.
  Qed.

  Lemma in_combine_fst {A B} (l : list A) (l' : list B) k : In k (map fst (combine l l')) -> In k l.
  Proof.
    revert l'; induction l as [|a l IH]; intros [|b l'] H; cbn in *; try tauto.
    destruct H as [->|H]; [now left|right; eauto].
  Qed.

  Lemma vset_all_combine_notin ks (vs : list V) (env : venv) j : ~ In j ks -> vset_all env (combine ks vs) j = env j.
  Proof. intros H. apply vset_all_notin. intros G. apply in_combine_fst in G. tauto. Qed.

  Lemma lookups_ext (e1 e2 : venv) ks : (forall k, In k ks -> e1 k = e2 k) -> lookups e1 ks = lookups e2 ks.
  Proof.
    induction ks as [|k ks IH]; intros H; [reflexivity|]. cbn. rewrite (H k (or_introl eq_refl)), IH; [reflexivity|].
    intros j Hj. apply H. now right.
  Qed.
  Lemma lookups_vset_all ks : forall (vs : list V) (env : venv), NoDup ks -> length vs = length ks ->
    lookups (vset_all env (combine ks vs)) ks = Some vs.
  Proof.
    induction ks as [|k ks IH]; intros [|x vs] env Hnd HL; cbn [lookups combine length] in *; try discriminate; [reflexivity|].
    inversion Hnd as [|? ? Hk Hnd']; subst.
    change (vset_all env ((k, x) :: combine ks vs)) with (vset_all (vset env k x) (combine ks vs)).
    rewrite vset_all_combine_notin by assumption. rewrite vset_same.
    rewrite (IH vs (vset env k x)) by (auto || lia). reflexivity.
  Qed.
  Lemma lookups_some (env : venv) ks vs : lookups env ks = Some vs -> forall k, In k ks -> env k <> None.
  Proof.
    revert vs; induction ks as [|j ks IH]; intros vs H k Hk; cbn in *; [tauto|].
    destruct (env j) as [x|] eqn:Ej; [|discriminate]. destruct (lookups env ks) as [xs|]; [|discriminate].
    destruct Hk as [<-|Hk]; [congruence|]. eapply IH; eauto.
  Qed.
  Lemma lookups_none (env : venv) ks : lookups env ks = None -> exists k, In k ks /\ env k = None.
  Proof.
    induction ks as [|j ks IH]; cbn; [discriminate|]. destruct (env j) as [x|] eqn:Ej.
    - destruct (lookups env ks) as [xs|]; [discriminate|]. intros _. destruct IH as [k [H1 H2]]; [reflexivity|].
      exists k. split; [now right|exact H2].
    - intros _. exists j. split; [now left|exact Ej].
  Qed.
  Lemma lookups_all (env : venv) ks : (forall k, In k ks -> env k <> None) -> exists vs, lookups env ks = Some vs.
  Proof.
    intros H. destruct (lookups env ks) as [vs|] eqn:E1; [eauto|].
    apply lookups_none in E1. destruct E1 as [k [H1 H2]]. destruct (H k H1 H2).
  Qed.
  Lemma lookups_length (env : venv) ks vs : lookups env ks = Some vs -> length vs = length ks.
  Proof.
    revert vs; induction ks as [|j ks IH]; intros vs H; cbn in *; [injection H as <-; reflexivity|].
    destruct (env j) as [x|]; [|discriminate]. destruct (lookups env ks) as [xs|]; [|discriminate].
    injection H as <-. cbn. now rewrite (IH xs).
  Qed.

End Env.

Section Env2.
  Context {V E : Type}.
  Variable sem : nat -> option (list V -> V + E).
  Variable unpack : V -> option (list V).
  Notation venv := (@venv V).

  (** ** Meaning: equations satisfied by the final environment *)
  Lemma run_op_length i o args rs : run_op sem unpack i o args = Good rs -> length rs = length (oout o).
  Proof.
    unfold run_op. destruct (sem i) as [h|]; [|discriminate]. destruct (h args) as [r|e]; [|discriminate].
    destruct (oout o) as [|a [|b l]]; try (intros H; injection H as <-; reflexivity).
    destruct (unpack r) as [xs|]; [|discriminate]. destruct (Nat.eqb_spec (length xs) (length (a :: b :: l))); [|discriminate].
    intros H. injection H as <-. assumption.
  Qed.

  Lemma meaning_frame ops : forall (env : venv) i k, ~ In k (concat (map oout ops)) ->
    fst (meaning sem unpack env i ops) k = env k.
  Proof.
    induction ops as [|o ops IH]; intros env i k H; [reflexivity|]. cbn in H. rewrite in_app_iff in H. cbn.
    destruct (lookups env (oin o)) as [args|]; [|apply IH; tauto].
    destruct (run_op sem unpack i o args) as [rs|e].
    - rewrite IH by tauto. apply vset_all_combine_notin. tauto.
    - specialize (IH env (S i) k). destruct (meaning sem unpack env (S i) ops). cbn in *. apply IH. tauto.
  Qed.

  (** What the final environment F says about the op at position j. *)
  Definition op_eq (F : venv) (errs : list (nat * exn E)) (j : nat) (o : op) : Prop :=
    match lookups F (oin o) with
    | None => (forall k, In k (oout o) -> F k = None) /\ (forall e, ~ In (j, e) errs)
    | Some args =>
        match run_op sem unpack j o args with
        | Good rs => lookups F (oout o) = Some rs /\ (forall e, ~ In (j, e) errs)
        | Bad e => (forall k, In k (oout o) -> F k = None) /\ (forall e', In (j, e') errs <-> e' = e)
        end
    end.

  Lemma NoDup_app_inv {A} (l1 l2 : list A) : NoDup (l1 ++ l2) -> NoDup l1 /\ NoDup l2 /\ forall x, In x l1 -> ~ In x l2.
  Proof.
    induction l1 as [|a l1 IH]; cbn; intros H; [repeat split; auto; constructor|].
    inversion H as [|? ? H1 H2]; subst. destruct (IH H2) as [G1 [G2 G3]]. rewrite in_app_iff in H1.
    split; [constructor; tauto|]. split; [exact G2|]. intros x [<-|Hx]; [tauto|auto].
  Qed.

  Lemma errs_ge ops : forall (env : venv) i j e, In (j, e) (snd (meaning sem unpack env i ops)) -> i <= j < i + length ops.
  Proof.
    induction ops as [|o ops IH]; intros env i j e H; cbn in H; [tauto|]. cbn [length].
    destruct (lookups env (oin o)) as [args|]; [|apply IH in H; lia].
    destruct (run_op sem unpack i o args) as [rs|e']; [apply IH in H; lia|].
    specialize (IH env (S i)). destruct (meaning sem unpack env (S i) ops) as [env' errs]. cbn in *.
    destruct H as [H|H]; [injection H as -> ->; lia|apply IH in H; lia].
  Qed.

  Lemma uses_defined_incl ops : forall d1 d2, incl d1 d2 -> uses_defined d1 ops -> uses_defined d2 ops.
  Proof.
    induction ops as [|o ops IH]; intros d1 d2 H G; [exact I|]. destruct G as [G1 G2]. split.
    - intros k Hk. auto.
    - apply (IH (d1 ++ oout o)); [|exact G2]. intros k. rewrite !in_app_iff. intros [Hk|Hk]; auto.
  Qed.

  Lemma meaning_eq ops : forall (env : venv) i defined,
    uses_defined defined ops -> NoDup (defined ++ concat (map oout ops)) ->
    (forall k, In k (concat (map oout ops)) -> env k = None) ->
    forall j o, nth_error ops j = Some o ->
    op_eq (fst (meaning sem unpack env i ops)) (snd (meaning sem unpack env i ops)) (i + j) o.
  Proof.
    induction ops as [|o ops IH]; intros env i defined U Hnd Henv j o' Hj; [destruct j; discriminate|]. destruct U as [U1 U2].
    destruct (NoDup_app_inv _ _ Hnd) as [N1 [N2 N3]]. cbn [map concat] in *.
    destruct (NoDup_app_inv _ _ N2) as [M1 [M2 M3]].
    assert (Hnd' : NoDup ((defined ++ oout o) ++ concat (map oout ops))) by (rewrite <- app_assoc; exact Hnd).
    assert (Hin : forall k, In k (oin o) -> ~ In k (oout o) /\ ~ In k (concat (map oout ops))).
    { intros k Hk. specialize (N3 k (U1 k Hk)). rewrite in_app_iff in N3. tauto. }
    (* environment after this op, and what follows *)
    assert (Step : forall env1 : venv, (forall k, ~ In k (oout o) -> env1 k = env k) ->
      let F := fst (meaning sem unpack env1 (S i) ops) in
      (forall k, ~ In k (concat (map oout ops)) -> F k = env1 k) /\ lookups F (oin o) = lookups env (oin o) /\
      lookups F (oout o) = lookups env1 (oout o)).
    { intros env1 H1 F. assert (HF : forall k, ~ In k (concat (map oout ops)) -> F k = env1 k) by (intros; apply meaning_frame; assumption).
      split; [exact HF|]. split; apply lookups_ext.
      - intros k Hk. destruct (Hin k Hk) as [K1 K2]. rewrite HF by exact K2. apply H1, K1.
      - intros k Hk. apply HF, M3, Hk. }
    destruct j as [|j].
    - injection Hj as <-. rewrite Nat.add_0_r. cbn [meaning].
      assert (NoErr : forall (env1 : venv) e, ~ In (i, e) (snd (meaning sem unpack env1 (S i) ops))).
      { intros env1 e H. apply errs_ge in H. lia. }
      destruct (lookups env (oin o)) as [args|] eqn:El.
      + destruct (run_op sem unpack i o args) as [rs|e] eqn:Er.
        * destruct (Step (vset_all env (combine (oout o) rs))) as [S1 [S2 S3]].
          { intros k Hk. apply vset_all_combine_notin, Hk. }
          unfold op_eq. rewrite S2, ?El, Er. split; [|apply NoErr].
          rewrite S3. apply lookups_vset_all; [exact M1|]. eapply run_op_length; eassumption.
        * destruct (Step env) as [S1 [S2 S3]]; [reflexivity|]. specialize (NoErr env).
          destruct (meaning sem unpack env (S i) ops) as [F errs]. cbn [fst snd] in *.
          unfold op_eq. rewrite S2, ?El, Er. split.
          -- intros k Hk. rewrite S1 by (apply M3, Hk). apply Henv. apply in_or_app. now left.
          -- intros e'. cbn. split; [intros [H|H]; [congruence|destruct (NoErr e' H)]|intros ->; now left].
      + destruct (Step env) as [S1 [S2 S3]]; [reflexivity|]. unfold op_eq. rewrite S2, ?El. split; [|apply NoErr].
        intros k Hk. rewrite S1 by (apply M3, Hk). apply Henv. apply in_or_app. now left.
    - cbn in Hj. replace (i + S j) with (S i + j) by lia. cbn [meaning].
      assert (HE : forall k, In k (concat (map oout ops)) -> env k = None).
      { intros k Hk. apply Henv. apply in_or_app. now right. }
      destruct (lookups env (oin o)) as [args|] eqn:El.
      + destruct (run_op sem unpack i o args) as [rs|e] eqn:Er.
        * apply (IH _ _ (defined ++ oout o)); auto. intros k Hk.
          rewrite vset_all_combine_notin; [apply HE, Hk|]. intros G. apply (M3 k G Hk).
        * specialize (IH env (S i) (defined ++ oout o) U2 Hnd' HE j o' Hj).
          destruct (meaning sem unpack env (S i) ops) as [F errs]. cbn [fst snd] in *.
          unfold op_eq in *. destruct (lookups F (oin o')) as [args'|].
          -- destruct (run_op sem unpack (S i + j) o' args') as [rs'|e''].
             ++ destruct IH as [I1 I2]. split; [exact I1|]. intros x [Hx|Hx]; [injection Hx as Hx _; lia|exact (I2 x Hx)].
             ++ destruct IH as [I1 I2]. split; [exact I1|]. intros x. rewrite <- I2. cbn.
                split; [intros [Hx|Hx]; [injection Hx as Hx _; lia|exact Hx]|tauto].
          -- destruct IH as [I1 I2]. split; [exact I1|]. intros x [Hx|Hx]; [injection Hx as Hx _; lia|exact (I2 x Hx)].
      + apply (IH _ _ (defined ++ oout o)); auto.
  Qed.
End Env2.

(** ** The facts about a well-formed graph used below *)
Section Facts.
  Context {V E : Type}.
  Variable sem : nat -> option (list V -> V + E).
  Variable unpack : V -> option (list V).
  Variable g : graph.
  Variable inputs : list V.
  Hypothesis wf : wf_graph g.
  Hypothesis wfi : length inputs = length (gin g).

  Let F := final_env sem unpack g inputs.
  Let errs := failures sem unpack g inputs.
  Let env0 := input_env g inputs.

  Lemma outs_not_inputs k : In k (concat (map oout (gops g))) -> ~ In k (gin g).
  Proof.
    destruct wf as [W _]. unfold all_values in W. apply NoDup_app_inv in W. destruct W as [_ [_ W]].
    intros H G. exact (W k G H).
  Qed.
  Lemma env0_input k : In k (gin g) -> env0 k <> None.
  Proof.
    intros H. destruct wf as [W _]. unfold all_values in W. apply NoDup_app_inv in W. destruct W as [W _].
    pose proof (lookups_vset_all (gin g) inputs empty_env W wfi) as L.
    eapply lookups_some in L; [|exact H]. exact L.
  Qed.
  Lemma env0_other k : ~ In k (gin g) -> env0 k = None.
  Proof. intros H. unfold env0, input_env. rewrite vset_all_combine_notin by exact H. reflexivity. Qed.
  Lemma final_input k : In k (gin g) -> F k = env0 k.
  Proof.
    intros H. unfold F, final_env. apply meaning_frame. intros G. exact (outs_not_inputs k G H).
  Qed.
  Lemma final_op i o : nth_error (gops g) i = Some o -> op_eq sem unpack F errs i o.
  Proof.
    intros H. destruct wf as [W1 [W2 W3]].
    apply (meaning_eq sem unpack (gops g) env0 0 (gin g) W2 W1); [|exact H].
    intros k Hk. apply env0_other, outs_not_inputs, Hk.
  Qed.
  Lemma errs_iff i e : In (i, e) errs <-> exists o args, nth_error (gops g) i = Some o /\
     lookups F (oin o) = Some args /\ run_op sem unpack i o args = Bad e.
  Proof.
    split.
    - intros H. assert (Hr : 0 <= i < 0 + length (gops g)) by (eapply errs_ge; exact H).
      destruct (nth_error (gops g) i) as [o|] eqn:Eo; [|apply nth_error_None in Eo; lia].
      pose proof (final_op i o Eo) as K. unfold op_eq in K.
      destruct (lookups F (oin o)) as [args|] eqn:El; [|destruct K as [_ K]; destruct (K e H)].
      destruct (run_op sem unpack i o args) as [rs|e'] eqn:Er; [destruct K as [_ K]; destruct (K e H)|].
      destruct K as [_ K]. apply K in H. subst e'. eauto 6.
    - intros [o [args [H1 [H2 H3]]]]. pose proof (final_op i o H1) as K. unfold op_eq in K.
      rewrite H2, H3 in K. apply K. reflexivity.
  Qed.
  Lemma out_in_values i o k : nth_error (gops g) i = Some o -> In k (oout o) -> In k (concat (map oout (gops g))).
  Proof.
    intros H1 H2. apply in_concat. exists (oout o). split; [|exact H2]. apply in_map. eapply nth_error_In, H1.
  Qed.
End Facts.
