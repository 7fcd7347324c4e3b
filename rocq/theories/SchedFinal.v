(** From the scheduler invariant to reachable states: initial state, preservation, progress. *)
From Coq Require Import List Arith ZArith Bool Lia Permutation.
From Verif Require Import SchedSpec SchedModel SchedProofs SchedSync SchedAsync SchedInv.
Import ListNotations.

Section Final.
  Context {V E : Type}.
  Variable sem : nat -> option (list V -> V + E).
  Variable unpack : V -> option (list V).
  Variable g : graph.
  Variable inputs : list V.
  Hypothesis wf : wf_graph g.
  Hypothesis wfi : length inputs = length (gin g).

  Let n := length (gops g).
  Let F := final_env sem unpack g inputs.
  Let errs := failures sem unpack g inputs.
  Let env0 := input_env g inputs.
  Let cons := async_consumers g inputs.
  Notation inv := (inv sem unpack g inputs).

  Lemma init_unres (st : nat -> status) o : (forall j, st j <> Done) ->
    unres g st o = length (unresolved env0 o).
  Proof.
    intros H. unfold unres, unresolved. f_equal. apply filter_ext. intros k.
    destruct (resolved g st k) eqn:Er.
    - apply resolved_iff in Er. destruct Er as [Hk|[j [o' [_ [Hd _]]]]]; [|destruct (H j Hd)].
      pose proof (env0_input g inputs wf wfi k Hk) as X. unfold env0. destruct (input_env g inputs k); [reflexivity|tauto].
    - destruct (in_dec Nat.eq_dec k (gin g)) as [Hk|Hk].
      + assert (resolved g st k = true) by (apply resolved_iff; auto). congruence.
      + unfold env0. now rewrite (env0_other g inputs k Hk).
  Qed.

  Definition st0 : nat -> status := fun i => if Z.eqb (init_pending g env0 i) 0 then Que else Wait.
  Lemma st0_cases j : st0 j = Que \/ st0 j = Wait.
  Proof. unfold st0. destruct (Z.eqb _ 0); auto. Qed.
  Lemma st0_nodone j : st0 j <> Done.
  Proof. destruct (st0_cases j); congruence. Qed.

  Lemma init_inv : inv None st0 (async_init g inputs).
  Proof.
    assert (ND := st0_nodone).
    assert (IQ : forall i, In (IOp i) (aq (async_init (E:=E) g inputs)) <-> i < n /\ st0 i = Que).
    { intros i. unfold async_init. cbn [aq]. fold env0. rewrite in_app_iff, in_map_iff. split.
      - intros [[x [X1 X2]]|H].
        + injection X1 as ->. apply filter_In in X2. destruct X2 as [X2 X3]. apply in_seq in X2. unfold st0. rewrite X3. split; [unfold n; lia|reflexivity].
        + destruct (length (gops g) =? 0); [destruct H as [H|[]]; discriminate|destruct H].
      - intros [H1 H2]. left. exists i. split; [reflexivity|]. apply filter_In. split; [apply in_seq; unfold n in H1; lia|].
        unfold st0 in H2. destruct (Z.eqb _ 0); [reflexivity|discriminate]. }
    constructor.
    - intros i o Ho. unfold async_init. cbn [apend]. unfold init_pending. rewrite Ho, (init_unres st0 o ND). reflexivity.
    - intros i o Ho. unfold async_init, st0. cbn [apend]. fold env0.
      destruct (Z.eqb_spec (init_pending g env0 i) 0) as [Z0|Z0]; split; intros H; try discriminate; try lia; try reflexivity.
      unfold init_pending in *. rewrite Ho in *. lia.
    - intros k. unfold async_init. cbn [arc]. rewrite build_gc_spec. unfold uses. rewrite uses_nodone by (intros; apply ND). reflexivity.
    - intros k Hk _. apply resolved_iff in Hk. destruct Hk as [Hk|[j [o' [_ [Hd _]]]]]; [|destruct (ND j Hd)].
      unfold async_init. cbn [aenv]. symmetry. apply (final_input sem unpack g inputs wf k Hk).
    - intros i o _ Hd. destruct (ND i Hd).
    - unfold async_init. cbn [aq]. rewrite qops_app, qops_map.
      replace (qops (if length (gops g) =? 0 then [ISentinel (E:=E)] else [])) with (@nil nat) by (destruct (_ =? 0); reflexivity).
      rewrite app_nil_r. apply NoDup_filter, seq_NoDup.
    - exact IQ.
    - constructor.
    - intros i. unfold async_init. cbn. split; [tauto|]. intros [_ [H _]]. destruct (st0_cases i); congruence.
    - intros i a [].
    - intros i a [].
    - intros i _ [H|[H|[H|H]]]; destruct (st0_cases i); congruence.
    - constructor.
    - intros e [].
    - intros _ i _ H. destruct (st0_cases i); congruence.
    - intros _ i _ H. destruct (st0_cases i); congruence.
    - discriminate.
    - intros e H. exfalso. unfold async_init in H. cbn [aq] in H. apply in_app_or in H. destruct H as [H|H].
      + apply in_map_iff in H. destruct H as [x [X _]]. discriminate.
      + destruct (length (gops g) =? 0); [destruct H as [H|[]]; discriminate|destruct H].
    - unfold async_init. cbn [aq]. fold n. destruct (Nat.eqb_spec n 0) as [N|N].
      + split; [intros _ i Hi; lia|]. intros _. apply in_or_app. right. now left.
      + split.
        * intros H. apply in_app_or in H. destruct H as [H|[]]. apply in_map_iff in H. destruct H as [x [X _]]. discriminate.
        * intros H. destruct (ND 0). apply H. lia.
    - unfold async_init. cbn [aremaining]. f_equal. unfold notdone. fold n.
      assert (G : forall l, length l = length (filter (fun i => negb (isdone (st0 i))) l)).
      { induction l as [|a l IH]; [reflexivity|]. cbn [filter length]. destruct (st0_cases a) as [->| ->]; cbn [isdone negb length]; congruence. }
      rewrite <- G. now rewrite seq_length.
  Qed.

  Lemma report_inv st s e l1 l2 : inv None st s -> areport s = l1 ++ e :: l2 ->
    inv None st (report_error e (AState (aenv s) (apend s) (arc s) (aq s) (aremaining s) (aerr s)
                              (ainflight s) (l1 ++ l2) (amain s) (acalls s))).
  Proof.
    intros HI Hrep.
    assert (Hin : forall x, In x (l1 ++ l2) -> In x (areport s)).
    { intros x Hx. rewrite Hrep. apply in_app_or in Hx. apply in_or_app. cbn. tauto. }
    assert (He : In e (areport s)) by (rewrite Hrep; apply in_or_app; right; now left).
    destruct (i_rep _ _ _ _ _ _ _ HI e He) as [i [I1 [I2 I3]]].
    unfold report_error. cbn [aerr]. destruct (aerr s) eqn:Ee.
    - destruct HI as [H1 H2 H3 H4 H5 H6 H7 H8 H9 H10 H11 H12 H13 H14 H15 H16 H17 H18 H19 H20].
      constructor; cbn [aenv apend arc aq aremaining aerr ainflight areport amain acalls]; auto; discriminate.
    - destruct HI as [H1 H2 H3 H4 H5 H6 H7 H8 H9 H10 H11 H12 H13 H14 H15 H16 H17 H18 H19 H20].
      constructor; cbn [aenv apend arc aq aremaining aerr ainflight areport amain acalls]; auto; try discriminate.
      + rewrite qops_app. cbn. rewrite app_nil_r. exact H6.
      + intros j. rewrite in_app_iff, H7. cbn. split; [intros [H|[H|[]]]; [exact H|discriminate]|auto].
      + intros _. split; [eauto|]. exists e. apply in_or_app. right. now left.
      + intros e' H. apply in_app_or in H. destruct H as [H|[H|[]]]; [auto|]. injection H as <-. eauto.
      + rewrite in_app_iff, <- H19. cbn. split; [intros [H|[H|[]]]; [exact H|discriminate]|auto].
  Qed.

  (** A submitted asynchronous operation is taken out of the in-flight set. *)
  Lemma complete_inv st s i args l1 l2 : inv None st s -> ainflight s = l1 ++ (i, args) :: l2 ->
    inv (Some i) st (AState (aenv s) (apend s) (arc s) (aq s) (aremaining s) (aerr s)
                              (l1 ++ l2) (areport s) (amain s) (acalls s)) /\
    st i = Run /\ exists o, nth_error (gops g) i = Some o /\ lookups F (oin o) = Some args.
  Proof.
    intros HI Hfl.
    destruct HI as [H1 H2 H3 H4 H5 H6 H7 H8 H9 H10 H11 H12 H13 H14 H15 H16 H17 H18 H19 H20].
    assert (Hin : In (i, args) (ainflight s)) by (rewrite Hfl; apply in_or_app; right; now left).
    assert (Hnd : ~ In i (map fst (l1 ++ l2)) /\ NoDup (map fst (l1 ++ l2))).
    { rewrite Hfl, map_app in H8. cbn [map fst] in H8. rewrite map_app. split.
      - apply NoDup_remove_2 in H8. exact H8.
      - apply NoDup_remove_1 in H8. exact H8. }
    destruct Hnd as [Hni Hnd].
    split; [|split; [|apply H10, Hin]].
    - constructor; cbn [aenv apend arc aq aremaining aerr ainflight areport amain acalls]; auto.
      + intros j. specialize (H9 j). rewrite Hfl in H9. rewrite map_app in *. cbn [map fst] in H9.
        rewrite !in_app_iff in *. cbn [In] in H9. split.
        * intros H. assert (N : i <> j) by (intros ->; tauto). destruct H9 as [H9 _]. destruct H9 as [A [B _]]; [tauto|]. split; [exact A|]. split; [exact B|congruence].
        * intros [A [B C]]. destruct H9 as [_ H9]. destruct H9 as [H|[H|H]]; [split; [exact A|split; [exact B|discriminate]]|auto|congruence|auto].
      + intros j a Hj. apply H10. rewrite Hfl. apply in_app_or in Hj. apply in_or_app. cbn. tauto.
    - apply H9. apply in_map_iff. exists (i, args). auto.
  Qed.

  Definition calls_ok (s : @astate V E) : Prop :=
    NoDup (map fst (acalls s)) /\
    forall i args, In (i, args) (acalls s) -> exists o, nth_error (gops g) i = Some o /\ lookups F (oin o) = Some args.
  Definition good (s : @astate V E) : Prop :=
    (amain s = Running /\ exists st, inv None st s) \/
    (exists outs, amain s = Returned outs /\ errs = [] /\ lookups F (gout g) = Some outs /\ calls_ok s /\
       forall i, i < n -> In i (map fst (acalls s))) \/
    (exists e i, amain s = Raised e /\ In (i, e) errs /\ calls_ok s).

  Lemma inv_calls st s : inv None st s -> calls_ok s.
  Proof.
    intros HI. split; [apply (i_callnd _ _ _ _ _ _ _ HI)|]. intros i args H.
    destruct (i_calls _ _ _ _ _ _ _ HI i args H) as [o [A [B _]]]. eauto.
  Qed.

  Lemma on_op_done_frame c o rs (s : @astate V E) : amain (on_op_done c o rs s) = amain s /\ acalls (on_op_done c o rs s) = acalls s.
  Proof.
    unfold on_op_done. destruct (aerr s); [auto|]. destruct (fold_left trigger _ _). destruct (fold_left gc_async _ _). auto.
  Qed.
  Lemma finish_frame c i args (s : @astate V E) : amain (finish sem unpack g c i args s) = amain s /\ acalls (finish sem unpack g c i args s) = acalls s.
  Proof.
    unfold finish. destruct (nth_error (gops g) i) as [o|]; [|auto]. destruct (run_op sem unpack i o args); [apply on_op_done_frame|auto].
  Qed.
  Lemma report_frame e (s : @astate V E) : amain (report_error e s) = amain s /\ acalls (report_error e s) = acalls s.
  Proof. unfold report_error. destruct (aerr s); auto. Qed.
  Lemma good_frame (s s' : @astate V E) : amain s <> Running -> amain s' = amain s -> acalls s' = acalls s -> good s -> good s'.
  Proof.
    intros N H1 H2 [[A _]|[H|H]]; [congruence|right; left|right; right]; unfold calls_ok in *; rewrite H1, H2; exact H.
  Qed.

  Lemma all_done_no_errs st s : inv None st s -> (forall i, i < n -> st i = Done) -> errs = [].
  Proof.
    intros HI H. destruct errs as [|[i e] l] eqn:Ee; [reflexivity|]. exfalso.
    assert (G : In (i, e) errs) by (rewrite Ee; now left).
    apply (errs_iff sem unpack g inputs wf wfi) in G. destruct G as [o [args [G1 [G2 G3]]]].
    pose proof (nth_lt g i o G1) as Hi.
    destruct (i_done _ _ _ _ _ _ _ HI i o G1 (H i Hi)) as [args' [rs [A1 A2]]]. congruence.
  Qed.

  Lemma step_good s s' : good s -> step sem unpack g cons s s' -> good s'.
  Proof.
    intros HG HS.
    assert (Hrun : amain s = Running -> exists st, inv None st s).
    { intros H. destruct HG as [[_ X]|[[o [X _]]|[e [i [X _]]]]]; [exact X|congruence|congruence]. }
    destruct HS as [s q M Q|s e q M Q|s i o q M Q Ho Hl|s i o q args M Q Ho Hl Hs|s i o q args h M Q Ho Hl Hs Ha
                   |s i o q args h M Q Ho Hl Hs Ha|s i args l1 l2 Hfl|s e l1 l2 Hrep].
    - destruct (Hrun M) as [st HI]. right; left.
      assert (D : forall i, i < n -> st i = Done) by (apply (i_sent _ _ _ _ _ _ _ HI); rewrite Q; now left).
      destruct (lookups_all F (gout g)) as [outs Ho].
      { intros k Hk. apply (resolved_some sem unpack g inputs wf wfi None st s k HI). apply resolved_iff.
        destruct wf as [_ [_ W3]]. apply W3 in Hk. unfold all_values in Hk. apply in_app_or in Hk.
        destruct Hk as [Hk|Hk]; [auto|right]. apply in_concat in Hk. destruct Hk as [l [K1 K2]]. apply in_map_iff in K1.
        destruct K1 as [o [<- K1]]. apply In_nth_error in K1. destruct K1 as [j K1]. exists j, o. split; [exact K1|].
        split; [apply D; eapply nth_lt; eassumption|exact K2]. }
      exists outs. assert (Henv : lookups (aenv s) (gout g) = Some outs).
      { rewrite <- Ho. apply lookups_ext. intros k Hk. apply (i_env _ _ _ _ _ _ _ HI).
        - apply resolved_iff. destruct wf as [_ [_ W3]]. apply W3 in Hk. unfold all_values in Hk. apply in_app_or in Hk.
          destruct Hk as [Hk|Hk]; [auto|right]. apply in_concat in Hk. destruct Hk as [l [K1 K2]]. apply in_map_iff in K1.
          destruct K1 as [o [<- K1]]. apply In_nth_error in K1. destruct K1 as [j K1]. exists j, o. split; [exact K1|].
          split; [apply D; eapply nth_lt; eassumption|exact K2].
        - right. assert (0 < cnt (gout g) k) by (apply cnt_in; exact Hk). lia. }
      rewrite Henv. split; [reflexivity|]. split; [eapply all_done_no_errs; eassumption|]. split; [exact Ho|].
      split; [exact (inv_calls st s HI)|]. intros i Hi. apply (i_called _ _ _ _ _ _ _ HI i Hi). unfold started. auto.
    - destruct (Hrun M) as [st HI]. right; right.
      destruct (i_qerr _ _ _ _ _ _ _ HI e) as [i Hi]; [rewrite Q; now left|].
      exists e, i. split; [reflexivity|]. split; [exact Hi|exact (inv_calls st s HI)].
    - destruct (Hrun M) as [st HI]. exfalso.
      assert (HQ : st i = Que) by (apply (i_q _ _ _ _ _ _ _ HI); rewrite Q; now left).
      destruct (que_args sem unpack g inputs wf wfi None st s i o HI Ho HQ) as [a [A _]]. congruence.
    - destruct (Hrun M) as [st HI]. right; right.
      assert (HQ : st i = Que) by (apply (i_q _ _ _ _ _ _ _ HI); rewrite Q; now left).
      destruct (que_args sem unpack g inputs wf wfi None st s i o HI Ho HQ) as [a [A B]].
      exists (NotImplemented i), i. split; [reflexivity|]. split; [|exact (inv_calls st s HI)].
      refine (proj2 (errs_iff sem unpack g inputs wf wfi i _) _). exists o, a. split; [exact Ho|]. split; [exact B|].
      unfold run_op. rewrite Hs. reflexivity.
    - destruct (Hrun M) as [st HI]. left. split; [reflexivity|].
      assert (HQ : st i = Que) by (apply (i_q _ _ _ _ _ _ _ HI); rewrite Q; now left).
      destruct (que_args sem unpack g inputs wf wfi None st s i o HI Ho HQ) as [a [A B]].
      assert (a = args) by congruence. subst a.
      destruct (start_inv sem unpack g inputs st s i o q args HI Q Ho B) as [_ HJ].
      exists (sset st i Run). revert HJ. generalize (nth_lt g i o Ho). intros Hi HJ.
      destruct HJ as [H1 H2 H3 H4 H5 H6 H7 H8 H9 H10 H11 H12 H13 H14 H15 H16 H17 H18 H19 H20].
      cbn [aenv apend arc aq aremaining aerr ainflight areport amain acalls] in *.
      assert (Hni : ~ In i (map fst (ainflight s))) by (rewrite H9; intros [_ [_ X]]; congruence).
      constructor; cbn [aenv apend arc aq aremaining aerr ainflight areport amain acalls]; auto.
      + cbn [map fst]. constructor; assumption.
      + intros j. cbn [map fst In]. rewrite H9. destruct (Nat.eq_dec i j) as [Hij|Hij].
        * subst j. split; [|auto]. intros _. split; [exact Hi|]. split; [apply sset_same|discriminate].
        * split; [intros [X|[X1 [X2 X3]]]; [congruence|]|intros [X1 [X2 X3]]; right]; (split; [assumption|split; [assumption|congruence]]).
      + intros j a [Hj|Hj]; [injection Hj as <- <-; eauto|auto].
    - destruct (Hrun M) as [st HI]. left.
      split; [rewrite (proj1 (finish_frame cons i args _)); reflexivity|].
      assert (HQ : st i = Que) by (apply (i_q _ _ _ _ _ _ _ HI); rewrite Q; now left).
      destruct (que_args sem unpack g inputs wf wfi None st s i o HI Ho HQ) as [a [A B]].
      assert (a = args) by congruence. subst a.
      destruct (start_inv sem unpack g inputs st s i o q args HI Q Ho B) as [_ HJ].
      apply (finish_inv sem unpack g inputs wf wfi (sset st i Run) _ i o args HJ Ho (sset_same _ _ _) B).
    - destruct (amain s) as [|outs|e] eqn:M; [| |].
      + destruct (Hrun eq_refl) as [st HI]. left. split; [rewrite (proj1 (finish_frame cons i args _)); cbn; congruence|].
        destruct (complete_inv st s i args l1 l2 HI Hfl) as [HJ [R [o [Ho B]]]]. rewrite M in HJ.
        apply (finish_inv sem unpack g inputs wf wfi st _ i o args HJ Ho R B).
      + eapply good_frame; [| | |exact HG]; [congruence| |]; rewrite ?(proj1 (finish_frame cons i args _)), ?(proj2 (finish_frame cons i args _)); cbn; congruence.
      + eapply good_frame; [| | |exact HG]; [congruence| |]; rewrite ?(proj1 (finish_frame cons i args _)), ?(proj2 (finish_frame cons i args _)); cbn; congruence.
    - destruct (amain s) as [|outs|e0] eqn:M; [| |].
      + destruct (Hrun eq_refl) as [st HI]. left. split; [rewrite (proj1 (report_frame e _)); reflexivity|].
        exists st. rewrite <- M. apply report_inv; assumption.
      + eapply good_frame; [| | |exact HG]; [congruence| |]; rewrite ?(proj1 (report_frame e _)), ?(proj2 (report_frame e _)); cbn; congruence.
      + eapply good_frame; [| | |exact HG]; [congruence| |]; rewrite ?(proj1 (report_frame e _)), ?(proj2 (report_frame e _)); cbn; congruence.
  Qed.

  Lemma reachable_good s : reachable sem unpack g inputs s -> good s.
  Proof.
    unfold reachable. intros H. remember (async_init g inputs) as s0 eqn:E0. revert E0.
    induction H as [s1|s1 s2 s3 _ IH HS]; intros E0.
    - subst s1. left. split; [reflexivity|]. exists st0. exact init_inv.
    - eapply step_good; [apply IH, E0|exact HS].
  Qed.

  (** The defining operation of a used value comes earlier. *)
  Lemma uses_earlier ops : forall d i o k, uses_defined d ops -> nth_error ops i = Some o -> In k (oin o) ->
    In k d \/ exists j oj, j < i /\ nth_error ops j = Some oj /\ In k (oout oj).
  Proof.
    induction ops as [|a ops IH]; intros d i o k U Hi Hk; [destruct i; discriminate|]. destruct U as [U1 U2]. destruct i as [|i]; cbn in Hi.
    - injection Hi as <-. left. apply U1, Hk.
    - destruct (IH _ i o k U2 Hi Hk) as [H|[j [oj [J1 [J2 J3]]]]].
      + apply in_app_or in H. destruct H as [H|H]; [auto|]. right. exists 0, a. split; [lia|]. auto.
      + right. exists (S j), oj. split; [lia|]. auto.
  Qed.

  Lemma progress s : reachable sem unpack g inputs s -> amain s = Running -> exists s', step sem unpack g cons s s'.
  Proof.
    intros HR M. destruct (reachable_good s HR) as [[_ [st HI]]|[[o [X _]]|[e [i [X _]]]]]; [|congruence|congruence].
    destruct (ainflight s) as [|[i args] l] eqn:Efl; [|eexists; apply (step_complete sem unpack g cons s i args [] l Efl)].
    destruct (areport s) as [|e l] eqn:Erep; [|eexists; apply (step_report sem unpack g cons s e [] l Erep)].
    destruct (aq s) as [|it q] eqn:Eq.
    - exfalso. destruct (aerr s) eqn:Ee.
      { destruct (i_err _ _ _ _ _ _ _ HI Ee) as [_ [e He]]. rewrite Eq in He. destruct He. }
      assert (C : forall i, i < n -> st i = Wait \/ st i = Done).
      { intros i Hi. destruct (st i) eqn:Es; auto; exfalso.
        - assert (H : In (IOp i) (aq s)) by (apply (i_q _ _ _ _ _ _ _ HI); auto). rewrite Eq in H. destruct H.
        - assert (H : In i (map fst (ainflight s))) by (apply (i_fl _ _ _ _ _ _ _ HI); repeat split; auto; discriminate). rewrite Efl in H. destruct H.
        - destruct (i_fail _ _ _ _ _ _ _ HI Ee i Hi Es) as [e He]. rewrite Erep in He. destruct He.
        - destruct (i_nodrop _ _ _ _ _ _ _ HI Ee i Hi Es). }
      assert (D : forall i, i < n -> st i = Done).
      { induction i as [i IH] using lt_wf_ind. intros Hi. destruct (C i Hi) as [W|W]; [|exact W]. exfalso.
        destruct (nth_error (gops g) i) as [o|] eqn:Eo; [|apply nth_error_None in Eo; unfold n in Hi; lia].
        pose proof (proj1 (i_wait _ _ _ _ _ _ _ HI i o Eo) W) as P. rewrite (i_pend _ _ _ _ _ _ _ HI i o Eo) in P.
        unfold unres in P. destruct (filter (fun k => negb (resolved g st k)) (oin o)) as [|k l] eqn:Ef; [cbn in P; lia|].
        assert (G : In k (filter (fun k => negb (resolved g st k)) (oin o))) by (rewrite Ef; now left).
        apply filter_In in G. destruct G as [G1 G2]. assert (R : resolved g st k = true); [|rewrite R in G2; discriminate].
        apply resolved_iff. destruct wf as [_ [W2 _]]. destruct (uses_earlier (gops g) (gin g) i o k W2 Eo G1) as [H|[j [oj [J1 [J2 J3]]]]]; [auto|].
        right. exists j, oj. split; [exact J2|]. split; [apply IH; [exact J1|lia]|exact J3]. }
      apply (proj2 (i_sent _ _ _ _ _ _ _ HI)) in D. rewrite Eq in D. destruct D.
    - destruct it as [i|e|].
      + assert (HQ : i < n /\ st i = Que) by (apply (i_q _ _ _ _ _ _ _ HI); rewrite Eq; now left). destruct HQ as [Hi HQ].
        destruct (nth_error (gops g) i) as [o|] eqn:Eo; [|apply nth_error_None in Eo; unfold n in Hi; lia].
        destruct (que_args sem unpack g inputs wf wfi None st s i o HI Eo HQ) as [a [A B]].
        destruct (sem i) as [h|] eqn:Es.
        * destruct (oasync o) eqn:Ea; eexists; [eapply step_submit|eapply step_sync]; eassumption.
        * eexists. eapply step_noimpl; eassumption.
      + eexists. eapply step_raise; eassumption.
      + eexists. eapply step_return; eassumption.
  Qed.

  Lemma async_acc s : Acc (fun b a => step sem unpack g cons a b) s.
  Proof. apply step_acc. intros k c H. apply consumers_lt in H. exact (proj2 H). Qed.
End Final.
