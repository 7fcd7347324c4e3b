(** Properties C28-C30: graph evaluation (runtime/interpreter.py). *)
From Coq Require Import List Arith ZArith Bool Lia.
From Verif Require Import SchedSpec SchedModel SchedProofs SchedSync SchedAsync SchedInv SchedFinal.
Import ListNotations.

(** C28: evaluation with eager freeing gives the outputs of evaluation that keeps every
    value, and on failure raises the first failing operation's error. *)
Theorem C28_freeing_never_changes_the_result :
  forall (V E : Type) (sem : nat -> option (list V -> V + E)) unpack g inputs,
  wf_graph g -> length inputs = length (gin g) ->
  match failures sem unpack g inputs with
  | [] => exists outs, lookups (final_env sem unpack g inputs) (gout g) = Some outs /\
                       evaluate_sync sem unpack g inputs = inl outs
  | (_, e) :: _ => evaluate_sync sem unpack g inputs = inr e
  end.
Proof.
  intros V E sem unpack g inputs wf wfi. pose proof (evaluate_sync_spec sem unpack g inputs wf wfi) as H.
  destruct (failures sem unpack g inputs) as [|[i e] l]; [|exact H]. destruct H as [outs [H1 H2]]. eauto.
Qed.
Print Assumptions C28_freeing_never_changes_the_result.

(** C28: after any prefix of the operations, every value still needed by a later operation
    or by the outputs is present and right, and every consumed value that is no longer
    needed has been freed. *)
Theorem C28_freed_exactly_when_dead :
  forall (V E : Type) (sem : nat -> option (list V -> V + E)) unpack g inputs ops1 ops2,
  wf_graph g -> length inputs = length (gin g) -> gops g = ops1 ++ ops2 ->
  failures sem unpack (Graph (gin g) ops1 []) inputs = [] ->
  exists env rc, sync_loop sem unpack (input_env g inputs) (build_gc g) 0 ops1 = inl (env, rc) /\
    forall k, In k (gin g ++ concat (map oout ops1)) ->
      (In k (concat (map oin ops2) ++ gout g) ->
         env k = final_env sem unpack (Graph (gin g) ops1 []) inputs k /\ env k <> None) /\
      (In k (concat (map oin ops1)) -> ~ In k (concat (map oin ops2) ++ gout g) -> env k = None).
Proof.
  intros V E sem unpack g inputs ops1 ops2 wf wfi Hops Hf.
  pose proof (sync_prefix sem unpack g inputs ops1 ops2 wf wfi Hops) as H.
  unfold failures, input_env in Hf. cbn [gin gops] in Hf. fold (input_env g inputs) in Hf. rewrite Hf in H.
  destruct H as [env [rc [H1 [H2 H3]]]]. exists env, rc. split; [exact H1|]. intros k Hk.
  unfold final_env, input_env. cbn [gin gops]. fold (input_env g inputs).
  specialize (H2 k). unfold gc_view in H2. specialize (H3 k Hk).
  assert (T : In k (concat (map oin ops1)) -> 0 < total_uses g k).
  { intros X. unfold total_uses. rewrite Hops, map_app, concat_app, cnt_app. apply cnt_in in X. lia. }
  split.
  - intros X. apply cnt_in in X. rewrite cnt_app in X.
    destruct (Nat.eqb_spec (cnt (concat (map oin ops2)) k + cnt (gout g) k) 0); [lia|]. cbn [andb] in H2.
    rewrite H2. auto.
  - intros X Y. specialize (T X). assert (Z0 : cnt (concat (map oin ops2) ++ gout g) k = 0).
    { destruct (Nat.eq_dec (cnt (concat (map oin ops2) ++ gout g) k) 0); [assumption|]. exfalso. apply Y, cnt_in. lia. }
    rewrite cnt_app in Z0. rewrite Z0 in H2. destruct (Nat.eqb_spec (total_uses g k) 0); [lia|]. exact H2.
Qed.
Print Assumptions C28_freed_exactly_when_dead.

(** C29: if no operation fails, every execution of the asynchronous scheduler that returns
    gives the sequential outputs, no reachable state raises, and every operation's handler
    was invoked exactly once, on its right arguments. *)
Theorem C29_schedule_independent :
  forall (V E : Type) (sem : nat -> option (list V -> V + E)) unpack g inputs s,
  wf_graph g -> length inputs = length (gin g) -> failures sem unpack g inputs = [] ->
  reachable sem unpack g inputs s ->
  match amain s with
  | Running => True
  | Raised _ => False
  | Returned outs =>
      evaluate_sync sem unpack g inputs = inl outs /\
      NoDup (map fst (acalls s)) /\
      (forall i, i < length (gops g) <-> In i (map fst (acalls s))) /\
      (forall i args, In (i, args) (acalls s) ->
         exists o, nth_error (gops g) i = Some o /\
                   lookups (final_env sem unpack g inputs) (oin o) = Some args)
  end.
Proof.
  intros V E sem unpack g inputs s wf wfi Hf HR.
  destruct (reachable_good sem unpack g inputs wf wfi s HR) as [[M _]|[[outs [M [_ [L [[C1 C2] C3]]]]]|[e [i [M [H _]]]]]]; rewrite M.
  - exact I.
  - pose proof (evaluate_sync_spec sem unpack g inputs wf wfi) as H. rewrite Hf in H. destruct H as [outs' [H1 H2]].
    split; [rewrite H1; congruence|]. split; [exact C1|]. split; [|exact C2].
    intros i. split; [apply C3|]. intros Hi. apply in_map_iff in Hi. destruct Hi as [[j a] [<- Hj]].
    destruct (C2 _ _ Hj) as [o [Ho _]]. apply nth_error_Some. cbn. congruence.
  - rewrite Hf in H. destruct H.
Qed.
Print Assumptions C29_schedule_independent.

(** C29: every execution ends: no infinite run exists from any state, and a reachable state
    in which evaluate_graph has not finished always has a next step (no deadlock). *)
Theorem C29_always_terminates :
  forall (V E : Type) (sem : nat -> option (list V -> V + E)) unpack g inputs,
  wf_graph g -> length inputs = length (gin g) ->
  (forall s, Acc (fun b a => step sem unpack g (async_consumers g inputs) a b) s) /\
  (forall s, reachable sem unpack g inputs s -> amain s = Running ->
     exists s', step sem unpack g (async_consumers g inputs) s s').
Proof.
  intros V E sem unpack g inputs wf wfi. split.
  - apply async_acc.
  - exact (progress sem unpack g inputs wf wfi).
Qed.
Print Assumptions C29_always_terminates.

(** C30: if some operation fails, no schedule ever returns outputs, and whatever is raised
    is the error of one of the operations that fail. *)
Theorem C30_failures_are_raised :
  forall (V E : Type) (sem : nat -> option (list V -> V + E)) unpack g inputs s,
  wf_graph g -> length inputs = length (gin g) -> failures sem unpack g inputs <> [] ->
  reachable sem unpack g inputs s ->
  match amain s with
  | Running => exists s', step sem unpack g (async_consumers g inputs) s s'
  | Returned _ => False
  | Raised e => exists i, In (i, e) (failures sem unpack g inputs)
  end.
Proof.
  intros V E sem unpack g inputs s wf wfi Hf HR.
  destruct (reachable_good sem unpack g inputs wf wfi s HR) as [[M _]|[[outs [M [H _]]]|[e [i [M [H _]]]]]]; rewrite M.
  - exact (progress sem unpack g inputs wf wfi s HR M).
  - tauto.
  - eauto.
Qed.
Print Assumptions C30_failures_are_raised.

(** C30: no handler is invoked twice, and never on wrong or freed arguments, in any schedule
    with failures. *)
Theorem C30_handlers_called_at_most_once :
  forall (V E : Type) (sem : nat -> option (list V -> V + E)) unpack g inputs s,
  wf_graph g -> length inputs = length (gin g) -> reachable sem unpack g inputs s ->
  NoDup (map fst (acalls s)) /\
  (forall i args, In (i, args) (acalls s) ->
     exists o, nth_error (gops g) i = Some o /\
               lookups (final_env sem unpack g inputs) (oin o) = Some args).
Proof.
  intros V E sem unpack g inputs s wf wfi HR.
  destruct (reachable_good sem unpack g inputs wf wfi s HR) as [[_ [st HI]]|[[outs [_ [_ [_ [H _]]]]]|[e [i [_ [_ H]]]]]]; try exact H.
  exact (inv_calls sem unpack g inputs st s HI).
Qed.
Print Assumptions C30_handlers_called_at_most_once.

(** ** A concrete graph: v0,v1 inputs; v2 = v0+v1 (async); v3 = v0*v0 (async);
    (v4,v5) = divmod v3 v2 (sync); output v4,v2. *)
Definition ex_graph : graph :=
  Graph [0; 1] [Op [0; 1] [2] true; Op [0; 0] [3] true; Op [3; 2] [4; 5] false] [4; 2].
Definition ex_sem (bad : bool) (i : nat) : option (list (list nat) -> list nat + nat) :=
  match i with
  | 0 => Some (fun a => match a with [[x]; [y]] => inl [x + y] | _ => inr 7 end)
  | 1 => Some (fun a => match a with [[x]; [y]] => if bad then inr 9 else inl [x * y] | _ => inr 7 end)
  | 2 => Some (fun a => match a with [[x]; [y]] => inl [x / y; x mod y] | _ => inr 7 end)
  | _ => None
  end.
Definition ex_unpack (v : list nat) : option (list (list nat)) := Some (map (fun x => [x]) v).

Example ex_graph_wf : wf_graph ex_graph.
Proof.
  split; [|split].
  - unfold ex_graph, all_values. cbn. repeat constructor; cbn; intuition discriminate.
  - cbn. unfold incl. cbn. intuition (subst; auto).
  - unfold incl, all_values. cbn. intuition (subst; auto).
Qed.
Example ex_no_failures : failures (ex_sem false) ex_unpack ex_graph [[7]; [3]] = [].
Proof. reflexivity. Qed.
Example ex_sync : evaluate_sync (ex_sem false) ex_unpack ex_graph [[7]; [3]] = inl [[4]; [10]].
Proof. reflexivity. Qed.
Example ex_failures : failures (ex_sem true) ex_unpack ex_graph [[7]; [3]] = [(1, HandlerError 1 9)].
Proof. reflexivity. Qed.

(** A run of the scheduler in which the second submitted operation completes first. *)
Example ex_run : exists s, reachable (ex_sem false) ex_unpack ex_graph [[7]; [3]] s /\ amain s = Returned [[4]; [10]].
Proof.
  eexists. split.
  - unfold reachable.
    eapply steps_next; [eapply steps_next; [eapply steps_next; [eapply steps_next; [eapply steps_next; [eapply steps_next; [apply steps_refl|]|]|]|]|]|].
    + eapply step_submit; try reflexivity.
    + eapply step_submit; try reflexivity.
    + eapply (step_complete _ _ _ _ _ 1 [[7];[7]] []). reflexivity.
    + eapply (step_complete _ _ _ _ _ 0 [[7];[3]] []). reflexivity.
    + eapply step_sync; try reflexivity.
    + eapply step_return; try reflexivity.
  - reflexivity.
Qed.
Example ex_failing_run : exists s, reachable (ex_sem true) ex_unpack ex_graph [[7]; [3]] s /\ amain s = Raised (HandlerError 1 9).
Proof.
  eexists. split.
  - unfold reachable.
    eapply steps_next; [eapply steps_next; [eapply steps_next; [eapply steps_next; [eapply steps_next; [apply steps_refl|]|]|]|]|].
    + eapply step_submit; try reflexivity.
    + eapply step_submit; try reflexivity.
    + eapply (step_complete _ _ _ _ _ 1 [[7];[7]] []). reflexivity.
    + eapply (step_report _ _ _ _ _ (HandlerError 1 9) []). reflexivity.
    + eapply step_raise; try reflexivity.
  - reflexivity.
Qed.
