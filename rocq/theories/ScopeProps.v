(** C92: operations go to the innermost active context. *)
From Coq Require Import List Bool Arith Lia.
From Verif Require Import ScopeModel ScopeSpec ScopeProofs.
Import ListNotations.

(** One thread: every program made of with-blocks, traces, evaluate and fetch calls, try and
    raise behaves as if contexts were lexically scoped: each primitive goes to the innermost
    enclosing context (the default one if there is none), each lookup finds the innermost
    enclosing context that has what is looked for.  Whether the program returns or raises, the
    stack is afterwards what it was; the default context is created at most once. *)
Theorem C92_single_thread_scoping :
  forall (factory : nat -> ctx) (p : cmd) (s : state), scoped p ->
  let dflt := match default s with Some c => c | None => factory (made s) end in
  exists s', run factory p s = (fst (meaning dflt (stack s) p), s', snd (meaning dflt (stack s) p)) /\
    stack s' = stack s /\
    (default s' = default s /\ made s' = made s \/ default s = None /\ default s' = Some dflt /\ made s' = S (made s)).
Proof.
  intros factory p s H dflt. destruct (run_scoped factory p s H) as (s' & E & St' & G). exists s'. split; [exact E|]. split; [exact St'|].
  destruct G as [G|[D [D' M]]]; [left; exact G|right]. unfold dflt. rewrite D. auto.
Qed.
Print Assumptions C92_single_thread_scoping.

Definition cA := Ctx 0 KInterp true true.
Definition cB := Ctx 1 KTracer false false.
Definition prog_ex := Seq (Bind 1) (Seq (Try (With cA (Seq (Bind 2) (With cB (Seq (Bind 3) (Seq (Lookup NeedCluster) Throw))))) (Bind 4)) (With cA (Bind 5))).
Example C92_example :
  scoped prog_ex /\
  snd (run (fun n => Ctx (10 + n) KInterp false false) prog_ex (St [] None 0)) =
    [Bound 1 (Ctx 10 KInterp false false); Bound 2 cA; Bound 3 cB; Found NeedCluster (Some cA); Bound 4 (Ctx 10 KInterp false false); Bound 5 cA].
Proof. split; [cbn; tauto|reflexivity]. Qed.

(** Several threads share the stack.  In every interleaving each thread executes its own
    operations in its order, and when all have finished the stack is what it was ... *)
Theorem C92_threads_restore_the_stack :
  forall (ps : list cmd) (sched : list (nat * act)) (st : list ctx) (d : ctx),
  Forall with_only ps -> interleaves (map (fun p => snd (acts p)) ps) sched ->
  fst (exec st sched) = st /\
  forall t p, nth_error ps t = Some p -> map fst (binds_of t (snd (exec st sched))) = map (fun e => fst (as_bind e)) (alone d st p).
Proof.
  intros ps sched st d W [I1 I2]. rewrite map_length in I1, I2.
  assert (N : forall t p, nth_error ps t = Some p -> accesses_of t sched = snd (acts p)).
  { intros t p E. rewrite I2 by (apply nth_error_Some; congruence).
    apply nth_error_nth. rewrite nth_error_map, E. reflexivity. }
  destruct (exec_ok (fun _ => True) False (length ps) sched (fun _ => 0) [] st I1) as (A & _ & C).
  - intros t Ht. destruct (nth_error ps t) as [p|] eqn:E; [|apply nth_error_None in E; lia].
    rewrite (N t p E). rewrite <- (app_nil_r (snd (acts p))).
    apply acts_okw; [rewrite Forall_forall in W; apply W; eapply nth_error_In; eauto|apply opens_True|tauto|reflexivity].
  - constructor.
  - symmetry. apply sumn_0. auto.
  - cbn [app] in A, C. split; [exact A|]. intros t p E. rewrite C, (N t p E). symmetry.
    apply meaning_ops. rewrite Forall_forall in W. apply W. eapply nth_error_In; eauto.
Qed.
Print Assumptions C92_threads_restore_the_stack.

(** ... and if all threads work in one and the same context, every operation goes to it, as if
    the thread were alone. *)
Theorem C138_threads_with_one_context_partial :
  forall (c d : ctx) (bodies : list cmd) (sched : list (nat * act)) (st : list ctx),
  Forall with_only bodies -> Forall (opens (eq c)) bodies ->
  interleaves (map (fun b => snd (acts (With c b))) bodies) sched ->
  forall t b, nth_error bodies t = Some b -> binds_of t (snd (exec st sched)) = map as_bind (alone d st (With c b)).
Proof.
  intros c d bs sched st W O [I1 I2] t b E. rewrite map_length in I1, I2.
  assert (N : forall t b, nth_error bs t = Some b -> accesses_of t sched = snd (acts (With c b))).
  { intros t' b' E'. rewrite I2 by (apply nth_error_Some; congruence).
    apply nth_error_nth. rewrite nth_error_map, E'. reflexivity. }
  rewrite Forall_forall in W, O.
  destruct (exec_ok (eq c) True (length bs) sched (fun _ => 0) [] st I1) as (_ & B & C).
  - intros t' Ht. destruct (nth_error bs t') as [b'|] eqn:E'; [|apply nth_error_None in E'; lia].
    rewrite (N t' b' E'). pose proof (nth_error_In _ _ E') as Hin.
    pose proof (acts_okw (eq c) True b' 1 [APop] (W _ Hin) (O _ Hin) (fun _ => Nat.lt_0_1) eq_refl) as K.
    cbn [acts]. destruct (acts b') as [o l]. cbn [snd] in *. split; auto.
  - constructor.
  - symmetry. apply sumn_0. auto.
  - cbn [app] in B, C. pose proof (nth_error_In _ _ E) as Hin. apply (pairs_eq _ _ (Some c)).
    + rewrite C, (N t b E), map_map. symmetry. apply meaning_ops. cbn. auto.
    + eapply binds_of_Forall; [|exact B]. intros e He. cbn. destruct (He I) as (x & -> & <-). reflexivity.
    + apply Forall_map. apply (meaning_const d c b (c :: st) (W _ Hin) (O _ Hin)). reflexivity.
Qed.
Print Assumptions C138_threads_with_one_context_partial.

(** Threads using different contexts are not isolated: an operation written inside a block of one
    interpreter runs in another thread's context - here two interpreters swap, and an operation
    meant to be executed is recorded into the other thread's trace instead. *)
Theorem C138_threads_are_isolated_refuted :
  exists (p0 p1 : cmd) (sched : list (nat * act)),
  with_only p0 /\ with_only p1 /\ interleaves [snd (acts p0); snd (acts p1)] sched /\
  (forall d, alone d [] p0 = [Bound 7 cA]) /\ (forall d, alone d [] p1 = [Bound 8 cB]) /\
  binds_of 0 (snd (exec [] sched)) = [(7, Some cB)] /\ binds_of 1 (snd (exec [] sched)) = [(8, Some cA)].
Proof.
  exists (With cA (Bind 7)), (With cB (Bind 8)), [(0, APush cA); (1, APush cB); (0, ABind 7); (0, APop); (1, ABind 8); (1, APop)].
  repeat split.
  - intros t a H. cbn in H. repeat (destruct H as [H|H]; [injection H as <- _; cbn; lia|]). contradiction.
  - intros t Ht. cbn in Ht. destruct t as [|[|t]]; [reflexivity|reflexivity|lia].
Qed.
Print Assumptions C138_threads_are_isolated_refuted.

(** the thread model agrees with the single-thread semantics *)
Theorem C92_one_thread_alone :
  forall (d : ctx) (p : cmd) (st : list ctx), with_only p -> st <> [] ->
  exec st (map (pair 0) (snd (acts p))) = (st, map (fun e => (0, fst (as_bind e), snd (as_bind e))) (alone d st p)).
Proof.
  intros d p st W NE. pose proof (exec_one d 0 p st [] W NE) as E. rewrite app_nil_r in E. rewrite E. cbn. now rewrite app_nil_r.
Qed.
Print Assumptions C92_one_thread_alone.

Example C92_one_context_example :
  exists sched, interleaves (map (fun b => snd (acts (With cA b))) [Bind 1; With cA (Bind 2)]) sched /\
    snd (exec [cB] sched) = [(1, 2, Some cA); (0, 1, Some cA)].
Proof.
  exists [(0, APush cA); (1, APush cA); (1, APush cA); (1, ABind 2); (1, APop); (1, APop); (0, ABind 1); (0, APop)].
  split; [split|reflexivity].
  - intros t a H. cbn in H. repeat (destruct H as [H|H]; [injection H as <- _; cbn; lia|]). contradiction.
  - intros t Ht. cbn in Ht. destruct t as [|[|t]]; [reflexivity|reflexivity|lia].
Qed.

(** set_root_context: with force the context becomes the only active one; without force it is
    entered if no context is active, and the call raises and changes nothing otherwise.  What
    follows it in the program then goes to that context. *)
Theorem C92_set_root : forall (factory : nat -> ctx) (c : ctx) (force : bool) (op : nat) (s : state),
  run factory (Seq (SetRoot c force) (Bind op)) s =
    (if force then (Done, St [c] (default s) (made s), [Bound op c])
     else match stack s with
          | [] => (Done, St [c] (default s) (made s), [Bound op c])
          | _ :: _ => (Raised, s, []) end).
Proof. intros factory c [|] op [[|x st] d m]; reflexivity. Qed.
Print Assumptions C92_set_root.
Example C92_set_root_example :
  run (fun n => Ctx (10 + n) KInterp false false) (With cA (Seq (SetRoot cB true) (Bind 3))) (St [] None 0) = (Done, St [] None 0, [Bound 3 cB]) /\
  run (fun n => Ctx (10 + n) KInterp false false) (With cA (Seq (SetRoot cB false) (Bind 3))) (St [] None 0) = (Raised, St [] None 0, []).
Proof. split; reflexivity. Qed.
