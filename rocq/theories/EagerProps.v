(** C82 (func dialect), C83 (eager execution), C84 (lifting traced objects). *)
From Coq Require Import List Bool Arith Lia.
From Verif Require Import TraceModel TraceProofs TraceSound TraceCaps TraceProps EagerModel EagerSpec EagerProofs LiftProofs.
Import ListNotations.
Local Open Scope list_scope.

(** ** C82: func.call(func.func(f, ...), ...) is f(...) *)

(** In the tracer that defined it, a function is called with the meaning of its
    body, provided the values of the objects it captured are passed as extra
    arguments after its own. *)
Theorem C82_call_with_captures_passed : forall (C V : Type) (c_eqb : C -> C -> bool), (forall a b, c_eqb a b = true -> a = b) ->
  forall (sem : nat -> list V -> list V) (truth : V -> bool) (ctruth : C -> bool) outer (args : list (tval C)) b t denv dargs captured ctx,
  func_define c_eqb outer args b = Some t ->
  no_const b = true -> forallb (forallb is_obj) outer = true -> forallb is_obj args = true ->
  world outer denv -> Forall2 stands_for args dargs -> Forall2 (value_of denv) (tf_caps t) captured ->
  forall fuel, func_call sem truth fuel (InTracer ctx) (InTracer ctx) t (objs dargs ++ captured) =
    run_body sem truth ctruth fuel denv dargs b.
Proof.
  intros C V c_eqb Hc sem truth ctruth outer args b t denv dargs captured ctx D Nc No Na W A CV fuel.
  rewrite <- (C55_meaning_objects C V c_eqb Hc sem truth ctruth outer args b t denv dargs captured D Nc No Na W A CV fuel).
  unfold func_call, handle_resolves, run_traced, prepare_inputs. now rewrite Nat.eqb_refl.
Qed.
Print Assumptions C82_call_with_captures_passed.

(** In particular a closed function is called correctly. *)
Theorem C82_closed_call : forall (C V : Type) (c_eqb : C -> C -> bool), (forall a b, c_eqb a b = true -> a = b) ->
  forall (sem : nat -> list V -> list V) (truth : V -> bool) (ctruth : C -> bool) (args : list (tval C)) b t dargs ctx,
  func_define c_eqb [] args b = Some t ->
  no_const b = true -> forallb is_obj args = true -> Forall2 stands_for args dargs ->
  forall fuel, func_call sem truth fuel (InTracer ctx) (InTracer ctx) t (objs dargs) =
    run_body sem truth ctruth fuel [] dargs b.
Proof.
  intros C V c_eqb Hc sem truth ctruth args b t dargs ctx D Nc Na A fuel.
  rewrite <- (app_nil_r (objs dargs)).
  apply (C82_call_with_captures_passed C V c_eqb Hc sem truth ctruth [] args b t [] dargs [] ctx); auto.
  - constructor.
  - destruct (C27_captures_in_first_use_order _ _ _ _ _ _ D) as [E _]. rewrite E.
    replace (filter (refers_obj []) (uses (List.length (@nil (list (tval C)))) b)) with (@nil ref); [constructor|].
    symmetry. generalize (uses (List.length (@nil (list (tval C)))) b). intros l. induction l as [|[x y] l IH]; auto. cbn.
    unfold refers_obj at 1. cbn. now destruct x.
Qed.
Print Assumptions C82_closed_call.

(** A function that captures anything can never be called with its own arguments:
    the call raises, whatever the values and the loop bound. *)
Theorem C156_captures_lost_refuted : forall (C V : Type) (c_eqb : C -> C -> bool) (sem : nat -> list V -> list V) (truth : V -> bool) outer (args : list (tval C)) b t,
  func_define c_eqb outer args b = Some t -> tf_caps t <> [] ->
  forall (vals : list V) fuel d c, List.length vals = List.length (filter is_obj args) ->
  func_call sem truth fuel d c t vals = None.
Proof.
  intros C V c_eqb sem truth outer args b t D NE vals fuel d c L. unfold func_call. destruct (handle_resolves d c); auto.
  destruct fuel as [|f]; auto. cbn [eval_graph].
  destruct (C27_inputs_in_order _ _ _ _ _ _ D) as [_ I]. apply (f_equal (@List.length _)) in I. rewrite !map_length, seq_length in I.
  assert (X : List.length (g_inputs (tf_graph t)) <> List.length vals).
  { rewrite I, L. destruct (tf_caps t); [tauto|cbn; lia]. }
  assert (B : forall gs (vs : list V) e, List.length gs <> List.length vs -> bind_all e gs vs = None).
  { induction gs as [|g gs IH]; intros [|v vs] e H; cbn in *; auto; try lia. }
  now rewrite B.
Qed.
Print Assumptions C156_captures_lost_refuted.

(** ... and the func.func operation does not mention the captured values at all. *)
Theorem C156_definition_has_no_inputs_refuted : forall (C : Type) (t : traced C), func_op_inputs t = [].
Proof. reflexivity. Qed.
Print Assumptions C156_definition_has_no_inputs_refuted.

(** From any other context (inside a branch or a local call, or eagerly) the call
    of a function defined elsewhere raises. *)
Theorem C156_other_context_refuted : forall (C V : Type) (sem : nat -> list V -> list V) (truth : V -> bool) fuel d c (t : traced C) vals,
  d <> c \/ d = InInterpreter -> func_call (C := C) sem truth fuel d c t vals = None.
Proof.
  intros C V sem truth fuel d c t vals H. unfold func_call. destruct d as [i|], c as [j|]; cbn; auto.
  destruct (Nat.eqb_spec i j); auto. subst. destruct H; congruence.
Qed.
Print Assumptions C156_other_context_refuted.

(** a function adding its argument to a captured object *)
Definition add_fn : body nat := BPrim 0 [(1, 0); (0, 0)] 1 (BRet [LRef (1, 1)]).
Definition add_sem (_ : nat) (vs : list nat) : list nat := [list_sum vs].
Example C82_example : exists t, func_define Nat.eqb [[TV 0]] [TV 0] add_fn = Some t /\ tf_caps t = [(0, 0)] /\
  func_call add_sem (fun _ => true) 3 (InTracer 0) (InTracer 0) t [5] = None /\
  func_call add_sem (fun _ => true) 3 (InTracer 0) (InTracer 0) t [5; 10] = Some [DV 15] /\
  run_body add_sem (fun _ => true) (fun _ : nat => true) 3 [[DV 10]] [DV 5] add_fn = Some [DV 15].
Proof. eexists. split; [vm_compute; reflexivity|]. repeat split. Qed.
Definition pure_fn : body nat := BPrim 0 [(0, 0); (0, 1)] 1 (BRet [LRef (0, 2); LRef (0, 0)]).
Example C82_closed_example : exists t, func_define Nat.eqb [] [TV 0; TV 1] pure_fn = Some t /\
  func_call add_sem (fun _ => true) 3 (InTracer 7) (InTracer 7) t [5; 10] = Some [DV 15; DV 5].
Proof. eexists. split; [vm_compute; reflexivity|]. reflexivity. Qed.

(** ** C83: eager execution gives what the compiled program gives *)

(** A program run statement by statement in an interpreter session gives exactly
    the values of the same program traced as a whole and evaluated, if every
    statement has at least one result. *)
Theorem C83_eager_equals_compiled : forall (C V : Type) (c_eqb : C -> C -> bool), (forall a b, c_eqb a b = true -> a = b) ->
  forall (sem : nat -> list V -> list V) (truth : V -> bool) f b t (args rs : list (dval C V)),
  no_const b = true -> Forall is_value args -> all_return b = true ->
  trace_fn c_eqb false [[]] (map seen args) b = Some t ->
  run_eager c_eqb sem truth (S f) args (swap_body b) = Some rs ->
  run_traced sem truth (S f) t args [] = Some rs.
Proof.
  intros C V c_eqb Hc sem truth f b t args rs Nc Dv Ar Et E.
  rewrite (C55_meaning_objects C V c_eqb Hc sem truth (fun _ => false) [[]] (map seen args) b t [[]] args []); auto.
  - eapply eager_sound; eauto.
  - now apply seen_obj.
  - repeat constructor.
  - apply seen_stands.
  - destruct (C27_captures_in_first_use_order _ _ _ _ _ _ Et) as [Ec _]. rewrite Ec.
    replace (filter (refers_obj [[]]) (uses (List.length [@nil (tval C)]) b)) with (@nil ref); [constructor|].
    symmetry. generalize (uses (List.length [@nil (tval C)]) b). intros l. induction l as [|[x y] l IH]; auto. cbn.
    unfold refers_obj at 1. cbn. destruct x as [|x]; cbn; [now destruct y|now destruct x].
Qed.
Print Assumptions C83_eager_equals_compiled.

(** With statements that return nothing the values still agree whenever both runs
    complete ... *)
Theorem C83_values_agree : forall (C V : Type) (c_eqb : C -> C -> bool), (forall a b, c_eqb a b = true -> a = b) ->
  forall (sem : nat -> list V -> list V) (truth : V -> bool) (ctruth : C -> bool) f b (args rs rs' : list (dval C V)),
  no_const b = true -> Forall is_value args ->
  run_eager c_eqb sem truth (S f) args (swap_body b) = Some rs ->
  run_body sem truth ctruth (S f) [[]] args b = Some rs' -> rs' = rs.
Proof. intros. eapply eager_sound; eauto. Qed.
Print Assumptions C83_values_agree.

(** ... but a statement without results is not executed at all: what the eager
    call gives does not depend on the implementations of the operations in it, so
    neither their effects nor their errors happen. *)
Theorem C157_no_result_not_executed_refuted : forall (C V : Type) (c_eqb : C -> C -> bool) (sem sem' : nat -> list V -> list V) (truth truth' : V -> bool) fuel fuel' (w : list (dval C V)) call,
  nret call = 0 -> bind_eager c_eqb sem truth fuel w call = bind_eager c_eqb sem' truth' fuel' w call.
Proof.
  intros C V c_eqb sem sem' truth truth' fuel fuel' w call N. unfold bind_eager.
  destruct (trace_fn c_eqb false [map seen w] [] call) as [t|] eqn:E; auto.
  assert (O : g_outputs (tf_graph t) = []).
  { unfold trace_fn in E. destruct (trace_body c_eqb false [map seen w] (start []) call) as [[[s ops] outs]|] eqn:Eb; [|discriminate].
    injection E as <-. apply trace_nret in Eb. rewrite N in Eb. destruct outs; [reflexivity|discriminate]. }
  now rewrite O.
Qed.
Print Assumptions C157_no_result_not_executed_refuted.

(** a local call whose function raises (its primitive 9 returns no value) and
    returns nothing: the compiled program raises, the eager one succeeds *)
Definition log_fn : body nat := BCall [(1, 0)] (BPrim 9 [(2, 0)] 1 (BRet [])) (BRet [LRef (1, 0)]).
Definition log_sem (p : nat) (vs : list nat) : list nat := if Nat.eqb p 9 then [] else [list_sum vs].
Example C83_no_result_example :
  run_eager Nat.eqb log_sem (fun _ => true) 5 [DV 4] (swap_body log_fn) = Some [DV 4] /\
  run_body log_sem (fun _ => true) (fun _ : nat => true) 5 [[]] [DV 4] log_fn = None /\
  exists t, trace_fn Nat.eqb false [[]] [TV 0] log_fn = Some t /\ run_traced log_sem (fun _ => true) 5 t [DV 4] [] = None.
Proof. split; [reflexivity|]. split; [reflexivity|]. eexists. split; [vm_compute; reflexivity|reflexivity]. Qed.
(** a program with a loop and a conditional capturing session objects *)
Definition ex_prog : body nat :=
  BPrim 0 [(1, 0); (1, 1)] 1
    (BCond (1, 0) [(1, 2)] (BPrim 0 [(2, 0); (1, 1)] 1 (BRet [LRef (2, 1)])) (BRet [LRef (1, 0)])
      (BCall [(1, 3)] (BPrim 0 [(2, 0); (1, 2)] 1 (BRet [LRef (2, 1); LRef (2, 0)])) (BRet [LRef (1, 4); LRef (1, 5)]))).
Example C83_example :
  no_const ex_prog = true /\ all_return ex_prog = true /\
  run_eager Nat.eqb add_sem (fun v => Nat.eqb v 1) 5 [DV 1; DV 10] (swap_body ex_prog) = Some [DV 32; DV 21] /\
  run_eager Nat.eqb add_sem (fun v => Nat.eqb v 1) 5 [DV 2; DV 10] (swap_body ex_prog) = Some [DV 14; DV 2] /\
  exists t, trace_fn Nat.eqb false [[]] [TV 0; TV 0] ex_prog = Some t /\
    run_traced add_sem (fun v => Nat.eqb v 1) 5 t [DV 1; DV 10] [] = Some [DV 32; DV 21].
Proof. repeat split. eexists. split; [vm_compute; reflexivity|reflexivity]. Qed.

(** ** C84: lifting traced objects into an interpreter *)

(** For operations whose results do not depend on when they run, any history of
    lifts gives the values of one evaluation of the traced graph. *)
Theorem C84_lift_deterministic : forall (V : Type) (sem : nat -> nat -> list V -> option (list V)) t captured xs runs,
  deterministic sem -> Forall (belongs t) xs ->
  fst (fst (lift_many sem t captured (LInterp [] runs) xs)) = answers (evaluation sem 0 t captured) xs.
Proof. intros. apply many_good; auto. intros y v []. Qed.
Print Assumptions C84_lift_deterministic.

(** ... and those values are the ones the operations, taken one by one, answer on the values of
    their inputs. *)
Theorem C84_evaluation_values : forall (V : Type) (sem : nat -> nat -> list V -> option (list V)) (run : nat) t captured env,
  defined_once t -> evaluation sem run t captured = Some env -> values_of sem run t captured env.
Proof.
  intros V sem run t captured env D H. unfold defined_once in D. unfold evaluation in H.
  destruct (lset (fun _ => None) (lt_inputs t) captured) as [e|] eqn:E; [|discriminate].
  assert (N2 : NoDup (flat_map l_outs (lt_ops t))) by (clear -D; induction (lt_inputs t); [exact D|inversion D; auto]).
  assert (N1 : NoDup (lt_inputs t)) by (clear -D; induction (lt_inputs t); constructor; inversion D; subst; [intro; apply H1, in_or_app; auto|auto]).
  assert (X : forall x, In x (lt_inputs t) -> ~ In x (flat_map l_outs (lt_ops t))).
  { clear -D. induction (lt_inputs t) as [|y l IH]; intros x []; inversion D; subst; [intro; apply H2; apply in_or_app; auto|apply IH; auto]. }
  split.
  - apply same_on with (e := e); [|exact (lset_new _ _ _ _ E N1)]. intros x Hx. apply (leval_keeps sem run _ _ _ _ x H). now apply X.
  - intros k o Ho. apply (leval_values sem run _ 0 e env H N2); [|exact Ho].
    intros x Hx. rewrite (lset_other _ _ _ _ x E); [reflexivity|]. intro C. exact (X x C Hx).
Qed.
Print Assumptions C84_evaluation_values.

(** Whatever the operations do: the traced graph is left as it was found, a value
    once lifted never changes, and the results of one operation come from a single
    evaluation. *)
Theorem C84_graph_restored : forall (V : Type) (sem : nat -> nat -> list V -> option (list V)) t captured s xs,
  snd (lift_many sem t captured s xs) = t.
Proof. intros. apply many_restores. Qed.
Print Assumptions C84_graph_restored.

Theorem C84_lift_stable : forall (V : Type) (sem : nat -> nat -> list V -> option (list V)) t captured runs before x v after,
  ssa t ->
  let s1 := snd (fst (lift_many sem t captured (LInterp [] runs) before)) in
  let s2 := snd (fst (lift_value sem t captured s1 x)) in
  let s3 := snd (fst (lift_many sem t captured s2 after)) in
  fst (fst (lift_value sem t captured s1 x)) = Some v ->
  fst (fst (lift_value sem t captured s3 x)) = Some v.
Proof.
  intros V sem t captured runs before x v after U s1 s2 s3 H.
  assert (O0 : one_run sem t captured (li_cache (LInterp (@nil (nat * V)) runs))) by (intros o Ho; left; reflexivity).
  assert (O1 : one_run sem t captured (li_cache s1)) by (apply many_one_run; auto).
  assert (O2 : one_run sem t captured (li_cache s2)) by (apply lift_one_run; auto).
  assert (K : cache_get x (li_cache s3) = Some v) by (apply many_keeps; auto; now apply lift_then_cached).
  rewrite lift_value_spec, K. reflexivity.
Qed.
Print Assumptions C84_lift_stable.

Theorem C84_results_of_one_operation_together : forall (V : Type) (sem : nat -> nat -> list V -> option (list V)) t captured runs xs o,
  ssa t -> In o (lt_ops t) ->
  let c := li_cache (snd (fst (lift_many sem t captured (LInterp [] runs) xs))) in
  (forall x, In x (l_outs o) -> cache_get x c = None) \/
  exists run env, evaluation sem run t captured = Some env /\ forall x, In x (l_outs o) -> cache_get x c = env x /\ env x <> None.
Proof.
  intros V sem t captured runs xs o U Ho c. apply many_one_run with (xs := xs) (s := LInterp [] runs); auto.
  intros q Hq. left. reflexivity.
Qed.
Print Assumptions C84_results_of_one_operation_together.

(** Results of different operations do not: lifting a random value and then a copy
    of it gives two different draws, and every lift executes the whole graph again. *)
Definition rnd_sem (run k : nat) (vs : list nat) : option (list nat) :=
  match k with 0 => Some [run] | _ => Some vs end.
Definition rnd_trace : ltracer := LTracer [] [LOp [] [0]; LOp [0] [1]] [1].
Theorem C134_one_execution_refuted :
  ssa rnd_trace /\ Forall (belongs rnd_trace) [0; 1] /\
  (forall run env, evaluation rnd_sem run rnd_trace [] = Some env -> env 0 = env 1) /\
  fst (lift_many rnd_sem rnd_trace [] (LInterp [] 0) [0; 1]) = ([Some 0; Some 1], LInterp [(1, 1); (0, 0)] 2).
Proof.
  split; [|split; [|split]].
  - intros o o' x [<-|[<-|[]]] [<-|[<-|[]]]; cbn; intuition congruence.
  - apply Forall_cons; [right; exists (LOp [] [0]); cbn; auto|].
    apply Forall_cons; [right; exists (LOp [0] [1]); cbn; auto|constructor].
  - intros run env E. cbn in E. injection E as <-. reflexivity.
  - reflexivity.
Qed.
Print Assumptions C134_one_execution_refuted.

(** An object traced inside a function with parameters cannot be lifted: only
    captured objects have values, the evaluation lacks the arguments and raises. *)
Theorem C134_parameters_refuted : forall (V : Type) (sem : nat -> nat -> list V -> option (list V)) t captured s x,
  List.length captured < List.length (lt_inputs t) -> cache_get x (li_cache s) = None ->
  fst (fst (lift_value sem t captured s x)) = None.
Proof.
  intros V sem t captured s x L N. rewrite lift_value_spec, N.
  assert (E : evaluation sem (li_runs s) t captured = None).
  { unfold evaluation. assert (X : forall l (vs : list V) e, List.length vs < List.length l -> lset e l vs = None).
    { induction l as [|y l IH]; intros [|v vs] e H; cbn in *; auto; try lia. apply IH. lia. }
    now rewrite X. }
  now rewrite E.
Qed.
Print Assumptions C134_parameters_refuted.

(** Objects of another interpreter are refused, own and unowned ones accepted. *)
Theorem C84_foreign_objects_refused : forall me owner, lift_interp_object me owner = false <-> exists i, owner = Some i /\ i <> me.
Proof.
  intros me [i|]; cbn; [|split; [discriminate|intros (i & [=] & _)]]. rewrite Nat.eqb_neq. split; [eauto|].
  intros (j & [= ->] & H). auto.
Qed.
Print Assumptions C84_foreign_objects_refused.

Example C84_example : let t := LTracer [5] [LOp [5; 5] [6]; LOp [6; 5] [7; 8]] [] in
  let sem := fun (_ k : nat) vs => match k with 0 => Some [list_sum vs] | _ => Some [list_sum vs; 100] end in
  deterministic sem /\ ssa t /\ defined_once t /\ Forall (belongs t) [8; 6; 7; 5] /\
  fst (fst (lift_many sem t [3] (LInterp [] 0) [8; 6; 7; 5])) = [Some 100; Some 6; Some 9; Some 3].
Proof.
  cbv zeta. split; [intros r r' k vs; reflexivity|]. split.
  { intros o o' x [<-|[<-|[]]] [<-|[<-|[]]]; cbn; intuition congruence. }
  split; [repeat constructor; cbn; intuition congruence|].
  split; [|reflexivity]. apply Forall_cons; [right; exists (LOp [6; 5] [7; 8]); cbn; auto|].
  apply Forall_cons; [right; exists (LOp [5; 5] [6]); cbn; auto|].
  apply Forall_cons; [right; exists (LOp [6; 5] [7; 8]); cbn; auto|].
  apply Forall_cons; [left; cbn; auto|constructor].
Qed.
