(** C202: what can be traced can be executed; C203: profiling. *)
From Coq Require Import String List Bool Arith Lia.
From Verif Require Import RegistryModel RegistrySpec RegistryProofs.
Import ListNotations.
Local Open Scope list_scope.
Local Open Scope nat_scope.

(** ** C202 *)

(** After any sequence of registrations an operation is executed by the interpreter's own handler if
    it has one, else by the implementation registered last; otherwise it raises. *)
Theorem C202_dispatch_partial :
  forall (F : Type) (handlers events : list (string * F)) op,
    (forall f, get handlers op = Some f -> dispatch handlers (register_all [] events) op = Some f) /\
    (get handlers op = None -> forall f, dispatch handlers (register_all [] events) op = Some f <-> last_for op events f) /\
    (dispatch handlers (register_all [] events) op = None <-> ~ In op (map fst handlers) /\ ~ In op (map fst events)).
Proof.
  intros F handlers events op. unfold dispatch. repeat split.
  - now intros f ->.
  - rewrite H. apply last_get.
  - rewrite H. apply last_get.
  - apply get_none. destruct (get handlers op); [discriminate|auto].
  - apply last_none. destruct (get handlers op); [discriminate|auto].
  - intros [H1 H2]. apply get_none in H1. rewrite H1. now apply last_none.
Qed.
Print Assumptions C202_dispatch_partial.
Example C202_dispatch_ex :
  let reg := register_all [] [("a", 1); ("b", 2); ("a", 3)]%string in
  dispatch [("b", 9)]%string reg "a" = Some 3 /\ dispatch [("b", 9)]%string reg "b" = Some 9 /\ dispatch [("b", 9)]%string reg "c" = None.
Proof. repeat split. Qed.

(** Whichever of the built-in backends can be imported, an operation outside simp has an
    implementation exactly if the module defining it is one of them and can be imported: a module
    that fails to import takes with it its own operations and no others. *)
Theorem C202_backend_failures_partial :
  forall importable op m, ~ In op simp_handlers ->
    (dispatch handlers_of (load_builtins importable []) op = Some m <->
     In m builtin_backends /\ importable m = true /\ exists ops, get backends m = Some ops /\ In op ops).
Proof.
  intros imp op m Hs. unfold dispatch.
  assert (N : get handlers_of op = None) by (apply get_none; unfold handlers_of; rewrite map_map; cbn [fst]; rewrite map_id; exact Hs).
  rewrite N, loaded_iff. unfold defined_in. split.
  - intros (H1 & H2 & H3). repeat split; auto. destruct (get backends m) as [ops|]; [|discriminate]. exists ops. split; auto.
    apply existsb_exists in H3 as (o & Ho & E%String.eqb_eq). now subst.
  - intros (H1 & H2 & ops & E & Ho). rewrite E. repeat split; auto. apply existsb_exists. exists op. split; auto. apply String.eqb_refl.
Qed.
Print Assumptions C202_backend_failures_partial.
Example C202_failures_ex :
  let imp m := negb (String.eqb m "bfv_impl") in
  dispatch handlers_of (load_builtins imp []) "bfv.add" = None /\ dispatch handlers_of (load_builtins imp []) "field.mul" = Some "field_impl"%string /\
  dispatch handlers_of (load_builtins imp []) "simp.shuffle" = Some "simp"%string.
Proof. vm_compute. auto. Qed.

(** With every backend importable, exactly these traceable operations cannot be executed: all of the
    phe dialect (whose backend load_builtins does not load), scatter, the dynamic shuffle and
    get_measurement. *)
Theorem C202_traceable_runs_refuted :
  ~ (forall op, In op traceable -> dispatch handlers_of (load_builtins (fun _ => true) []) op <> None) /\
  forall op, In op traceable ->
    (dispatch handlers_of (load_builtins (fun _ => true) []) op = None <->
     In op ["phe.keygen"; "phe.create_encoder"; "phe.encode"; "phe.decode"; "phe.encrypt"; "phe.decrypt"; "phe.add_cc"; "phe.add_cp"; "phe.mul_cp";
            "tensor.scatter"; "simp.shuffle_dynamic"; "tee.get_measurement"]%string).
Proof.
  split.
  - intros H. apply (H "phe.encrypt"%string); [|vm_compute; reflexivity]. vm_compute. tauto.
  - assert (A : forallb (fun op => Bool.eqb (match dispatch handlers_of (load_builtins (fun _ => true) []) op with None => true | Some _ => false end)
      (existsb (String.eqb op) ["phe.keygen"; "phe.create_encoder"; "phe.encode"; "phe.decode"; "phe.encrypt"; "phe.decrypt"; "phe.add_cc"; "phe.add_cp"; "phe.mul_cp";
            "tensor.scatter"; "simp.shuffle_dynamic"; "tee.get_measurement"]%string)) traceable = true) by (vm_compute; reflexivity).
    rewrite forallb_forall in A. intros op Hop. specialize (A op Hop). apply eqb_prop in A.
    assert (X : forall l, In op l <-> existsb (String.eqb op) l = true).
    { intros l. rewrite existsb_exists. split; [intros H; exists op; split; auto; apply String.eqb_refl|intros (x & H1 & H2%String.eqb_eq); now subst]. }
    rewrite X, <- A. destruct (dispatch _ _ op); split; congruence.
Qed.
Print Assumptions C202_traceable_runs_refuted.

(** Nor is it found out before anything has happened: the operations before the missing one are
    executed, here saving to the store. *)
Theorem C202_checked_first_refuted :
  ~ (forall ops, snd (run handlers_of (load_builtins (fun _ => true) []) ops) = false -> fst (run handlers_of (load_builtins (fun _ => true) []) ops) = []) /\
  (forall (F : Type) (handlers reg : list (string * F)) ops,
     snd (run handlers reg ops) = true <-> Forall (fun o => dispatch handlers reg o <> None) ops) /\
  forall (F : Type) (handlers reg : list (string * F)) a o b,
     Forall (fun o => dispatch handlers reg o <> None) a -> dispatch handlers reg o = None ->
     map fst (fst (run handlers reg (a ++ o :: b))) = a.
Proof.
  split; [|split].
  - intros H. assert (X := H ["store.save"; "tensor.scatter"]%string). vm_compute in X. specialize (X eq_refl). discriminate.
  - intros F handlers reg ops. induction ops as [|o ops IH]; cbn [run]; [cbn; split; auto|].
    destruct (dispatch handlers reg o) eqn:E.
    + destruct (run handlers reg ops) as [done ok]. cbn in *. rewrite IH. split; intros H; [constructor; auto; congruence|now inversion H].
    + cbn. split; [discriminate|]. intros H. inversion H; subst. congruence.
  - intros F handlers reg a o b Ha Ho. induction Ha as [|x a Hx Ha IH]; cbn [app run]; [now rewrite Ho|].
    destruct (dispatch handlers reg x); [|congruence]. destruct (run handlers reg (a ++ o :: b)). cbn in *. now rewrite IH.
Qed.
Print Assumptions C202_checked_first_refuted.

(** ** C203 *)

(** The summary of an operation that no handler of the interpreter takes counts every execution that
    returned, at any depth, and only those; its total is the sum of their durations, its minimum and
    maximum are durations of executions and bound them all.  Operations taken by handlers have no
    entry. *)
Theorem C203_summary_partial :
  forall handled op c,
    match summary op (timings handled c) with
    | Some (count, total, low, high) =>
        handled op = false /\ count = List.length (executions op c) /\ total = list_sum (map duration (executions op c)) /\
        In low (map duration (executions op c)) /\ In high (map duration (executions op c)) /\
        Forall (fun e => low <= duration e <= high) (executions op c)
    | None => handled op = true \/ executions op c = []
    end.
Proof.
  intros handled op c. unfold summary. destruct (handled op) eqn:Hh; [rewrite times_handled by auto; auto|].
  rewrite (times_executions handled op Hh). destruct (executions op c) as [|e l] eqn:E; cbn [map]; [auto|].
  destruct (min_fold (map duration l) (duration e)) as (M1 & M2 & M3), (max_fold (map duration l) (duration e)) as (X1 & X2 & X3).
  rewrite map_length. split; [reflexivity|]. split; [reflexivity|]. split; [reflexivity|]. split; [exact M3|]. split; [exact X3|].
  constructor; [lia|]. rewrite Forall_map in M2, X2. rewrite Forall_forall in *. intros x Hx. split; auto.
Qed.
Print Assumptions C203_summary_partial.
Example C203_summary_ex :
  let c := Call "simp.pcall_static" 1 true [Call "a" 2 true []; Call "b" 1 true [Call "a" 5 true []; Call "a" 7 true []]] in
  let handled o := String.eqb o "simp.pcall_static" in
  summary "a" (timings handled c) = Some (3, 14, 2, 7) /\ summary "b" (timings handled c) = Some (1, 13, 13, 13) /\
  summary "simp.pcall_static" (timings handled c) = None.
Proof. repeat split. Qed.

(** The total of the leaf summary is at most the time the execution took if no recorded operation has
    operations inside ... *)
Theorem C203_leaf_total_partial :
  forall handled c, flat handled c -> leaf_total (timings handled c) <= duration c.
Proof. exact leaf_bound. Qed.
Print Assumptions C203_leaf_total_partial.

(** ... but elementwise and func.call have, are not among the operations it leaves out, and so their
    inner time is counted twice: 10 units of work inside a call of 11 add up to 21.  The operations
    it does leave out never get recorded on an interpreter with simp's handlers. *)
Theorem C203_leaf_double_counted_refuted :
  let handled o := existsb (String.eqb o) simp_handlers in
  ~ (forall c, leaf_total (timings handled c) <= duration c) /\
  (let c := Call "func.call" 1 true [Call "tensor.run_jax" 10 true []] in duration c = 11 /\ leaf_total (timings handled c) = 21) /\
  (let c := Call "tensor.elementwise" 1 true [Call "phe.add_cc" 4 true []; Call "phe.add_cc" 4 true []] in duration c = 9 /\ leaf_total (timings handled c) = 17) /\
  forall c op, In op simp_handlers -> summary op (timings handled c) = None.
Proof.
  cbv zeta. split; [|split; [|split]].
  - intros H. specialize (H (Call "func.call" 1 true [Call "tensor.run_jax" 10 true []])). vm_compute in H. lia.
  - split; reflexivity.
  - split; reflexivity.
  - intros c op Hop. unfold summary. rewrite times_handled; auto. apply existsb_exists. exists op. split; auto. apply String.eqb_refl.
Qed.
Print Assumptions C203_leaf_double_counted_refuted.
