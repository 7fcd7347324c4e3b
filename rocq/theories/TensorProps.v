(** Properties C72-C74: the tensor dialect. Statements use [conforms],
    [static_type], [np_shape], [elems_at] of TensorSpec; programs are traced
    ([trace], the typing rules) and executed ([run], the NumPy implementations). *)
From Coq Require Import List Arith ZArith Lia Bool.
From Verif Require Import TensorModel TensorSpec TensorProofs.
Import ListNotations.
Open Scope Z_scope.

(** C72: for every program accepted by the tracer and every inputs conforming to
    the input types, whenever execution succeeds every value it computes has
    exactly the rank and the static dimensions its traced type announces. *)
Theorem C72_static_types_describe_values :
  forall (p : list op) (in_types types : list sty) (inputs values : list val),
    Forall2 conforms inputs in_types ->
    trace in_types p = Some types ->
    run types inputs p = Ok values ->
    Forall2 conforms values types.
Proof. intros. eapply run_sound; eauto. Qed.
Print Assumptions C72_static_types_describe_values.

(** arange(n).reshape(shape) *)
Definition iota (s : list nat) : val :=
  VArr {| sh := s; get := fun i => Z.of_nat (ravel s i) |}.
Definition f64 := EOther 0.
Definition i64 := EInt 64 true.

Definition ex_prog : list op :=
  [ OTranspose 0 [1; 0];                       (* (3,2) *)
    OReshape 0 [-1];                           (* (6,)  *)
    OConcat [0; 0]%nat 1;                      (* (2,6) *)
    OSlice 4 [0; -4] [2; 100] (Some [1; 3]);   (* (2,2) *)
    OGather 5 1 (-1);                          (* (2,2) *)
    OElem [5; 5]%nat (fun l => match l with [a; b] => Some (a + 10 * b) | _ => None end) f64 ].
Definition ex_in : list val := [iota [2; 3]%nat; VArr {| sh := [2]%nat; get := fun i => match i with [O] => -1 | _ => 0 end |}].
Definition ex_tys : list sty := [STens f64 [2; 3]; STens i64 [2]].

Definition flat (v : val) : list Z := map (unwrap v).(get) (all_idx (np_shape v)).

Example C72_example :
  option_map (fun tys => (map type_shape tys,
    match run tys ex_in ex_prog with
    | Ok vs => map (fun v => (np_shape v, flat v)) vs | Err _ => [] end))
    (trace ex_tys ex_prog) =
  Some ([[2;3]; [2]; [3;2]; [6]; [2;6]; [2;2]; [2;2]; [2;2]],
        [([2;3]%nat, [0;1;2;3;4;5]); ([2]%nat, [-1;0]);
         ([3;2]%nat, [0;3;1;4;2;5]); ([6]%nat, [0;1;2;3;4;5]);
         ([2;6]%nat, [0;1;2;0;1;2;3;4;5;3;4;5]);
         ([2;2]%nat, [2;2;5;5]); ([2;2]%nat, [2;2;5;5]); ([2;2]%nat, [22;22;55;55])]).
Proof. vm_compute. reflexivity. Qed.

Example C72_inputs_conform : Forall2 conforms ex_in ex_tys.
Proof. unfold conforms; repeat (apply Forall2_cons || apply Forall2_nil); right; reflexivity. Qed.

(** Tensors of different element types are not joined: concat and scatter are refused at trace time. *)
Definition element_type (t : sty) : ety := match t with STens e _ | SScal e => e end.
Theorem C72_element_types_agree :
  (forall ts axis t, concat_ae ts axis = Some t -> forall u, In u ts -> element_type u = element_type t) /\
  (forall t ix up r, scatter_ae t ix up = Some r -> element_type up = element_type t /\ r = t).
Proof.
  assert (EE : forall a b, ety_eqb a b = true -> a = b).
  { intros [x s|x] [y s'|y]; cbn; intros H; try discriminate H.
    - apply andb_prop in H as [H1 H2]. apply Nat.eqb_eq in H1. apply Bool.eqb_prop in H2. congruence.
    - apply Nat.eqb_eq in H. congruence. }
  split.
  - intros ts axis t H u Hu. unfold concat_ae in H. destruct (all_tensors ts) as [[|[e first] rest]|] eqn:E; try discriminate H.
    destruct (forallb _ rest) eqn:F; [|discriminate H].
    assert (A : forall ts l, all_tensors ts = Some l -> forall u, In u ts -> In (element_type u) (map fst l)).
    { clear. induction ts as [|[e sh|e] ts IH]; intros l E u Hu; [destruct Hu| |discriminate E].
      cbn in E. destruct (all_tensors ts) as [l'|]; [|discriminate E]. injection E as <-. destruct Hu as [<-|Hu]; [left; reflexivity|right; eauto]. }
    assert (Ht : element_type t = e).
    { cbv zeta in H. destruct (_ || _); [discriminate H|]. destruct (concat_loop _ _ _ _) as [[res cds]|]; [|discriminate H].
      unfold mk_tensor in H. destruct (forallb _ _) in H; [|discriminate H]. injection H as <-. reflexivity. }
    rewrite Ht. specialize (A _ _ E u Hu). cbn [map fst] in A. destruct A as [A|A]; [congruence|].
    apply in_map_iff in A. destruct A as [p [A1 A2]]. rewrite forallb_forall in F. specialize (F p A2). apply EE in F. congruence.
  - intros t ix up r H. destruct t, ix, up; try discriminate H. cbn in H. destruct (ety_eqb e1 e) eqn:E; [|discriminate H].
    apply EE in E. injection H as <-. cbn. auto.
Qed.
Print Assumptions C72_element_types_agree.
Example C72_element_types_example : concat_ae [STens (EInt 32 true) [2]; STens (EInt 64 true) [2]] 0 = None /\
  concat_ae [STens (EInt 32 true) [2]; STens (EInt 32 true) [3]] 0 = Some (STens (EInt 32 true) [5]).
Proof. split; reflexivity. Qed.

(** C73: a traced program over statically shaped inputs never fails at run time for
    a shape reason: the only errors are an index out of range in a gather, an
    exception of the function given to elementwise, and scatter. *)
Theorem C73_no_shape_errors :
  forall (p : list op) (in_types types : list sty) (inputs : list val) (e : err),
    Forall2 conforms inputs in_types ->
    Forall static_type in_types ->
    trace in_types p = Some types ->
    run types inputs p = Err e ->
    e <> EShape /\
    (e = EIndex -> exists x i a, In (OGather x i a) p) /\
    (e = EFn -> exists xs f t, In (OElem xs f t) p) /\
    (e = ENoImpl -> exists x i u a, In (OScatter x i u a) p).
Proof.
  intros p it tys ins e C S T R.
  pose proof (run_no_shape_error _ _ _ _ _ C S T R) as X.
  rewrite Exists_exists in X. destruct X as (o & I & H).
  destruct o; try contradiction; subst e; (split; [discriminate|]); repeat split; try discriminate;
    intros _; eauto 6.
Qed.
Print Assumptions C73_no_shape_errors.

(** in particular structural programs always run *)
Definition structural (o : op) : Prop :=
  match o with OTranspose _ _ | OReshape _ _ | OConcat _ _ | OSlice _ _ _ _ => True | _ => False end.

Theorem C73_structural_programs_run :
  forall (p : list op) (in_types types : list sty) (inputs : list val),
    Forall2 conforms inputs in_types -> Forall static_type in_types ->
    Forall structural p -> trace in_types p = Some types ->
    exists values, run types inputs p = Ok values.
Proof.
  intros p it tys ins C S F T. destruct (run tys ins p) as [vs|e] eqn:R; eauto.
  pose proof (run_no_shape_error _ _ _ _ _ C S T R) as X.
  rewrite Exists_exists in X. destruct X as (o & I & H). rewrite Forall_forall in F.
  specialize (F _ I). destruct o; simpl in F; contradiction.
Qed.
Print Assumptions C73_structural_programs_run.

Example C73_example : Forall static_type ex_tys /\ Forall structural (firstn 4 ex_prog) /\
  trace ex_tys (firstn 4 ex_prog) <> None.
Proof. repeat split; repeat constructor. vm_compute. discriminate. Qed.

(** ... but every traced program containing tensor.scatter fails: the primitive is
    typed and has no implementation. *)
Theorem C128_scatter_refuted :
  forall (x i u : nat) (axis : Z) (p : list op) (types : list sty) (inputs : list val),
    forall values, run types inputs (OScatter x i u axis :: p) <> Ok values.
Proof. intros. simpl. discriminate. Qed.
Print Assumptions C128_scatter_refuted.

Example C73_scatter_accepted :
  trace [STens f64 [4]; STens i64 [2]; STens f64 [2]] [OScatter 0 1 2 0] =
  Some [STens f64 [4]; STens i64 [2]; STens f64 [2]; STens f64 [4]].
Proof. reflexivity. Qed.

(** C74: tensor.elementwise applies the function at every index. When the tensor
    arguments of positive rank have one run-time shape [s], the result has shape
    [s] and its element at every index is the function of the arguments' elements
    there; the only possible error is one raised by the function. *)
Theorem C74_pointwise :
  forall (f : list Z -> option Z) (types : list sty) (args : list val) (s : list nat),
    Forall2 conforms args types ->
    Exists (fun t => type_shape t <> []) types ->
    Forall2 (fun v t => type_shape t <> [] -> np_shape v = s) args types ->
    match elementwise_impl f types args with
    | Ok out => np_shape out = s /\
        forall idx, in_shape s idx = true ->
          f (elems_at types args idx) = Some ((unwrap out).(get) idx)
    | Err e => e = EFn
    end.
Proof.
  intros f types args s C X S. destruct (elementwise_impl f types args) as [out|e] eqn:R.
  - eapply elementwise_pointwise; eauto.
  - eapply elementwise_errors; eauto.
Qed.
Print Assumptions C74_pointwise.

(** statically shaped arguments accepted by the tracer always meet the hypothesis *)
Theorem C74_static :
  forall (f : list Z -> option Z) (types : list sty) (args : list val) (e : ety) (t : sty),
    Forall2 conforms args types -> Forall static_type types ->
    elementwise_ae types e = Some t ->
    match elementwise_impl f types args with
    | Ok out => map Z.of_nat (np_shape out) = type_shape t /\
        forall idx, in_shape (np_shape out) idx = true ->
          f (elems_at types args idx) = Some ((unwrap out).(get) idx)
    | Err e => e = EFn
    end.
Proof.
  intros f types args e t C S T.
  destruct (static_same_shape _ _ _ _ C S T) as (s & F).
  destruct (elementwise_impl f types args) as [out|er] eqn:R; [|eapply elementwise_errors; eauto].
  assert (St : static_type t).
  { apply (op_static types (OElem (seq 0 (length types)) f e)); auto. simpl.
    assert (P : forall (pre l : list sty), pick (pre ++ l) (seq (length pre) (length l)) = Some l).
    { clear. intros pre l. revert pre. induction l as [|a l IH]; intros pre; simpl; auto.
      rewrite nth_error_app2, Nat.sub_diag by lia. simpl.
      specialize (IH (pre ++ [a])). rewrite app_length, <- app_assoc in IH. simpl in IH.
      rewrite Nat.add_1_r in IH. rewrite IH. reflexivity. }
    specialize (P [] types). simpl in P. rewrite P. exact T. }
  split.
  - pose proof (elementwise_sound _ _ _ _ _ _ C T R) as D. unfold conforms in D.
    symmetry. apply conf_static_eq; auto.
  - destruct (Exists_dec (fun t => type_shape t <> []) types) as [X|X].
    { intros u. destruct (type_shape u); [right; congruence | left; discriminate]. }
    + destruct (elementwise_pointwise _ _ _ _ _ C X F R) as [-> H]. exact H.
    + assert (A : Forall (fun t => type_shape t = []) types).
      { rewrite Forall_forall. intros u Hu. destruct (type_shape u) eqn:Q; auto.
        exfalso. apply X. apply Exists_exists. exists u. split; auto. rewrite Q. discriminate. }
      destruct (elementwise_scalar _ _ _ _ C A R) as [E H]. rewrite E. intros idx Hi.
      destruct idx; [exact H|discriminate].
Qed.
Print Assumptions C74_static.

Definition add2 (l : list Z) : option Z := match l with [a; b] => Some (a + b) | _ => None end.

Example C74_example :
  elementwise_ae [STens f64 [2]; SScal f64] f64 = Some (STens f64 [2]) /\
  match elementwise_impl add2 [STens f64 [2]; SScal f64] [iota [2]%nat; VScal 40] with
  | Ok v => flat v = [40; 41] | Err _ => False end.
Proof. split; reflexivity. Qed.

(** REFUTED for dynamic shapes: two tensors of static type Tensor[f64, (-1,)] whose
    run-time lengths differ are accepted, and if the first is the shorter one the
    result is silently truncated to it. *)
Theorem C129_dynamic_shapes_refuted :
  forall (n m : nat) (a b : list nat -> Z), (0 < n < m)%nat ->
  let t := STens f64 [-1] in
  let x := VArr {| sh := [n]; get := a |} in
  let y := VArr {| sh := [m]; get := b |} in
    Forall2 conforms [x; y] [t; t] /\
    elementwise_ae [t; t] f64 = Some t /\
    exists out, elementwise_impl add2 [t; t] [x; y] = Ok out /\ np_shape out = [n].
Proof.
  intros n m a b H t x y. split; [repeat constructor; left; reflexivity|]. split; [reflexivity|].
  unfold elementwise_impl. simpl elem_shape. cbv iota.
  assert (L : forall is, (forall i, In i is -> in_shape [n] i = true) ->
    exists l, elem_loop add2 [t; t] [x; y] is = Ok l).
  { induction is as [|i is IH]; intros K; simpl; eauto.
    pose proof (K i (or_introl eq_refl)) as Ki. simpl in Ki.
    destruct i as [|k i]; [discriminate|]. destruct i; [|destruct (k <? n)%nat; discriminate].
    rewrite andb_true_r in Ki.
    assert (Km : (k <? m)%nat = true) by (apply Nat.ltb_lt; apply Nat.ltb_lt in Ki; lia).
    rewrite Ki, Km. simpl.
    destruct (IH (fun j Hj => K j (or_intror Hj))) as (l & ->). eauto. }
  destruct (L (all_idx [n])) as (l & ->); [intros; apply all_idx_in; auto|]. simpl. eauto.
Qed.
Print Assumptions C129_dynamic_shapes_refuted.

Example C74_dynamic_example :
  match elementwise_impl add2 [STens f64 [-1]; STens f64 [-1]] [iota [2]%nat; iota [5]%nat] with
  | Ok v => (np_shape v, flat v) = ([2]%nat, [0; 2]) | Err _ => False end.
Proof. reflexivity. Qed.
