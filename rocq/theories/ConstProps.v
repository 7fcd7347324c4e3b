(** C75: tensor.constant delivers the array it was given. *)
From Coq Require Import Arith NArith ZArith Ascii String List Bool Lia.
From Verif Require Import Base64Model ConstModel ConstProofs.
Import ListNotations.
Open Scope string_scope.

(** An array a user can hand over: components that fit the component width of its
    dtype and fill its shape ([wf_arr]). [std a]: its dtype is one of the fourteen
    names of the table, in native byte order, and no dimension is zero. *)
Definition std (a : nparr) : Prop :=
  In a.(adt).(dname)
     ["int8"; "int16"; "int32"; "int64"; "uint8"; "uint16"; "uint32"; "uint64";
      "float16"; "float32"; "float64"; "complex64"; "complex128"; "bool"] /\
  a.(adt).(dswap) = false /\ Forall (fun n => n <> 0) a.(ashape).

Lemma std_good : forall a, wf_arr a -> std a -> good a.
Proof.
  intros a W (I & S & Z). repeat split; auto.
  simpl in I. repeat (destruct I as [<-|I]; [eexists; reflexivity|]). destruct I.
Qed.

(** For every sequence of requests made in one tracer, tensor.constant accepts them
    all, and afterwards the i-th returned object evaluates to exactly the i-th array
    (dtype, shape, every bit of every component); two requests return the same object
    exactly when the arrays are the same. *)
Theorem C75_constants_delivered : forall l : list nparr,
  Forall wf_arr l -> Forall std l ->
  exists t os, constants new_tracer l = Some (t, os) /\
    Forall2 (fun a o => value_of t o = Some a) l os /\
    (forall i j a b o p, nth_error l i = Some a -> nth_error l j = Some b ->
       nth_error os i = Some o -> nth_error os j = Some p -> (o = p <-> a = b)).
Proof.
  intros l W S.
  assert (G : Forall good l).
  { rewrite Forall_forall in *. intros a Ha. apply std_good; auto. }
  destruct (constants_inv l new_tracer [] inv_new G) as (t & os & C & Len & h & (I1 & I2) & H & _).
  exists t, os. split; auto.
  assert (P : forall i a o, nth_error l i = Some a -> nth_error os i = Some o -> In (a, o) h).
  { intros i a o Ha Ho. apply H. clear -Ha Ho. revert l os Ha Ho. induction i; intros [|x l] [|y os] Ha Ho;
      simpl in *; try discriminate.
    - inversion Ha; inversion Ho; auto.
    - right. eapply IHi; eauto. }
  split.
  - assert (Q : forall a o, In (a, o) (combine l os) -> value_of t o = Some a).
    { intros a o Hi. apply H in Hi. apply I2 in Hi. tauto. }
    clear -Len Q. revert os Len Q. induction l; intros [|o os] Len Q; simpl in *; try discriminate; constructor; auto.
  - intros i j a b o p Ha Hb Ho Hp. pose proof (P _ _ _ Ha Ho) as A. pose proof (P _ _ _ Hb Hp) as B.
    destruct (I2 _ _ A) as (_ & Va & ba & Ta & Ca). destruct (I2 _ _ B) as (_ & Vb & bb & Tb & Cb).
    split; intros ->; [congruence|]. rewrite Ta in Tb. inversion Tb; subst. congruence.
Qed.
Print Assumptions C75_constants_delivered.

Definition i32 : dtype := {| dname := "int32"; dswap := false |}.
Definition arr_a : nparr := {| adt := i32; ashape := [2]; acomp := [1; 4294967295]%N |}.
Definition arr_b : nparr := {| adt := {| dname := "float64"; dswap := false |}; ashape := []; acomp := [4614256656552045848]%N |}.

Example C75_example :
  Forall wf_arr [arr_a; arr_b; arr_a] /\ Forall std [arr_a; arr_b; arr_a] /\
  match constants new_tracer [arr_a; arr_b; arr_a] with
  | Some (t, os) => os = [0; 1; 0] /\ value_of t 1 = Some arr_b
  | None => False
  end.
Proof.
  split; [|split].
  - repeat (apply Forall_cons; [do 2 eexists; split; [reflexivity|]; split; [reflexivity|]; repeat constructor|]).
    constructor.
  - repeat (apply Forall_cons; [split; [simpl; tauto|]; split; [reflexivity|]; repeat constructor; discriminate|]).
    constructor.
  - vm_compute. split; reflexivity.
Qed.

(** What is missing from the full claim, each with its exact effect. *)

(** REFUTED for arrays whose dtype has the swapped byte order ('>i4', '>f8', ...: what
    np.frombuffer of network data, struct-packed or FITS/HDF data yields): the call
    succeeds, and every component is delivered with its bytes reversed. *)
Theorem C154_byte_order_refuted : forall a : nparr,
  wf_arr a -> a.(adt).(dswap) = true ->
  std {| adt := {| dname := a.(adt).(dname); dswap := false |}; ashape := a.(ashape); acomp := a.(acomp) |} ->
  exists op w k, layout a.(adt).(dname) = Some (w, k) /\
    constant_trace a = Some op /\
    constant_impl op =
      Some {| adt := {| dname := a.(adt).(dname); dswap := false |}; ashape := a.(ashape);
              acomp := map (fun x => of_le (rev (le w x))) a.(acomp) |}.
Proof.
  intros a W Sw S.
  set (a' := {| adt := {| dname := dname (adt a); dswap := false |}; ashape := ashape a; acomp := acomp a |}) in *.
  assert (W' : wf_arr a') by (destruct W as (w & k & ?); exists w, k; auto).
  destruct (std_good a' W' S) as (_ & (s & K) & _ & Z). simpl in K, Z.
  destruct (delivered a (dname (adt a)) s) as (op & w & k & L & T & I); auto.
  { unfold from_dtype. rewrite K. reflexivity. }
  { apply find_table; auto. }
  exists op, w, k. split; auto. split; auto. rewrite I, Sw. reflexivity.
Qed.
Print Assumptions C154_byte_order_refuted.

(** np.array([1], dtype='>i4') arrives as int32 [16777216]. *)
Example C75_byte_order_example :
  match constant_trace {| adt := {| dname := "int32"; dswap := true |}; ashape := [1]; acomp := [1]%N |} with
  | Some op => constant_impl op = Some {| adt := i32; ashape := [1]; acomp := [16777216]%N |}
  | None => False
  end.
Proof. vm_compute. reflexivity. Qed.

(** REFUTED for bfloat16 (a JAX dtype, recognised by the substring "float16"): the call
    succeeds and the array is delivered with the same bits read as float16. *)
Theorem C154_bfloat16_refuted : forall a : nparr,
  wf_arr a -> a.(adt) = {| dname := "bfloat16"; dswap := false |} ->
  Forall (fun n => n <> 0) a.(ashape) ->
  exists op, constant_trace a = Some op /\
    constant_impl op =
      Some {| adt := {| dname := "float16"; dswap := false |}; ashape := a.(ashape); acomp := a.(acomp) |}.
Proof.
  intros a W D Z.
  destruct (delivered a "float16" (Flt 16)) as (op & w & k & L & T & I); auto; try (rewrite D; reflexivity).
  exists op. split; auto. rewrite I. f_equal. f_equal.
  destruct W as (w' & k' & L' & N & F). rewrite L in L'. inversion L'; subst w' k'.
  rewrite <- (map_id (acomp a)) at 2. apply map_ext_in. intros x Hx. unfold comp_bytes. rewrite D.
  cbn [dswap]. rewrite Forall_forall in F. apply of_le_le; auto.
Qed.
Print Assumptions C154_bfloat16_refuted.

(** the bfloat16 number 1.0 is the bit pattern 0x3F80, which is 1.875 in float16 *)
Example C75_bfloat16_example :
  let a := {| adt := {| dname := "bfloat16"; dswap := false |}; ashape := [1]; acomp := [16256]%N |} in
  wf_arr a /\
  match constant_trace a with
  | Some op => option_map (fun r => r.(adt).(dname)) (constant_impl op) = Some "float16"
  | None => False
  end.
Proof.
  split; [|vm_compute; reflexivity].
  do 2 eexists; split; [reflexivity|]; split; [reflexivity|]; repeat constructor.
Qed.

(** REFUTED for empty arrays: an array with a zero dimension is rejected. *)
Theorem C154_empty_refuted : forall (a : nparr) (t : tracer),
  t.(cache) = [] -> In 0 a.(ashape) -> constant t a = None.
Proof.
  intros a t C Z. unfold constant. destruct (tobytes a) eqn:B; auto. rewrite C. cbn [cache_find].
  unfold cache_find. simpl. unfold constant_trace. rewrite B. destruct (from_dtype (adt a)); auto.
  replace (forallb (fun n => negb (Nat.eqb n 0)) (ashape a)) with false; auto.
  symmetry. apply not_true_iff_false. intros H. rewrite forallb_forall in H. specialize (H 0 Z). discriminate.
Qed.
Print Assumptions C154_empty_refuted.

Example C75_empty_example :
  let a := {| adt := i32; ashape := [0; 3]; acomp := [] |} in
  wf_arr a /\ constant new_tracer a = None.
Proof. split; [|reflexivity]. do 2 eexists; split; [reflexivity|]; split; [reflexivity|]; constructor. Qed.
