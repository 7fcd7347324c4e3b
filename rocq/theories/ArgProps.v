(** C199: arguments reach functions and operations with the value they were given;
    C200: the order of a dict is lost on the way. *)
From Coq Require Import String List ZArith Bool Arith Lia Sorting.Permutation.
From Verif Require Import MorphModel MorphProofs SimpModel TabConvModel ArgModel ArgSpec ArgProofs.
Import ListNotations.
Local Open Scope nat_scope.
Local Open Scope list_scope.

(** ** C199 *)

(** Whatever the positional and keyword arguments, the function is called with as many positional
    ones, in the same order, each equal to the one given (Python's ==) with every leaf lifted, and
    with the same keyword arguments. *)
Theorem C199_arguments :
  forall (A B : Type) (lift : A -> B) args kwargs,
  exists args' kwargs', deliver lift args kwargs = Some (args', kwargs') /\
    Forall2 (fun t t' => pyeq (tmap lift t) t') args args' /\
    Permutation (map fst kwargs) (map fst kwargs') /\
    pyeq (TDict (map (fun p => (fst p, tmap lift (snd p))) kwargs)) (TDict kwargs').
Proof.
  intros A B lift args kwargs. rewrite deliver_eq. eexists _, _. split; [reflexivity|]. repeat split.
  - induction args; cbn; constructor; auto. apply canon_pyeq.
  - rewrite <- (fst_map (fun t => canon (tmap lift t)) kwargs). apply Permutation_map. apply sort_perm.
  - change (TDict (sort_keys (map (fun p => (fst p, canon (tmap lift (snd p)))) kwargs)))
      with (TDict (sort_keys (map (fun p => (fst p, (fun t => canon (tmap lift t)) (snd p))) kwargs))).
    assert (E : TDict (sort_keys (map (fun p => (fst p, canon (tmap lift (snd p)))) kwargs)) = canon (TDict (map (fun p => (fst p, tmap lift (snd p))) kwargs))).
    { cbn. now rewrite map_map. }
    cbn beta. rewrite E. apply canon_pyeq.
Qed.
Print Assumptions C199_arguments.

(** An argument arrives exactly as given, order included, exactly when all dicts in it have their
    keys in ascending order; and what arrives always has. *)
Theorem C199_order_kept :
  forall (A : Type) (t : tree A) t', deliver (fun x => x) [t] [] = Some ([t'], []) -> in_order t' /\ (t' = t <-> in_order t).
Proof.
  intros A t t' E. rewrite deliver_eq in E. cbn in E. injection E as <-. rewrite tmap_id. split; [apply canon_in_order|]. split.
  - intros <-. apply canon_in_order.
  - apply canon_id.
Qed.
Print Assumptions C199_order_kept.
Example C199_order_ex :
  deliver S [TDict [("b", Leaf 1); ("a", TList [Leaf 2; TNone])]]%string [("y", Leaf 3); ("x", TTuple [Leaf 4])]%string
  = Some ([TDict [("a", TList [Leaf 3; TNone]); ("b", Leaf 2)]]%string, [("x", TTuple [Leaf 5]); ("y", Leaf 4)]%string).
Proof. reflexivity. Qed.

(** simp.constant: numbers, booleans, arrays, lists and tuples become tensors; dicts and data frames
    become tables; strings, None and other objects are refused.  The value lives at the parties
    named and the operation gets data equal to those given. *)
Theorem C199_constant :
  forall ps data,
    match simp_constant ps data with
    | Some (p, m) =>
        p = norm ps /\
        match m with
        | TensorConstant d => pyeq data d /\ ((exists v, data = Leaf (HScalar v) /\ isstr v = false /\ isnone v = false) \/
                                              (exists c, data = Leaf (HArray c)) \/ (exists l, data = TList l \/ data = TTuple l))
        | TableConstant d => pyeq data d /\ ((exists l, data = TDict l) \/ (exists c, data = Leaf (HFrame c)))
        end
    | None => data = TNone \/ data = Leaf HOther \/ (exists s, data = Leaf (HScalar (PStr s))) \/ data = Leaf (HScalar PNone)
    end.
Proof.
  intros ps data. unfold simp_constant. destruct data as [[v|c|c|]| |l|l|l]; try destruct v;
    rewrite ?call_const_eq; cbn -[canon]; repeat match goal with |- _ /\ _ => split end; auto; try apply canon_pyeq; eauto 8.
Qed.
Print Assumptions C199_constant.

(** put on a device that holds plaintext at one party makes the constant at that party, on an SPU
    the value goes through an identity function; unknown devices, other kinds, PPUs and TEEs without
    exactly one member and data simp.constant refuses are refused. *)
Theorem C199_put :
  forall devices dev data,
    let device := find (fun d => String.eqb (fst d) dev) devices in
    match put devices dev data with
    | Some (OnParty ps m) => exists kind r, device = Some (dev, (kind, [r])) /\ (kind = "PPU" \/ kind = "TEE")%string /\
                               ps = [r] /\ simp_constant [r] data = Some ([r], m)
    | Some (OnSPU d) => d = data /\ exists ms, device = Some (dev, ("SPU"%string, ms))
    | None => device = None \/
              exists kind ms, device = Some (dev, (kind, ms)) /\
                (~ In kind ["PPU"; "TEE"; "SPU"]%string \/ (kind <> "SPU"%string /\ (List.length ms <> 1 \/ forall ps, simp_constant ps data = None)))
    end.
Proof.
  intros devices dev data. cbv zeta. unfold put. destruct (find _ devices) as [[d [kind ms]]|] eqn:E; [|now left].
  assert (Hd : d = dev) by (apply find_some in E as [_ E]; now apply String.eqb_eq in E). subst d. clear E.
  destruct (String.eqb kind "PPU" || String.eqb kind "TEE")%bool eqn:K.
  - assert (K' : kind = "PPU"%string \/ kind = "TEE"%string) by (apply orb_true_iff in K as [K|K]; apply String.eqb_eq in K; auto).
    assert (Ks : kind <> "SPU"%string) by (destruct K' as [-> | ->]; discriminate).
    destruct ms as [|r [|r2 ms]].
    + right. eexists _, _. split; [reflexivity|]. right. split; [exact Ks|]. left. cbn. lia.
    + destruct (simp_constant [r] data) as [[ps m]|] eqn:C.
      * assert (P : ps = [r]) by (unfold simp_constant in C; destruct (match data with Leaf _ => _ | _ => _ end); [|discriminate]; cbn [option_map] in C; rewrite norm_one in C; congruence).
        subst ps. eexists _, _. repeat split; eauto.
      * right. eexists _, _. split; [reflexivity|]. right. split; [exact Ks|]. right. intros ps. unfold simp_constant in *.
        destruct (match data with Leaf _ => _ | _ => _ end); [discriminate|reflexivity].
    + right. eexists _, _. split; [reflexivity|]. right. split; [exact Ks|]. left. cbn. lia.
  - apply orb_false_iff in K as [K1 K2]. apply String.eqb_neq in K1, K2.
    destruct (String.eqb_spec kind "SPU") as [->|K3]; [split; eauto|].
    right. eexists _, _. split; [reflexivity|]. left. cbn. intuition.
Qed.
Print Assumptions C199_put.
Example C199_put_ex :
  let devs := [("P0", ("PPU", [4])); ("S", ("SPU", [0; 1])); ("T", ("TEE", [2; 3])); ("X", ("GPU", [1]))]%string in
  put devs "P0" (TList [Leaf (HScalar (PInt 1)); Leaf (HScalar (PInt 2))]) = Some (OnParty [4] (TensorConstant (TList [Leaf (HScalar (PInt 1)); Leaf (HScalar (PInt 2))]))) /\
  put devs "S" TNone = Some (OnSPU TNone) /\ put devs "T" (Leaf (HScalar (PInt 1))) = None /\ put devs "X" (Leaf (HScalar (PInt 1))) = None /\
  put devs "Y" (Leaf (HScalar (PInt 1))) = None /\ put devs "P0" (Leaf (HScalar (PStr "a"))) = None.
Proof. vm_compute. auto 10. Qed.

(** A dict of columns put through simp.constant: it becomes a table exactly when every list has an
    Arrow type, and then every name denotes the column given under it, with its static type, and
    there are no other columns. *)
Theorem C199_columns :
  forall ps cols, NoDup (map fst cols) ->
    ((exists r, put_table ps cols = Some r) <-> Forall (fun p => exists t, arrow_type (snd p) = AType t) cols) /\
    forall p ty t, put_table ps cols = Some (p, (ty, t)) ->
      p = norm ps /\ Permutation (map fst cols) (map col_name t) /\ map fst (tt_schema ty) = map col_name t /\
      forall n, column_named n t = option_map (map cell_of) (given n cols) /\ type_named n ty = option_map pandas_type (given n cols).
Proof.
  intros ps cols ND. rewrite put_table_eq. split.
  - assert (P := sort_perm cols). split.
    + intros [r E]. eapply Permutation_Forall; [symmetry; exact P|]. apply constant_table_some.
      destruct (constant_table (sort_keys cols)) as [t|]; [eauto|discriminate].
    + intros F. eapply Permutation_Forall in F; [|exact P]. apply constant_table_some in F as [t ->]. cbn. eauto.
  - intros p ty t E. destruct (constant_table (sort_keys cols)) as [t'|] eqn:C; [|discriminate]. injection E as <- <- <-.
    destruct (constant_table_spec _ _ C) as (E1 & _ & _). split; auto. split; [rewrite E1; apply Permutation_map, sort_perm|]. split.
    + rewrite E1. cbn. now rewrite map_map.
    + intros n. rewrite (column_of_table _ _ n C), type_of_schema. unfold given. rewrite (find_perm n cols (sort_keys cols) ND (sort_perm _)). auto.
Qed.
Print Assumptions C199_columns.
Example C199_columns_ex :
  NoDup (map fst [("b", [PInt 1; PInt 2]); ("a", [PStr "x"; PNone])]%string) /\
  exists t, put_table [2; 0; 2] [("b", [PInt 1; PInt 2]); ("a", [PStr "x"; PNone])]%string = Some ([0; 2], t).
Proof. split; [repeat constructor; cbn; intuition congruence|]. eexists. vm_compute. reflexivity. Qed.

(** ** C200 *)

(** The columns of a table made from a dict come in the order of their names, whatever the order in
    the dict ... *)
Theorem C200_always_sorted_partial :
  forall ps cols p ty t, put_table ps cols = Some (p, (ty, t)) -> ascending (map col_name t) /\
    (NoDup (map fst cols) -> ascending (map fst cols) -> map col_name t = map fst cols /\ map col_cells t = map (fun c => map cell_of (snd c)) cols).
Proof.
  intros ps cols p ty t. rewrite put_table_eq. intros E. destruct (constant_table (sort_keys cols)) as [t'|] eqn:C; [|discriminate].
  injection E as <- <- <-. destruct (constant_table_spec _ _ C) as (E1 & E2 & _). split; [rewrite E1; apply sort_asc|].
  intros _ A. rewrite (sort_id _ A) in *. auto.
Qed.
Print Assumptions C200_always_sorted_partial.

(** ... so the claim that they keep the order they were written in is false: of the dict
    {"weight": [1, 2], "age": [3, 4]} the first column is "age", and the tensor made from the table
    has its rows [3, 1] and [4, 2]. *)
Theorem C200_column_order_refuted :
  ~ (forall ps cols p ty t, NoDup (map fst cols) -> put_table ps cols = Some (p, (ty, t)) -> map col_name t = map fst cols) /\
  forall to_float common,
    exists ty t, put_table [0] [("weight", [PInt 1; PInt 2]); ("age", [PInt 3; PInt 4])]%string = Some ([0], (ty, t)) /\
      table2tensor_default ty = Some (MT TI64 None 2) /\
      table2tensor to_float common (MT TI64 None 2) t = Some (Mat (Some TI64) 2 2 [[Val 3; Val 1]; [Val 4; Val 2]]).
Proof.
  split.
  - intros H. specialize (H [0] [("b", [PInt 1]); ("a", [PInt 2])]%string _ _ _ ltac:(repeat constructor; cbn; intuition congruence) eq_refl).
    discriminate.
  - intros tf cm. eexists _, _. split; [reflexivity|]. split; reflexivity.
Qed.
Print Assumptions C200_column_order_refuted.

(** The same happens to the keyword arguments of any function: **kwargs arrives in the order of the
    names. *)
Theorem C200_kwargs_order_refuted :
  ~ (forall (A : Type) (kwargs kwargs' : list (string * tree A)) a, deliver (fun x => x) [] kwargs = Some (a, kwargs') -> map fst kwargs' = map fst kwargs).
Proof. intros H. specialize (H nat [("b", TNone); ("a", TNone)]%string _ _ eq_refl). discriminate. Qed.
Print Assumptions C200_kwargs_order_refuted.
