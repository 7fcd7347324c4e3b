(** Specification of static table types (C207). *)
From Coq Require Import String List ZArith Bool Arith.
From Verif Require Import TabConvModel TabConvSpec TabProgModel.
Import ListNotations.
Local Open Scope nat_scope.

(** A run-time table has a static type: the same columns in the same order, of the same types, of
    equal heights, and the row count if the type has one.  (Arrow has no complex columns.) *)
Definition table_has (ty : table_type) (t : table) : Prop :=
  map (fun c => (col_name c, col_ty c)) t = tt_schema ty /\ table_ok t /\ Forall (fun c => col_ty c <> TC64 /\ col_ty c <> TC128) t /\
  (forall n, tt_rows ty = Some n -> num_rows t = n).
Definition tensor_has (ty : tensor_type) (m : matrix) : Prop :=
  m_ty m = Some (mt_ty ty) /\ matrix_ok m /\ m_cols m = mt_cols ty /\ (forall n, mt_rows ty = Some n -> m_rows m = n).
Definition has (ty : vty) (v : value) : Prop :=
  match ty, v with TableT a, TableV t => table_has a t | TensorT a, TensorV m => tensor_has a m | _, _ => False end.
Definition null_free (v : value) : Prop := match v with TableV t => Forall no_nulls t | _ => True end.

(** [P] of every operation of the program, given the static types of the operations before it *)
Fixpoint each (P : list vty -> top -> Prop) (ts : list vty) (p : list top) : Prop :=
  match p with
  | [] => True
  | o :: r => P ts o /\ forall t, op_type ts o = Some t -> each P (ts ++ [t]) r
  end.

(** What the program's author answers for: the constants are homogeneous columns, tensor constants
    are of their type, a file has its declared schema, a query on tables of the types of its operands
    gives a table of the declared type, and compiled computations are typed rightly by JAX. *)
Definition declared_right (ts : list vty) (o : top) : Prop :=
  match o with
  | Const data => Forall (fun p => homogeneous (snd p)) data
  | TensorConst m d => m_ty m = Some d /\ matrix_ok m
  | ReadFile schema contents => forall t, contents = Some t -> table_has schema t
  | Outside (Sql out f) args => forall tys l t, all (pick as_table_t ts) args = Some tys -> Forall2 table_has tys l -> f l = Some t -> table_has out t
  | Outside (Jax out f) args => forall tys l m, all (pick as_tensor_t ts) args = Some tys -> Forall2 tensor_has tys l -> f l = Some m -> tensor_has out m
  | ToTensor _ _ | ToTable _ _ => True
  | WriteFile _ => False     (* write announces a table and returns None *)
  end.

(** Operations that do not fail by themselves: the file is there, queries and computations succeed
    and give no nulls, constants hold no None, no row count is announced for what is read or
    queried or demanded of a conversion, and only tensors of types that Arrow has become tables. *)
Definition goes_through (ts : list vty) (o : top) : Prop :=
  match o with
  | Const data => Forall (fun p => ~ In PNone (snd p)) data
  | TensorConst _ _ => True
  | ReadFile schema contents => tt_rows schema = None /\ exists t, contents = Some t /\ Forall no_nulls t
  | Outside (Sql out f) args => tt_rows out = None /\
      forall tys l, all (pick as_table_t ts) args = Some tys -> Forall2 table_has tys l -> Forall (Forall no_nulls) l -> exists t, f l = Some t /\ Forall no_nulls t
  | Outside (Jax out f) args => forall tys l, all (pick as_tensor_t ts) args = Some tys -> Forall2 tensor_has tys l -> exists m, f l = Some m
  | ToTensor _ nr => nr = None \/ nr = Some None
  | ToTable x _ => forall a, nth_error ts x = Some (TensorT a) -> plain (mt_ty a)
  | WriteFile _ => False
  end.
