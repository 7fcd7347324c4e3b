(** Specification of argument passing (C199, C200). *)
From Coq Require Import String List Bool Arith.
From Verif Require Import MorphModel TabConvModel.
Import ListNotations.
Local Open Scope list_scope.

(** ascending, in the order of Python's strings *)
Fixpoint ascending (l : list string) : Prop :=
  match l with
  | a :: ((b :: _) as r) => String.leb a b = true /\ ascending r
  | _ => True
  end.
(** every dict inside has its keys in ascending order *)
Inductive in_order {A} : tree A -> Prop :=
| OLeaf a : in_order (Leaf a)
| ONone : in_order TNone
| OList l : Forall in_order l -> in_order (TList l)
| OTuple l : Forall in_order l -> in_order (TTuple l)
| ODict l : ascending (map fst l) -> Forall (fun p => in_order (snd p)) l -> in_order (TDict l).
(** the cells of the column of that name *)
Definition column_named (n : string) (t : table) : option (list (option cell)) :=
  option_map col_cells (find (fun c => String.eqb (col_name c) n) t).
Definition type_named (n : string) (t : table_type) : option ty :=
  option_map snd (find (fun c => String.eqb (fst c) n) (tt_schema t)).
Definition given (n : string) (cols : list (string * list pyval)) : option (list pyval) :=
  option_map snd (find (fun c => String.eqb (fst c) n) cols).
