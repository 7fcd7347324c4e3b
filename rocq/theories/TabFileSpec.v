(** Specification of table files (C93). *)
From Coq Require Import List Bool Arith.
From Verif Require Import TabFileModel.
Import ListNotations.

(** the content of party p's file of that name *)
Definition party_file (f : fs) (p : nat) (n : name) : option nat :=
  match n with Rel k => read_file f (PStore p k) | Abs k => read_file f (PAbs k) end.

(** before any table operation: ordinary files only, nothing under ".tmp", no file of a used name
    in the working directory *)
Definition fresh (f : fs) : Prop :=
  (forall p q, f p <> Some (Link q)) /\ (forall k, f (PTmp k) = None) /\ (forall k, f (PCwd k) = None).

(** every relative name is used by one party only *)
Definition by_owner (owner : nat -> nat) (o : op) : Prop :=
  match o with
  | Read p (Rel k) | Write p (Rel k) _ => p = owner k
  | _ => True
  end.
Definition writes (n : name) (o : op) : bool :=
  match o, n with
  | Write _ (Rel k) _, Rel j => Nat.eqb k j
  | Write _ (Abs k) _, Abs j => Nat.eqb k j
  | _, _ => false
  end.
