(** Words used in the statements about table readers. *)
From Coq Require Import List Arith.
Import ListNotations.
Section Spec.
  Context {A : Type}.
  Definition filled (l : list A) : Prop := l <> [].
  (** the groups of batches behind the batches delivered *)
  Definition full_but_last (b : nat) (gs : list (list (list A))) : Prop :=
    forall us g vs, gs = us ++ g :: vs -> length (concat g) <= b /\ (vs <> [] -> length (concat g) = b).
  (** source batches whose sizes are multiples of the batch size *)
  Definition aligned (b : nat) (src : list (list A)) : Prop := forall u x v, src = u ++ x :: v -> v <> [] -> Nat.divide b (length x).
  Definition full_but_last_batch (b : nat) (outs : list (list A)) : Prop :=
    forall us x vs, outs = us ++ x :: vs -> 0 < length x <= b /\ (vs <> [] -> length x = b).
  (** column [i] of a written file: the pieces of the i-th table *)
  Definition pieces (i : nat) (file : list (list (list A))) : list (list A) := map (fun b => nth i b []) file.
End Spec.
(** two chunkings with the same heights *)
Definition same_heights {A} (c1 c2 : list (list A)) : Prop := Forall2 (fun x y => length x = length y) c1 c2.
