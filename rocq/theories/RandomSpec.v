(** What a uniform distribution is: counting the outcomes of os.urandom. *)
From Coq Require Import NArith ZArith List Arith Bool.
Import ListNotations.

(** all byte strings of length k *)
Definition all_bytes : list N := map N.of_nat (seq 0 256).
Fixpoint all_strings (k : nat) : list (list N) :=
  match k with O => [[]] | S k' => flat_map (fun b => map (cons b) (all_strings k')) all_bytes end.

(** os.urandom when it is asked once, for k bytes, and returns s *)
Definition once (k : nat) (s : list N) : nat -> list N := fun n => if Nat.eqb n k then s else [].
(** the number of k-byte strings for which f gives v *)
Definition ways {A : Type} (dec : forall x y : A, {x = y} + {x <> y}) (k : nat) (f : (nat -> list N) -> A) (v : A) : N :=
  N.of_nat (length (filter (fun s => if dec (f (once k s)) v then true else false) (all_strings k))).

Definition list_N_dec : forall x y : list N, {x = y} + {x <> y} := list_eq_dec N.eq_dec.
Definition list_Z_dec : forall x y : list Z, {x = y} + {x <> y} := list_eq_dec Z.eq_dec.
