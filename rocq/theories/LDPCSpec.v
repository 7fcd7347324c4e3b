(** Specification of a CSR matrix-vector product over xor. *)
From Coq Require Import NArith List Arith.
Import ListNotations.

(** A well-formed CSR matrix with m rows and n columns (row pointers need not be sorted
    or contiguous; every row's range lies inside the index array). *)
Definition csr_ok (indices indptr : list nat) (m n : nat) : Prop :=
  m < length indptr /\
  (forall i, i < m -> nth (S i) indptr 0 <= length indices) /\
  (forall c, In c indices -> c < n).

(** xor of a list of blocks *)
Definition xor_all (l : list N) : N := fold_right N.lxor 0%N l.

(** blocks listed in CSR row i *)
Definition row_blocks (message : list N) (indices indptr : list nat) (i : nat) : list N :=
  map (fun k => nth (nth k indices 0) message 0%N)
      (seq (nth i indptr 0) (nth (S i) indptr 0 - nth i indptr 0)).

Definition xor_vec (x y : list N) : list N := map (fun p => N.lxor (fst p) (snd p)) (combine x y).
