(** Specification of a VOLE correlation over GF(2^128). *)
From Coq Require Import List NArith.
From Verif Require Import GF128Spec GF128Model.

(** entry j of a vector of field elements *)
Definition entry (v : list (N * N)) (j : nat) : N * N := nth j v (0, 0)%N.
Definition all_words (v : list (N * N)) : Prop := forall j, word_pair (entry v j).

(** w_j = v_j + u_j * delta where the product is taken in GF(2)[x]/(x^128+x^7+x^2+x+1) *)
Definition vole_correlation (delta vj wj uj : N * N) : Prop :=
  exists p, word_pair p /\ is_product (join uj) (join delta) (join p) /\ wj = xor_pair vj p.

(** the same for 128-bit blocks held as one number *)
Definition vole_correlation128 (delta : N * N) (vj wj uj : N) : Prop :=
  exists p, is_product uj (join delta) p /\ wj = N.lxor vj p.

(** the correlation with the product of the native kernel instead *)
Definition native_correlation (delta vj wj uj : N * N) : Prop :=
  wj = xor_pair vj (field_mul_impl true uj delta).
