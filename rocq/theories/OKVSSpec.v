(** Independent specification for the oblivious key-value store.

    Every key hashes to a row of three table columns.  A store P (a list of m
    values) represents the pairs (row_i, v_i) when the xor of P at the three
    columns of row_i is v_i. *)
From Coq Require Import NArith List Arith.
Import ListNotations.

Definition row : Type := (nat * nat * nat)%type.

Definition row_in_range (m : nat) (r : row) : Prop :=
  let '(h1, h2, h3) := r in h1 < m /\ h2 < m /\ h3 < m.

(** [store_at P j]: P[j] (the xor identity outside the table; only used in range). *)
Definition store_at (P : list N) (j : nat) : N := nth j P 0%N.
Definition represents (P : list N) (r : row) (v : N) : Prop :=
  let '(h1, h2, h3) := r in
  N.lxor (N.lxor (store_at P h1) (store_at P h2)) (store_at P h3) = v.

(** How often column j occurs in a row, and in the rows selected by mask S. *)
Definition occ (j : nat) (r : row) : nat :=
  let '(h1, h2, h3) := r in
  (if Nat.eqb h1 j then 1 else 0) + (if Nat.eqb h2 j then 1 else 0) + (if Nat.eqb h3 j then 1 else 0).
Fixpoint occ_sel (rows : list row) (S : list bool) (j : nat) : nat :=
  match rows, S with
  | r :: rows', b :: S' => (if b then occ j r else 0) + occ_sel rows' S' j
  | _, _ => 0
  end.

(** A stopping set (2-core): a nonempty set of rows in which no column occurs
    exactly once, so that no peeling order whatsoever can remove a row of it first. *)
Definition stopping_set (rows : list row) (S : list bool) : Prop :=
  length S = length rows /\ In true S /\ forall j, occ_sel rows S j <> 1.
