(** Specification vocabulary for the LDPC code helpers. *)
From Coq Require Import ZArith NArith List Arith Bool Sorted.
From Verif Require Import SilverCodeModel.
Import ListNotations.

(** randint(low, high, size=k) returns k numbers of [low, high) (numpy manual; high > low) *)
Definition rng_ok (R : rng) : Prop :=
  forall s lo hi k, (lo < hi)%Z ->
  length (fst (randint R s lo hi k)) = k /\ forall z, In z (fst (randint R s lo hi k)) -> (lo <= z < hi)%Z.
(** linspace(a, b, k) returns k numbers *)
Definition linspace_ok (linspace : Z -> Z -> nat -> list Z) : Prop := forall a b k, length (linspace a b k) = k.

(** the columns listed for row i *)
Definition csr_row (H : csr) (i : nat) : list nat :=
  map (fun k => nth k (fst H) 0) (seq (nth i (snd H) 0) (nth (S i) (snd H) 0 - nth i (snd H) 0)).

(** every entry of a list is different from every later one and smaller *)
Definition increasing (l : list nat) : Prop := StronglySorted lt l.

(** the blocks of a message as 64-bit limbs: block = lo + 2^64 * hi, given as a pair *)
Definition lows (message : list limbs) : list N := map fst message.
Definition highs (message : list limbs) : list N := map snd message.

(** a 0/1 matrix as a dense one: entry (i, j) is [one] iff column j is listed in row i *)
Definition densify (one : N) (n : nat) (rows : list (list nat)) : list (list N) :=
  map (fun r => map (fun j => if existsb (Nat.eqb j) r then one else 0%N) (seq 0 n)) rows.

(** the columns of a 0/1 matrix given by its rows *)
Definition columns (n : nat) (rows : list (list nat)) : list (list N) :=
  map (fun j => map (fun r => if existsb (Nat.eqb j) r then 1%N else 0%N) rows) (seq 0 n).

(** the product of a 0/1 matrix and a vector of bits: row by row, the parity of the listed entries *)
Definition syndrome_of (rows : list (list nat)) (e : list N) : list N :=
  map (fun r => N.modulo (fold_right N.add 0%N (map (fun j => nth j e 0%N) r)) 2) rows.

(** number of non-zero entries *)
Definition weight (e : list N) : nat := length (filter (fun x => negb (N.eqb x 0)) e).

(** the vector of length n with a single one at j *)
Definition unit_vector (n j : nat) : list N := map (fun k => if k =? j then 1%N else 0%N) (seq 0 n).

(** a vector of bits *)
Definition bits (l : list N) : Prop := Forall (fun x => x = 0 \/ x = 1)%N l.
