(** Reference notions for the BFV analytics theorems: plain sums, nothing about ciphertexts. *)
From Coq Require Import List ZArith Arith.
Import ListNotations.

(** f(0) + ... + f(n-1) *)
Fixpoint zsum (n : nat) (f : nat -> Z) : Z := match n with O => 0%Z | S m => (zsum m f + f m)%Z end.

(** the plaintext answer of a group-by sum: the data entries whose bin is g *)
Fixpoint group_sum (data bins : list Z) (g : Z) : Z :=
  match data, bins with
  | d :: data', b :: bins' => ((if (b =? g)%Z then d else 0) + group_sum data' bins' g)%Z
  | _, _ => 0%Z
  end.

(** the representative of v modulo t closest to zero *)
Definition is_centred (t v c : Z) : Prop := (c mod t = v mod t /\ - (t - 1) / 2 <= c <= t / 2)%Z.

(** every entry is a signed representative modulo t, so that it survives encryption *)
Definition fits (t : Z) (l : list Z) : Prop := forall v : Z, In v l -> (2 * Z.abs v <= t)%Z.

(** the answers asked of a sparse aggregation: slot p is the sum, over the requested pairs
    (p, src), of slot src *)
Definition pairs (aggs : list (nat * list nat)) : list (nat * nat) :=
  flat_map (fun ts => map (fun src => (fst ts, src)) (snd ts)) aggs.
Definition wanted (aggs : list (nat * list nat)) (slots : list Z) (p : nat) : Z :=
  fold_right (fun ts acc => ((if Nat.eqb (fst ts) p then nth (snd ts) slots 0 else 0) + acc)%Z) 0%Z (pairs aggs).

(** the sum of bucket b when the slots are cut into regions of [stride] slots and only the first
    [samples] slots of a region belong to the bucket *)
Definition bucket_sum (slots : list Z) (stride samples b : nat) : Z := zsum samples (fun m => nth (b * stride + m) slots 0%Z).
