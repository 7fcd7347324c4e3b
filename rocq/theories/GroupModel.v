(** Model of libs/mpc/analytics/groupby.py: oblivious_groupby_sum_shuffle, with int64 tensors as
    lists of integers in [-2^63, 2^63). *)
From Coq Require Import List NArith ZArith Bool Arith.
From Verif Require Import MPCBase OTModel PermModel BFVSpec.
Import ListNotations.
Local Open Scope nat_scope.

(** int64 arithmetic wraps *)
Definition wrap (z : Z) : Z := ((z + 2 ^ 63) mod 2 ^ 64 - 2 ^ 63)%Z.

(** groupby.py:259-264 jnp.argsort(x, stable=True): insertion of the indices in order, each
    after the ones with an equal key *)
Fixpoint insert_sorted (key : nat -> Z) (i : nat) (l : list nat) : list nat :=
  match l with
  | [] => [i]
  | j :: rest => if (key i <? key j)%Z then i :: l else j :: insert_sorted key i rest
  end.
Definition argsort (b : list Z) : list nat :=
  fold_left (fun acc i => insert_sorted (fun j => nth j b 0%Z) i acc) (seq 0 (length b)) [].

(** jax.ops.segment_sum(data, segment_ids, num_segments=K), ids in [0,K) *)
Definition segment_sum (vals ids : list Z) (K : nat) : list Z :=
  map (fun g => wrap (group_sum vals ids (Z.of_nat g))) (seq 0 K).

Definition zip_with (f : Z -> Z -> Z) (a b : list Z) : list Z := map (fun p => f (fst p) (snd p)) (combine a b).

(** groupby.py:270-289 split_shares_fn; [mask] is crypto.random_bytes viewed as int64 *)
Definition split_shares (data mask : list Z) : list Z * list Z :=
  (zip_with (fun d m => wrap (d - m)) data mask, mask).

Section Shuffle.
Variables (X : cenv) (CT : Type) (enc : list N -> list N -> Z -> CT) (dec : list N -> CT -> option Z).

(** what the receiver and the helper get to see, and the receiver's result *)
Record groupby_run : Type := Run {
  receiver_sees : list Z * list Z;      (* s0 (permuted d0, through the transfers), agg1 *)
  helper_sees : list Z * list Z;        (* d1, bins *)
  result : list Z
}.
(** 227-331 *)
Definition groupby_shuffle (R : switch_rand) (mask data bins : list Z) (K : nat) : option groupby_run :=
  let perm := argsort bins in                                     (* receiver *)
  let '(d0, d1) := split_shares data mask in                      (* sender *)
  match apply_permutation X Z CT enc dec 0%Z R d0 perm with      (* sender -> receiver *)
  | None => None
  | Some s0 =>
      let agg0 := segment_sum s0 (map (fun i => nth i bins 0%Z) perm) K in   (* receiver *)
      let agg1 := segment_sum d1 bins K in                                   (* helper, got d1 and bins *)
      Some (Run (s0, agg1) (d1, bins) (zip_with (fun a b => wrap (a + b)) agg0 agg1))
  end.
End Shuffle.
