(** Reference notion for packed histograms: slots are two rows of R; bucket b starts at slot b *
    stride.  The first k slots of no bucket reach over the middle, from one row into the other. *)
From Coq Require Import Arith.
Local Open Scope nat_scope.

Definition rows_respected (R n_buckets stride k : nat) : Prop :=
  forall b i, b < n_buckets -> i < k -> (b * stride + i) / R = b * stride / R.
