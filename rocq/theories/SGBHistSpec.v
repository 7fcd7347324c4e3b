(** Reference notions for what the encrypted histogram of gradient boosting adds up. *)
From Coq Require Import List ZArith Bool Arith.
From Verif Require Import BFVSpec.
Import ListNotations.
Local Open Scope nat_scope.

(** the number of samples of the node in bucket b among samples lo, ..., lo+len-1 *)
Definition members (node : list bool) (bins : list nat) (b lo len : nat) : nat :=
  length (filter (fun i => nth i node false && (nth i bins 0 =? b)) (seq lo len)).

(** samples are encrypted in blocks of [slots]; of each block, whatever their bucket, the entries of
    region b ([stride] entries) are added from its start, as many as bucket b has members in the block *)
Definition block_starts_sum (g : list Z) (node : list bool) (bins : list nat) (slots blocks stride b : nat) : Z :=
  zsum blocks (fun c => zsum (members node bins b (c * slots) slots) (fun m => nth (c * slots + b * stride + m) g 0%Z)).
