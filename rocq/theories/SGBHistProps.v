(** C65: what the encrypted histogram of gradient boosting adds up. *)
From Coq Require Import List ZArith Bool Arith Lia.
From Verif Require Import MPCBase BFVModel BFVSpec SGBModel SGBHistSpec SGBHistProofs.
Import ListNotations.
Local Open Scope nat_scope.

(** For every batch size, power-of-two bucket count and node: as long as no bucket has more members in
    a block than the aggregation is told to rotate over, entry b of the decrypted histogram is, modulo
    t, the sum over the blocks of the first entries of region b of the block, whichever bucket those
    entries belong to.  Missing for C65: the samples are never moved to their bucket's region, so this
    is the plaintext histogram only for batches laid out that way beforehand (next theorem). *)
Theorem C65_what_is_summed_partial :
  forall (R e j : nat) (t : Z) (g : list Z) (node : list bool) (bins : list nat) (key : nat),
  R = 2 ^ e -> j <= e -> (1 < t)%Z -> fits t g -> length node = length g -> length bins = length g ->
  let n_buckets := 2 ^ S j in let slots := 2 * R in let stride := slots / n_buckets in
  let blocks := (length g + slots - 1) / slots in
  let samples := Nat.min stride (Nat.max ((length g + blocks - 1) / blocks / n_buckets * 2) 64) in
  (forall b : nat, In b bins -> b < n_buckets) -> (exists i : nat, nth_error node i = Some true) ->
  (forall c b : nat, c < blocks -> b < n_buckets -> members node bins b (c * slots) slots <= samples) ->
  exists h : list Z, histogram R t g node bins n_buckets key = Some h /\ length h = n_buckets /\
    forall b : nat, b < n_buckets -> is_centred t (block_starts_sum g node bins slots blocks stride b) (nth b h 0%Z).
Proof. intros. eapply histogram_ok; eassumption. Qed.
Print Assumptions C65_what_is_summed_partial.

(** If moreover in every block the node's members of bucket b are exactly the first entries of region
    b, and the true sums fit the plain modulus, the decrypted histogram is the plaintext one. *)
Theorem C65_arranged_partial :
  forall (R e j : nat) (t : Z) (g : list Z) (node : list bool) (bins : list nat) (key : nat),
  R = 2 ^ e -> j <= e -> (1 < t)%Z -> fits t g -> length node = length g -> length bins = length g ->
  let n_buckets := 2 ^ S j in let slots := 2 * R in let stride := slots / n_buckets in
  let blocks := (length g + slots - 1) / slots in
  let samples := Nat.min stride (Nat.max ((length g + blocks - 1) / blocks / n_buckets * 2) 64) in
  (forall b : nat, In b bins -> b < n_buckets) -> (exists i : nat, nth_error node i = Some true) ->
  (forall c b : nat, c < blocks -> b < n_buckets -> members node bins b (c * slots) slots <= samples) ->
  (forall c b m i : nat, c < blocks -> b < n_buckets -> m < stride -> i = c * slots + b * stride + m ->
     (m < members node bins b (c * slots) slots <-> nth i node false = true) /\ (nth i node false = true -> nth i bins 0 = b)) ->
  (forall b : nat, b < n_buckets -> (2 * Z.abs (nth b (plain_histogram g node bins n_buckets) 0) < t)%Z) ->
  histogram R t g node bins n_buckets key = Some (plain_histogram g node bins n_buckets).
Proof.
  intros R e j t g node bins key HR Hj Ht FT Ln Lb n_buckets slots stride blocks samples Hb Hne Hcap Harr Hfit.
  destruct (C65_what_is_summed_partial R e j t g node bins key HR Hj Ht FT Ln Lb Hb Hne Hcap) as (h & E & Lh & Nh). fold n_buckets in E, Lh, Nh. fold slots in Nh. fold stride in Nh. fold blocks in Nh. rewrite E. f_equal.
  assert (Est : stride = 2 ^ (e - j)) by (unfold stride, slots, n_buckets; rewrite HR, <- Nat.pow_succ_r', <- Nat.pow_sub_r by lia; f_equal).
  assert (Hst : 0 < stride) by (rewrite Est; pose proof (Nat.pow_nonzero 2 (e - j)); lia).
  assert (Hgrid : slots = n_buckets * stride) by (rewrite Est; unfold n_buckets, slots; rewrite HR, <- Nat.pow_add_r, <- Nat.pow_succ_r'; f_equal; lia).
  assert (Hsl : 0 < slots) by (unfold slots; rewrite HR; pose proof (Nat.pow_nonzero 2 e); lia).
  apply nth_ext with (d := 0%Z) (d' := 0%Z); [unfold plain_histogram; rewrite map_length, seq_length; exact Lh|].
  intros b Hb'. rewrite Lh in Hb'. apply (centred_eq t _ _ Ht); [|apply Hfit, Hb'].
  assert (P : nth b (plain_histogram g node bins n_buckets) 0%Z = block_starts_sum g node bins slots blocks stride b).
  { rewrite (arranged_sum g node bins slots blocks n_buckets stride b Hst Hgrid (blocks_cover _ _ Hsl) Ln Hb'); [|intros c b' Hc Hb''; specialize (Hcap c b' Hc Hb''); fold blocks in Hcap; unfold samples in Hcap; lia|exact Harr].
    unfold plain_histogram. set (f := fun b => zsum (length g) (fun j0 => if in_node node bins b j0 then nth j0 g 0%Z else 0%Z)).
    rewrite (nth_indep _ 0%Z (f 0)) by (rewrite map_length, seq_length; exact Hb'). rewrite map_nth, seq_nth by exact Hb'. reflexivity. }
  rewrite P. apply Nh, Hb'.
Qed.
Print Assumptions C65_arranged_partial.

(** four slots per row, two buckets: the first batch has bucket 1 before bucket 0 and gets the wrong
    sums described above, the second is laid out by bucket *)
Example C65_summed_ex : let g := [1; 2; 3; 4; 5; 6; 7; 8]%Z in
  histogram 4 97 g (repeat true 8) [1; 1; 1; 1; 0; 0; 0; 0] 2 0 = Some [10; 26]%Z /\
  plain_histogram g (repeat true 8) [1; 1; 1; 1; 0; 0; 0; 0] 2 = [26; 10]%Z /\
  map (block_starts_sum g (repeat true 8) [1; 1; 1; 1; 0; 0; 0; 0] 8 1 4) [0; 1] = [10; 26]%Z /\
  histogram 4 97 g [true; true; false; false; true; false; false; false] [0; 0; 1; 1; 1; 0; 0; 0] 2 0 = Some [3; 5]%Z /\
  plain_histogram g [true; true; false; false; true; false; false; false] [0; 0; 1; 1; 1; 0; 0; 0] 2 = [3; 5]%Z.
Proof. vm_compute. auto. Qed.
