(** Model of the histograms of all nodes and features in libs/ml/sgb.py: 291-443
    (_compute_histogram_chunk_batch with its incremental packing), 446-519 (unpacking after
    decryption), 576-655 and 658-727, for the gradients (the hessians go the same way), on top of the
    one-feature histogram of SGBModel.

    Simplified as in SGBModel: quantised (integer) gradients, no scaling and no cumulative sum after
    decryption; the gradients are encrypted again for every node and feature (encryption is
    deterministic here, so the ciphertexts are the same). *)
From Coq Require Import List ZArith Bool Arith.
From Verif Require Import MPCBase BFVModel BFVSpec SGBModel.
Import ListNotations.
Local Open Scope nat_scope.

Section Pack.
Variables (R : nat) (t : Z).
Notation slot_count := (2 * R) (only parsing).

(** 382-421: the bucket totals of one node and feature, at the first slot of each region *)
Definition feature_total (g : list Z) (node : list bool) (bins : list nat) (n_buckets : nat) (key : nat) : option cipher :=
  let stride := slot_count / n_buckets in
  let m := length g in
  let n_chunks := (m + slot_count - 1) / slot_count in
  let samples_per_chunk := (m + n_chunks - 1) / n_chunks in
  let max_samples := Nat.min stride (Nat.max (samples_per_chunk / n_buckets * 2) 64) in
  let pk := PublicCtx key in let sk := SecretCtx key in
  do g_cts <- encrypt_g R t g n_chunks pk;
  do masked <- mapM (fun c => mul_encoded R t (nth c g_cts (Cipher None pk))
                                (packed_mask R (chunk R false node c) (chunk R 0 bins c) stride)) (seq 0 n_chunks);
  match masked with
  | [] => None
  | c0 :: rest =>
      do acc <- tree_sum R t c0 rest;
      batch_bucket_aggregate R t acc n_buckets max_samples (make_galois_keys sk) slot_count
  end.
(** 341-346 *)
Definition slot_mask (n_buckets stride : nat) : list Z :=
  tab slot_count (fun p => if existsb (fun b => p =? b * stride) (seq 0 n_buckets) then 1%Z else 0%Z).
(** 423-443: feature number i of a batch is moved i slots to the right; then everything is added *)
Definition pack (aggs : list cipher) (n_buckets stride key : nat) : option cipher :=
  do rotated <- mapM (fun ia => do masked <- mul_plain R t (snd ia) (slot_mask n_buckets stride);
                                rotate R masked (- Z.of_nat (fst ia)) (make_galois_keys (SecretCtx key)))
                     (combine (seq 0 (length aggs)) aggs);
  match rotated with [] => None | c0 :: rest => tree_sum R t c0 rest end.
(** 373-376: batches of [stride] features *)
Definition batches {A : Type} (stride : nat) (features : list A) : list (list A) :=
  map (fun s => firstn stride (skipn (s * stride) features)) (seq 0 ((length features + stride - 1) / stride)).
Definition packs (g : list Z) (nodes : list (list bool)) (features : list (list nat)) (n_buckets key : nat) : option (list cipher) :=
  let stride := slot_count / n_buckets in
  mapM (fun x => do aggs <- mapM (fun bins => feature_total g (fst x) bins n_buckets key) (snd x);
                 pack aggs n_buckets stride key) (list_prod nodes (batches stride features)).
(** 504-505: what the active party gets to see *)
Definition decrypted (g : list Z) (nodes : list (list bool)) (features : list (list nat)) (n_buckets key : nat) : option (list (list Z)) :=
  do cts <- packs g nodes features n_buckets key;
  mapM (fun c => do slots <- decrypt c (SecretCtx key); Some (decode t slots)) cts.
(** 446-476 *)
Definition unpack (vecs : list (list Z)) (n_nodes n_features n_buckets stride : nat) : list (list (list Z)) :=
  let cts_per_node := (n_features + stride - 1) / stride in
  map (fun node_i => map (fun feat_i =>
      let ct_idx := node_i * cts_per_node + feat_i / stride in
      let offset := feat_i mod stride in
      map (fun b => nth (b * stride + offset) (nth ct_idx vecs []) 0%Z) (seq 0 n_buckets)) (seq 0 n_features)) (seq 0 n_nodes).
(** per node and feature, as decrypt_histogram_results has them before scaling *)
Definition histograms (g : list Z) (nodes : list (list bool)) (features : list (list nat)) (n_buckets key : nat) : option (list (list (list Z))) :=
  do vecs <- decrypted g nodes features n_buckets key;
  Some (unpack vecs (length nodes) (length features) n_buckets (slot_count / n_buckets)).
End Pack.
