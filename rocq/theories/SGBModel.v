(** Model of the encrypted histogram of libs/ml/sgb.py (fhe_encrypt_gh, fhe_histogram_optimized,
    decrypt_histogram_results) for one node and one feature, on quantised (integer) gradients;
    the float scaling and the cumulative sum done after decryption are left out. *)
From Coq Require Import List ZArith Bool Arith.
From Verif Require Import MPCBase BFVModel BFVSpec.
Import ListNotations.
Local Open Scope nat_scope.

Section Hist.
Variables (R : nat) (t : Z).
Notation slot_count := (2 * R) (only parsing).

(** bfv_impl.py:565-579 mul_impl with an encoded BFVValue plaintext: zero gives a transparent
    ciphertext; a product with a transparent ciphertext is refused by SEAL *)
Definition mul_encoded (a : cipher) (w : list Z) : option cipher :=
  match encode R t w with
  | None => None
  | Some e =>
      if forallb (Z.eqb 0) e then Some (Cipher None (cctx a))
      else match payload a with
        | Some (k, s) => Some (Cipher (Some (k, slotwise R t Z.mul s e)) (cctx a))
        | None => None
        end
  end.

(** sgb.py:236-256 _build_packed_mask_jit for one chunk: sample j of the node in bucket b is
    given the offset "number of earlier samples of the node in b"; the mask counts the samples
    at slot b * stride + offset (segment_sum drops indices beyond slot_count) *)
Definition in_node (node : list bool) (bins : list nat) (b j : nat) : bool := nth j node false && (nth j bins 0 =? b).
Definition offset (node : list bool) (bins : list nat) (j : nat) : nat :=
  length (filter (in_node node bins (nth j bins 0)) (seq 0 j)).
Definition packed_mask (node : list bool) (bins : list nat) (stride : nat) : list Z :=
  tab slot_count (fun p => Z.of_nat (length (filter
     (fun j => nth j node false && (nth j bins 0 * stride + offset node bins j =? p)) (seq 0 (length node))))).

(** sgb.py:259-288 compute_all_masks: chunk c of a padded sample array *)
Definition chunk {A : Type} (d : A) (l : list A) (c : nat) : list A := tab slot_count (fun p => nth (c * slot_count + p) l d).
(** sgb.py:515-573 fhe_encrypt_gh: slot p of chunk c is sample c*slot_count + p *)
Definition encrypt_g (g : list Z) (n_chunks : nat) (pk : context) : option (list cipher) :=
  mapM (fun c => encrypt R t (chunk 0%Z g c) pk) (seq 0 n_chunks).

(** sgb.py:351-368 tree_sum: pairwise passes over a queue; addition of slots is associative
    and commutative, written here as a left fold *)
Fixpoint tree_sum (acc : cipher) (items : list cipher) : option cipher :=
  match items with [] => Some acc | c :: rest => do acc' <- add R t acc c; tree_sum acc' rest end.

(** sgb.py:291-443 for one node and feature (relative offset i = 0), 576-655 *)
Definition histogram (g : list Z) (node : list bool) (bins : list nat) (n_buckets : nat) (key : nat) : option (list Z) :=
  let stride := slot_count / n_buckets in
  let m := length g in
  let n_chunks := (m + slot_count - 1) / slot_count in
  let samples_per_chunk := (m + n_chunks - 1) / n_chunks in
  let max_samples := Nat.min stride (Nat.max (samples_per_chunk / n_buckets * 2) 64) in
  let pk := PublicCtx key in let sk := SecretCtx key in
  do g_cts <- encrypt_g g n_chunks pk;
  do masked <- mapM (fun c => mul_encoded (nth c g_cts (Cipher None pk))
                                (packed_mask (chunk false node c) (chunk 0 bins c) stride)) (seq 0 n_chunks);
  match masked with
  | [] => None
  | c0 :: rest =>
      do acc <- tree_sum c0 rest;
      do agg <- batch_bucket_aggregate R t acc n_buckets max_samples (make_galois_keys sk) slot_count;
      do packed <- mul_plain R t agg (tab slot_count (fun p => if existsb (fun b => p =? b * stride) (seq 0 n_buckets) then 1%Z else 0%Z));
      do slots <- decrypt packed sk;
      (* 446-490: bucket b of feature 0 is read at slot b*stride *)
      Some (map (fun b => nth (b * stride) (decode t slots) 0%Z) (seq 0 n_buckets))
  end.
End Hist.

(** the plaintext histogram (make_local_build_histogram, sgb.py:160-187): sum of g over the
    node's samples in bucket b *)
Definition plain_histogram (g : list Z) (node : list bool) (bins : list nat) (n_buckets : nat) : list Z :=
  map (fun b => zsum (length g) (fun j => if in_node node bins b j then nth j g 0%Z else 0%Z)) (seq 0 n_buckets).
