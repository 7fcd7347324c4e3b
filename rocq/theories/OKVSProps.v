(** Property theorems about the oblivious key-value store and LDPC encoding (C03-C06). *)
From Coq Require Import NArith List Arith Lia Bool.
From Verif Require Import OKVSSpec OKVSModel OKVSProofs OKVSHash AESRound OKVSOptModel OKVSOptProofs
  LDPCSpec LDPCModel LDPCProofs.
Import ListNotations.

(** C03: whenever solve returns a store it has m rows and decoding the keys returns
    exactly the values.  Keys may repeat, m may be 0; values has one row per key. *)
Theorem C03_decode_inverts_solve :
  forall seed keys values m store,
    length values = length keys ->
    okvs_solve seed keys values m = Ok store ->
    length store = m /\ okvs_decode seed keys store m = Ok values.
Proof.
  intros seed keys values m store Hl E.
  destruct (Nat.eq_dec m 0) as [->|Hm].
  - destruct keys as [|k ks]; [|discriminate E].
    destruct values; [|discriminate Hl]. cbn in E. injection E as <-. split; reflexivity.
  - destruct (okvs_solve_cases seed keys values m Hl) as [[out [H1 [H2 [H3 _]]]]|[H1 _]]; [lia| |congruence].
    rewrite H1 in E. injection E as <-. split; assumption.
Qed.
Print Assumptions C03_decode_inverts_solve.

(** C03, for an arbitrary assignment of rows to keys: the store represents every pair. *)
Theorem C03_store_represents_every_pair :
  forall (rows : list row) values m store,
    Forall (row_in_range m) rows -> length values = length rows ->
    solve_rows rows values m = Ok store ->
    length store = m /\
    forall i, i < length rows -> represents store (nth i rows (0, 0, 0)) (nth i values 0%N).
Proof.
  intros rows values m store Hr Hl E.
  destruct (solve_rows_cases rows values m Hr Hl) as [[out [H1 [H2 [H3 _]]]]|[H1 _]]; [|congruence].
  rewrite H1 in E. injection E as <-. split; [exact H2|]. intros i Hi. specialize (H3 i Hi).
  unfold decode_row in H3. unfold represents, store_at.
  destruct (nth i rows (0, 0, 0)) as [[a b] c]. exact H3.
Qed.
Print Assumptions C03_store_represents_every_pair.

(** C107, native kernel: on a peelable key set (no stopping set among its rows) the
    decoded values are the encoded ones, whatever the hash. *)
Theorem C107_native_decode_inverts_solve_partial :
  forall aes keys values m,
    length values = length keys -> 0 < m ->
    (forall S, ~ stopping_set (map (hash_key_cpp aes m) keys) S) ->
    length (cpp_solve_okvs aes keys values m) = m /\
    cpp_decode_okvs aes keys (cpp_solve_okvs aes keys values m) m = values.
Proof.
  intros aes keys values m Hl Hm Hns.
  destruct (cpp_cases aes keys values m Hl (fun _ => Hm)) as [[H1 [H2 _]]|[_ [_ [S HS]]]]; [auto|].
  destruct (Hns S HS).
Qed.
Print Assumptions C107_native_decode_inverts_solve_partial.

(** C107 (refuted for the native kernel): without that condition, which the kernel does not check,
    a store of m rows is returned from which the values are not recovered, whatever the hash. *)
Theorem C107_native_decode_inverts_solve_refuted :
  forall aes, exists keys values m, NoDup keys /\ length values = length keys /\ 0 < m /\
    cpp_decode_okvs aes keys (cpp_solve_okvs aes keys values m) m <> values.
Proof.
  intros aes. exists [1; 2]%N, [7; 9]%N, 3. split; [|split; [reflexivity|split; [lia|]]].
  - repeat constructor; cbn; intuition discriminate.
  - destruct (cpp_cases aes [1; 2]%N [7; 9]%N 3 eq_refl ltac:(lia)) as [[_ [_ H]]|[_ [H _]]].
    + destruct (stop_m3 aes 1%N 2%N) as [S HS]. destruct (H S HS).
    + rewrite H. discriminate.
Qed.
Print Assumptions C107_native_decode_inverts_solve_refuted.

(** Non-vacuity: five keys, 128-bit values, a table of 16 columns. *)
Example C03_example :
  exists store, okvs_solve (0xDEADBEEF, 0xCAFEBABE)%N [11; 22; 33; 44; 55]%N [7; 2 ^ 127; 99; 0; 2 ^ 64]%N 16 = Ok store /\
    okvs_decode (0xDEADBEEF, 0xCAFEBABE)%N [11; 22; 33; 44; 55]%N store 16 = Ok [7; 2 ^ 127; 99; 0; 2 ^ 64]%N.
Proof. eexists. split; vm_compute; reflexivity. Qed.

(** C04: the Python kernel terminates with a store or with the "2-core detected"
    error (or a ZeroDivisionError for m = 0); it fails exactly when some set of keys
    has no column that occurs once among their rows, in which case no peeling order works. *)
Theorem C04_solve_terminates_and_fails_exactly_on_stopping_sets :
  forall seed keys values m,
    length values = length keys -> (keys <> [] -> 0 < m) ->
    ((exists store, okvs_solve seed keys values m = Ok store) \/ okvs_solve seed keys values m = Err CoreDetected) /\
    (okvs_solve seed keys values m = Err CoreDetected <->
     exists S, stopping_set (map (hash_key_py seed m) keys) S).
Proof.
  intros seed keys values m Hl Hm.
  destruct (okvs_solve_cases seed keys values m Hl Hm) as [[out [H1 [_ [_ H3]]]]|[H1 H2]]; rewrite H1.
  - split; [left; eauto|]. split; [discriminate|]. intros [S HS]. destruct (H3 S HS).
  - split; [right; reflexivity|]. split; auto.
Qed.
Print Assumptions C04_solve_terminates_and_fails_exactly_on_stopping_sets.

(** C04: keys with a repetition are always rejected by the Python kernel. *)
Theorem C04_duplicate_keys_rejected :
  forall seed keys values m, length values = length keys -> 0 < m ->
    ~ NoDup keys -> okvs_solve seed keys values m = Err CoreDetected.
Proof.
  intros seed keys values m Hl Hm Hd.
  destruct (okvs_solve_cases seed keys values m Hl (fun _ => Hm)) as [[out [_ [_ [_ H3]]]]|[H1 _]]; [|exact H1].
  destruct (dup_stop (hash_key_py seed m) keys Hd) as [S HS]. destruct (H3 S HS).
Qed.
Print Assumptions C04_duplicate_keys_rejected.

(** C04: m = 0 with at least one key raises ZeroDivisionError. *)
Theorem C04_empty_table_rejected :
  forall seed keys values, keys <> [] -> okvs_solve seed keys values 0 = Err ZeroDivisionError.
Proof. intros seed [|k ks] values H; [destruct H; reflexivity|reflexivity]. Qed.
Print Assumptions C04_empty_table_rejected.

Example C04_example_failure :
  ~ NoDup [5; 6; 5]%N /\
  okvs_solve (1, 2)%N [5; 6; 5]%N [1; 2; 3]%N 20 = Err CoreDetected /\
  okvs_solve (1, 2)%N [5; 6; 7]%N [1; 2; 3]%N 3 = Err CoreDetected.
Proof.
  split; [|split; vm_compute; reflexivity].
  intros H. inversion H as [|x l H1 H2 E]. apply H1. right. left. reflexivity.
Qed.

(** C108 (refuted): whatever the AES hash is, the native kernel returns a store for the
    distinct keys 1, 2 and table size 3 that decodes to zeros, with no error. *)
Theorem C108_native_solve_reports_failure_refuted :
  forall aes, cpp_decode_okvs aes [1; 2]%N (cpp_solve_okvs aes [1; 2]%N [7; 9]%N 3) 3 = [0; 0]%N.
Proof.
  intros aes.
  destruct (cpp_cases aes [1; 2]%N [7; 9]%N 3 eq_refl ltac:(lia)) as [[_ [_ H]]|[_ [H _]]]; [|exact H].
  destruct (stop_m3 aes 1%N 2%N) as [S HS]. destruct (H S HS).
Qed.
Print Assumptions C108_native_solve_reports_failure_refuted.

(** C108 (refuted) at the real operating point of solve_okvs_opt/decode_okvs_opt: for
    every seed and every round function there are 200000 distinct 64-bit keys for which
    encoding returns normally (table size 270000) but decoding does not give the values back. *)
Theorem C108_native_opt_path_reports_failure_refuted :
  forall enc seed, exists keys values,
    length keys = N.to_nat 200000 /\ length values = N.to_nat 200000 /\ NoDup keys /\
    (forall k, In k keys -> (k < 2 ^ 64)%N) /\
    okvs_decode_opt_native enc seed keys
      (okvs_solve_opt_native enc seed keys values (N.to_nat 270000)) (N.to_nat 270000) <> values.
Proof. exact native_path_silently_wrong. Qed.
Print Assumptions C108_native_opt_path_reports_failure_refuted.

(** C05 (partial): if no bin's local rows contain a stopping set (every bin peels), the
    binned kernel decodes every encoded key correctly, in whatever batch it is decoded.
    Missing: bins that take the fallback, and batches for which another kernel is selected. *)
Theorem C05_binned_decode_inverts_solve_partial :
  forall enc seed keys values m,
    length values = length keys -> NUM_BINS <= m ->
    (forall b S, b < NUM_BINS -> ~ stopping_set (local_rows enc seed (combine keys values) m b) S) ->
    forall subset : list (N * N), incl subset (combine keys values) ->
      decode_okvs_opt enc seed (map fst subset) (solve_okvs_opt enc seed keys values m) m = map snd subset.
Proof.
  intros enc seed keys values m Hl Hm Hns subset Hin. unfold decode_okvs_opt. rewrite map_map.
  apply map_ext_in. intros [k v] Hkv. cbn [fst snd].
  apply (decode_opt_item enc seed keys values m k v Hm (Hin _ Hkv)).
  intros S. apply Hns. apply get_bin_lt.
Qed.
Print Assumptions C05_binned_decode_inverts_solve_partial.

Definition ex_seed : N := join_lanes 0xDEADBEEF 0xCAFEBABE.

Example C05_example :
  decode_okvs_opt aesenc ex_seed [480; 771]%N
    (solve_okvs_opt aesenc ex_seed [480; 771; 772]%N [5; 6; 2 ^ 100]%N 4096) 4096 = [5; 6]%N.
Proof. vm_compute. reflexivity. Qed.

(** C05 (refuted): with the real AES round, the distinct keys 480 and 770 fall in one bin
    (276) whose local rows do not peel; the fallback solver succeeds but writes a store for
    a different row layout, so decoding returns wrong values. *)
Theorem C05_fallback_bin_decodes_correctly_refuted :
  get_bin_index aesenc ex_seed 480 = 276 /\ get_bin_index aesenc ex_seed 770 = 276 /\
  (* the fallback on this bin does succeed with respect to its own layout *)
  cpp_decode_okvs (aes_words aesenc ex_seed) [480; 770]%N
     (cpp_solve_okvs (aes_words aesenc ex_seed) [480; 770]%N [5; 6]%N 4) 4 = [5; 6]%N /\
  decode_okvs_opt aesenc ex_seed [480; 770]%N
     (solve_okvs_opt aesenc ex_seed [480; 770]%N [5; 6]%N 4096) 4096 <> [5; 6]%N.
Proof.
  split; [vm_compute; reflexivity|]. split; [vm_compute; reflexivity|].
  split; [vm_compute; reflexivity|]. vm_compute. discriminate.
Qed.
Print Assumptions C05_fallback_bin_decodes_correctly_refuted.

(** C05 (refuted): the kernel is selected by the size of the batch at hand, so a store
    encoded from 200000 keys by the binned kernel is decoded by the other kernel when fewer
    keys are queried; and the two kernels' layouts differ. *)
Theorem C05_batch_size_independent_decode_refuted :
  uses_binned_kernel true (N.to_nat 200000) (N.to_nat 270000) = true /\
  uses_binned_kernel true 1 (N.to_nat 270000) = false /\
  (let store := solve_okvs_opt aesenc ex_seed [480]%N [5]%N 4096 in
   decode_okvs_opt aesenc ex_seed [480]%N store 4096 = [5]%N /\
   okvs_decode_opt_native aesenc ex_seed [480]%N store 4096 <> [5]%N).
Proof.
  split; [reflexivity|]. split; [reflexivity|]. cbv zeta.
  split; vm_compute; [reflexivity|discriminate].
Qed.
Print Assumptions C05_batch_size_independent_decode_refuted.

(** C06: row i of the syndrome is the xor of the message blocks listed in CSR row i, and
    the native kernel computes the same syndrome. *)
Theorem C06_row_is_xor_of_listed_blocks :
  forall message indices indptr m, csr_ok indices indptr m (length message) ->
  exists s, ldpc_encode message indices indptr m = Some s /\
    ldpc_encode_cpp message indices indptr m = s /\ length s = m /\
    forall i, i < m -> nth i s 0%N = xor_all (row_blocks message indices indptr i).
Proof. exact encode_spec. Qed.
Print Assumptions C06_row_is_xor_of_listed_blocks.

(** C06: encoding is linear. *)
Theorem C06_encode_linear :
  forall x y indices indptr m, length x = length y -> csr_ok indices indptr m (length x) ->
  exists sx sy, ldpc_encode x indices indptr m = Some sx /\ ldpc_encode y indices indptr m = Some sy /\
    ldpc_encode (xor_vec x y) indices indptr m = Some (xor_vec sx sy).
Proof. exact encode_linear. Qed.
Print Assumptions C06_encode_linear.

Example C06_example :
  csr_ok [0; 2; 1; 2] [0; 2; 4] 2 3 /\
  ldpc_encode [1; 2; 4]%N [0; 2; 1; 2] [0; 2; 4] 2 = Some [5; 6]%N.
Proof.
  split; [|reflexivity]. split; [cbn; lia|]. split.
  - intros i Hi. destruct i as [|[|i]]; cbn; lia.
  - intros c [H|[H|[H|[H|[]]]]]; lia.
Qed.
