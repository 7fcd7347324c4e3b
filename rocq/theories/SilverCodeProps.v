(** C165-C168: the LDPC code of the Silver VOLE. *)
From Coq Require Import ZArith NArith List Arith Bool Lia Sorted.
From Verif Require Import LDPCModel LDPCSpec SilverCodeModel SilverCodeSpec SilverCodeProofs.
Import ListNotations.

(** C165: whatever the random draws, once generate_silver_ldpc(n, m) returns, its matrix is a valid
    CSR matrix of m rows over n columns whose rows list between min(3, n) and min(5, n) different
    columns in increasing order. *)
Theorem C165_rows :
  forall R linspace fuel n m seed H, rng_ok R -> linspace_ok linspace ->
  generate_silver_ldpc R linspace fuel n m seed = Some H ->
  csr_ok (fst H) (snd H) m n /\ length (snd H) = S m /\ nth 0 (snd H) 0 = 0 /\ nth m (snd H) 0 = length (fst H) /\
  forall i, i < m -> increasing (csr_row H i) /\ (forall j, In j (csr_row H i) -> j < n) /\
    Nat.min 3 n <= length (csr_row H i) <= Nat.min 5 n.
Proof. exact generated_csr. Qed.
Print Assumptions C165_rows.

(** C165: so encoding a message of n blocks with it never fails, reads only the message, and both
    kernels return the xor of the listed blocks. *)
Theorem C165_encoding_succeeds :
  forall R linspace fuel n m seed H message, rng_ok R -> linspace_ok linspace ->
  generate_silver_ldpc R linspace fuel n m seed = Some H -> length message = n ->
  exists s, ldpc_encode message (fst H) (snd H) m = Some s /\ ldpc_encode_cpp message (fst H) (snd H) m = s /\ length s = m /\
  forall i, i < m -> nth i s 0%N = xor_all (map (fun c => nth c message 0%N) (csr_row H i)).
Proof. exact generated_encode. Qed.
Print Assumptions C165_encoding_succeeds.

(** C165: a generated matrix of at least one row over at least 50 columns passes verify_ldpc_structure;
    in particular the one silver_vole(n) generates. *)
Theorem C165_structure_check :
  forall R linspace fuel n m seed H, rng_ok R -> linspace_ok linspace ->
  generate_silver_ldpc R linspace fuel n m seed = Some H -> 0 < m -> 50 <= n ->
  verify_ldpc_structure H m n = Some true.
Proof. exact generated_passes. Qed.
Print Assumptions C165_structure_check.
Theorem C165_silver_vole_code :
  forall R linspace fuel n seed H, rng_ok R -> linspace_ok linspace -> 0 < n ->
  let base_k := Nat.min (snd (fst (get_silver_params n))) 2048 in
  generate_silver_ldpc R linspace fuel base_k n seed = Some H ->
  verify_ldpc_structure H n base_k = Some true /\ forall i, i < n -> 3 <= length (csr_row H i) <= 5.
Proof.
  intros R linspace fuel n seed H HR HL Hn base_k E.
  assert (Hk : 50 <= base_k) by (unfold base_k; cbn [get_silver_params fst snd]; lia).
  split; [eapply C165_structure_check; eauto|]. intros i Hi.
  destruct (C165_rows _ _ _ _ _ _ _ HR HL E) as [_ [_ [_ [_ Hr]]]]. destruct (Hr i Hi) as [_ [_ Hl]]. lia.
Qed.
Print Assumptions C165_silver_vole_code.

(** C165: the loop that tops up a row can always be ended by the next draw: from every set of fewer
    than min(3, n) positions some draw of the size asked for completes the row. *)
Theorem C165_next_draw_can_finish :
  forall n p, increasing p -> (forall j, In j p -> j < n) -> length p <= Nat.min 5 n -> length p < Nat.min 3 n ->
  exists extra, length extra = row_weight n - length p /\ (forall z, In z extra -> (0 <= z < Z.of_nat n)%Z) /\
  forall R s s', randint R s 0 (Z.of_nat n) (row_weight n - length p) = (extra, s') ->
  exists q, fill R n 1 p s = Some (q, s').
Proof.
  intros n p Hs Hb Hl Hlt. destruct (some_draw_finishes n p) as [extra [H1 [H2 H3]]]; [split; [exact Hs|split; assumption]|exact Hlt|].
  exists extra. split; [exact H1|]. split; [exact H2|]. intros R s s' E. cbn [fill]. rewrite E.
  destruct (Nat.ltb_spec (length p) (Nat.min 3 (row_weight n))) as [_|Hge]; [|unfold row_weight in Hge; lia].
  destruct (Nat.ltb_spec (length (unique (p ++ map Z.to_nat extra))) (Nat.min 3 (row_weight n))) as [Hc|_]; [lia|]. eexists. reflexivity.
Qed.
Print Assumptions C165_next_draw_can_finish.

(** a counter as random source *)
Definition counter_rng : rng :=
  {| state := Z; randint := fun s lo hi k => (map (fun i => lo + (7 * s + 5 * Z.of_nat i) mod (hi - lo))%Z (seq 0 k), (s + 1)%Z) |}.
Definition even_linspace (a b : Z) (k : nat) : list Z := map (fun i => a + Z.of_nat i * (b - a) / (Z.of_nat k - 1))%Z (seq 0 k).
Example C165_example :
  rng_ok counter_rng /\ linspace_ok even_linspace /\
  generate_silver_ldpc counter_rng even_linspace 3 128 3 42%Z = Some ([0; 14; 17; 54; 91; 7; 24; 61; 98; 116; 14; 31; 68; 105; 123], [0; 5; 10; 15]).
Proof.
  split; [|split].
  - intros s lo hi k Hlt. cbn [counter_rng randint fst]. rewrite map_length, seq_length. split; [reflexivity|]. intros z Hz. apply in_map_iff in Hz as [i [<- _]].
    pose proof (Z.mod_pos_bound (7 * s + 5 * Z.of_nat i) (hi - lo)). lia.
  - intros a b k. unfold even_linspace. rewrite map_length, seq_length. reflexivity.
  - vm_compute. reflexivity.
Qed.

(** C166 (refuted): the dense encoder, documented as the reference for correctness, is not the encoder:
    it keeps only the lowest bit of every limb.  Exactly: *)
Theorem C166_dense_keeps_lowest_bits_partial :
  forall message rows, Forall (fun r => increasing r /\ forall j, In j r -> j < length message) rows ->
  ldpc_encode_dense message (densify 1 (length message) rows) =
  map (fun r => (N.land (xor_all (map (fun c => nth c (lows message) 0%N) r)) 1, N.land (xor_all (map (fun c => nth c (highs message) 0%N) r)) 1)) rows.
Proof. intros. apply dense_spec. assumption. Qed.
Print Assumptions C166_dense_keeps_lowest_bits_partial.

Theorem C166_dense_encodes_refuted :
  exists message rows, Forall (fun r => increasing r /\ forall j, In j r -> j < length message) rows /\
  Forall (fun x => (fst x < 2 ^ 64 /\ snd x < 2 ^ 64)%N) message /\
  ldpc_encode_dense message (densify 1 (length message) rows) <>
  map (fun r => (xor_all (map (fun c => nth c (lows message) 0%N) r), xor_all (map (fun c => nth c (highs message) 0%N) r))) rows.
Proof.
  exists [(2, 5); (4, 8)]%N, [[0; 1]]. split; [|split].
  - constructor; [|constructor]. split; [repeat constructor|]. cbn. intros j [<-|[<-|[]]]; lia.
  - repeat constructor.
  - vm_compute. discriminate.
Qed.
Print Assumptions C166_dense_encodes_refuted.

(** It is the encoder when the entries of the dense matrix are all ones instead of one. *)
Theorem C166_dense_with_masks_partial :
  forall message rows, Forall (fun r => increasing r /\ forall j, In j r -> j < length message) rows ->
  Forall (fun x => (fst x < 2 ^ 64 /\ snd x < 2 ^ 64)%N) message ->
  ldpc_encode_dense message (densify (N.ones 64) (length message) rows) =
  map (fun r => (xor_all (map (fun c => nth c (lows message) 0%N) r), xor_all (map (fun c => nth c (highs message) 0%N) r))) rows.
Proof.
  intros message rows Hr Hm. rewrite dense_spec by exact Hr. apply map_ext. intros r.
  assert (Hx : forall l, (forall x, In x l -> (x < 2 ^ 64)%N) -> N.land (xor_all l) (N.ones 64) = xor_all l).
  { intros l Hl. rewrite xor_all_land. f_equal. rewrite <- map_id. apply map_ext_in. intros x Hin. rewrite N.land_ones. apply N.mod_small. auto. }
  assert (Hn : forall (f : limbs -> N) c, (forall x, In x message -> (f x < 2 ^ 64)%N) -> (nth c (map f message) 0 < 2 ^ 64)%N).
  { intros f c Hf. destruct (Nat.lt_ge_cases c (length (map f message))) as [Hc|Hc]; [|rewrite nth_overflow by exact Hc; reflexivity].
    pose proof (nth_In (map f message) 0%N Hc) as Hin. apply in_map_iff in Hin as [x [Hx1 Hx2]]. rewrite <- Hx1. auto. }
  rewrite Forall_forall in Hm.
  f_equal; apply Hx; intros x Hin; apply in_map_iff in Hin as [c [<- _]]; apply Hn; intros y Hy; apply (Hm y Hy).
Qed.
Print Assumptions C166_dense_with_masks_partial.

(** C167: ldpc_decode_syndrome returns a vector of 0s and 1s with one entry per column and at most
    noise_weight ones, for every matrix and syndrome. *)
Theorem C167_weight_bounded :
  forall cols syndrome noise_weight,
  length (ldpc_decode_syndrome cols syndrome noise_weight) = length cols /\
  weight (ldpc_decode_syndrome cols syndrome noise_weight) <= noise_weight /\
  forall x, In x (ldpc_decode_syndrome cols syndrome noise_weight) -> x = 0%N \/ x = 1%N.
Proof. exact decode_spec. Qed.
Print Assumptions C167_weight_bounded.

(** C167: a single error is found exactly, if its column is not empty and lies in no other column. *)
Theorem C167_single_errors_found :
  forall rows n j noise_weight, j < n -> Forall (fun r => increasing r /\ forall k, In k r -> k < n) rows -> 0 < noise_weight ->
  (exists r, In r rows /\ In j r) ->
  (forall k, k < n -> k <> j -> exists r, In r rows /\ In j r /\ ~ In k r) ->
  ldpc_decode_syndrome (columns n rows) (syndrome_of rows (unit_vector n j)) noise_weight = unit_vector n j.
Proof. exact decode_single. Qed.
Print Assumptions C167_single_errors_found.
Example C167_example :
  let rows := [[0; 1; 2]; [0; 2; 3]; [1; 3; 4]; [0; 1; 4]] in
  Forall (fun r => increasing r /\ forall k, In k r -> k < 5) rows /\
  (forall k, k < 5 -> k <> 1 -> exists r, In r rows /\ In 1 r /\ ~ In k r) /\
  ldpc_decode_syndrome (columns 5 rows) [1; 0; 1; 1]%N 2 = [0; 1; 0; 0; 0]%N.
Proof.
  cbv zeta. split; [|split; [|vm_compute; reflexivity]].
  - repeat apply Forall_cons; try apply Forall_nil; (split; [repeat constructor; lia|cbn; intros; lia]).
  - intros k Hk Hne. destruct (Nat.eq_dec k 0) as [->|H0]; [exists [1; 3; 4]; cbn; intuition lia|].
    destruct (Nat.eq_dec k 4) as [->|H4]; [exists [0; 1; 2]; cbn; intuition lia|]. exists [0; 1; 4]; cbn; intuition lia.
Qed.

(** C168 (refuted): the returned error need not explain the syndrome, even one caused by a single
    error, and however many rounds are allowed. *)
Theorem C168_single_error_explained_refuted :
  exists rows n j, j < n /\ Forall (fun r => increasing r /\ forall k, In k r -> k < n) rows /\
  forall noise_weight, 0 < noise_weight ->
  syndrome_of rows (ldpc_decode_syndrome (columns n rows) (syndrome_of rows (unit_vector n j)) noise_weight) <> syndrome_of rows (unit_vector n j).
Proof.
  exists [[0; 1]; [0]], 2, 1. split; [lia|]. split; [repeat apply Forall_cons; try apply Forall_nil; (split; [repeat constructor; lia|cbn; intros; lia])|].
  assert (H : forall w, decode_loop (columns 2 [[0; 1]; [0]]) w [0; 1]%N [1; 0]%N = [1; 0]%N /\ decode_loop (columns 2 [[0; 1]; [0]]) w [1; 0]%N [1; 0]%N = [1; 0]%N).
  { induction w as [|w [IH1 IH2]]; [split; reflexivity|]. split; [exact IH2|exact IH1]. }
  intros w Hw. destruct w as [|w]; [lia|].
  change (ldpc_decode_syndrome (columns 2 [[0; 1]; [0]]) (syndrome_of [[0; 1]; [0]] (unit_vector 2 1)) (S w)) with (decode_loop (columns 2 [[0; 1]; [0]]) w [0; 1]%N [1; 0]%N).
  rewrite (proj1 (H w)). vm_compute. discriminate.
Qed.
Print Assumptions C168_single_error_explained_refuted.

(** C168 (refuted): for syndromes of 128-bit blocks the noise values are never recovered: every row
    returned is all ones or all zeros, so no value of 2 or more is ever explained. *)
Theorem C168_block_values_refuted :
  forall width cols syndrome noise_weight x, In x (ldpc_decode_syndrome2 width cols syndrome noise_weight) ->
  x = repeat 1%N width \/ x = repeat 0%N width.
Proof. exact decode2_spec. Qed.
Print Assumptions C168_block_values_refuted.
(** C167, rows of several limbs: a syndrome whose rows repeat one bit is decoded like the vector of these bits. *)
Theorem C167_repeated_bits :
  forall width cols syndrome noise_weight, 0 < width -> Forall bits cols -> bits syndrome ->
  ldpc_decode_syndrome2 width cols (map (fun x => repeat x width) syndrome) noise_weight =
  map (fun x => repeat x width) (ldpc_decode_syndrome cols syndrome noise_weight).
Proof. exact decode2_repeat. Qed.
Print Assumptions C167_repeated_bits.
Example C167_repeated_example : bits [1; 0; 1]%N /\ Forall bits (columns 2 [[0]; [1]; [0; 1]]) /\
  ldpc_decode_syndrome2 2 (columns 2 [[0]; [1]; [0; 1]]) [[1; 1]; [0; 0]; [1; 1]]%N 1 = [[1; 1]; [0; 0]]%N.
Proof. unfold bits. split; [repeat (apply Forall_cons; [auto|]); constructor|]. split; [|reflexivity]. cbn. repeat (apply Forall_cons; [auto|]); try apply Forall_nil; repeat (apply Forall_cons; [auto|]); try apply Forall_nil. Qed.
Example C168_block_values :
  ldpc_decode_syndrome2 2 (columns 2 [[0]; [0; 1]; [1]]) [[5; 7]; [5; 7]; [0; 0]]%N 1 = [[1; 1]; [0; 0]]%N.
Proof. reflexivity. Qed.
