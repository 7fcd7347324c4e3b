(** Property theorems about oblivious transfer, OPRF and VOLE (C07-C11, C14, C19, C58, C59). *)
From Coq Require Import List NArith ZArith Bool Lia.
From Verif Require Import MPCBase OTModel OTSpec OTProofs IKNPProofs OTExample
  GF128Spec GF128Model GF128Proofs GF128Field LDPCModel LDPCSpec VOLESpec VOLEModel VOLEProofs VOLEProofs2.
Import ListNotations.
Local Open Scope nat_scope.

(** C07: over any abelian group, hash, cipher with dec(enc m) = m and any random draws, a
    base OT batch that completes gives the receiver the chosen message in every position. *)
Theorem C07_receiver_gets_chosen_message :
  forall (X : cenv) (M CT : Type) (enc : list N -> list N -> M -> CT) (dec : list N -> CT -> option M),
  env_ok X -> (forall key nonce m, dec key (enc key nonce m) = Some m) ->
  forall rC rnd ms0 ms1 bs d out,
  Forall bitZ bs ->
  transfer X M CT enc dec rC rnd ms0 ms1 bs d = Some out ->
  length out = length bs /\
  forall i, i < length bs ->
    nth i out d = chosen (Z.eqb (nth i bs 0%Z) 1) (nth i ms0 d) (nth i ms1 d).
Proof. intros X M CT enc dec OKX SYM. exact (transfer_correct X OKX M CT enc dec SYM). Qed.
Print Assumptions C07_receiver_gets_chosen_message.

(** C07: and it does complete unless a draw hits one of five exceptional residues. *)
Theorem C07_completes_for_generic_randomness :
  forall (X : cenv) (M CT : Type) (enc : list N -> list N -> M -> CT) (dec : list N -> CT -> option M),
  env_ok X -> gen_exact (grp X) -> (forall key nonce m, dec key (enc key nonce m) = Some m) ->
  forall rC rnd ms0 ms1 bs d,
  Forall bitZ bs -> length ms0 = length bs -> length ms1 = length bs ->
  (forall i, i < length bs ->
     let o := ord (grp X) in let k := rk (rnd i) in let r0 := rr0 (rnd i) in let r1 := rr1 (rnd i) in
     (k mod o <> 0 /\ (rC - k) mod o <> 0 /\ (rC - 2 * k) mod o <> 0 /\
      r1 mod o <> 0 /\ (r1 - r0) mod o <> 0)%Z) ->
  exists out, transfer X M CT enc dec rC rnd ms0 ms1 bs d = Some out.
Proof.
  intros X M CT enc dec OKX EX SYM rC rnd ms0 ms1 bs d Hb L0 L1 H.
  exact (transfer_succeeds X OKX M CT enc dec SYM rC rnd ms0 ms1 bs d EX Hb L0 L1 H).
Qed.
Print Assumptions C07_completes_for_generic_randomness.

(** Non-vacuity: a batch of three transfers in the group of order 11 with an xor "cipher"
    that prefixes the key. *)
Definition ex_enc (key nonce : list N) (m : N) : list N * N := (key, N.lxor m (at1 key 0)).
Definition ex_dec (key : list N) (c : list N * N) : option N :=
  if list_eq_dec N.eq_dec (fst c) key then Some (N.lxor (snd c) (at1 key 0)) else None.
Example C07_example :
  env_ok env11 /\ gen_exact (grp env11) /\
  (forall key nonce m, ex_dec key (ex_enc key nonce m) = Some m) /\
  transfer env11 N (list N * N) ex_enc ex_dec 5 (fun i => OTRand (Z.of_nat (1 + i)) 3 (Z.of_nat (4 + i)) [] [])
    [100; 101; 102]%N [200; 201; 202]%N [1; 0; 1]%Z 0%N = Some [200; 101; 202]%N.
Proof.
  split; [exact env11_ok|]. split; [exact grp11_exact|]. split; [|vm_compute; reflexivity].
  intros key nonce m. unfold ex_dec, ex_enc. cbn [fst snd]. destruct (list_eq_dec N.eq_dec key key) as [_|F]; [|contradiction F; reflexivity].
  rewrite N.lxor_assoc, N.lxor_nilpotent, N.lxor_0_r. reflexivity.
Qed.

(** C58: there is a one-to-one pairing of the receiver's scalars such that a scalar used with
    choice 0 and its partner used with choice 1 send the same point: over a uniform scalar the
    sender learns nothing about the choice bit, whatever its own scalar. *)
Theorem C58_sent_point_independent_of_choice :
  forall X rC, env_ok X ->
  exists partner : Z -> Z,
    (forall k, (0 <= k < ord (grp X))%Z -> (0 <= partner k < ord (grp X))%Z /\ partner (partner k) = k) /\
    forall k PK PK',
      receiver_keygen X (ec_mul (grp X) (pgen (grp X)) rC) 0 k = Some PK ->
      receiver_keygen X (ec_mul (grp X) (pgen (grp X)) rC) 1 (partner k) = Some PK' -> PK = PK'.
Proof.
  intros X rC OKX. exists (fun k => (rC - k) mod ord (grp X))%Z.
  pose proof (g_ordp _ (e_grp X OKX)) as Ho. split.
  - intros k Hk. split; [apply Z.mod_pos_bound; exact Ho|].
    rewrite Zminus_mod_idemp_r. replace (rC - (rC - k))%Z with k by ring. apply Z.mod_small, Hk.
  - intros k PK PK'. exact (keygen_hides_choice_mod X OKX rC k PK PK').
Qed.
Print Assumptions C58_sent_point_independent_of_choice.
Example C58_example :
  option_map (@proj1_sig _ _) (receiver_keygen env11 (ec_mul grp11 (pgen grp11) 5) 0 2) = Some 2%Z /\
  option_map (@proj1_sig _ _) (receiver_keygen env11 (ec_mul grp11 (pgen grp11) 5) 1 3) = Some 2%Z.
Proof. split; vm_compute; reflexivity. Qed.

(** C08: the IKNP correlation holds in every row and column, for 1-D, (n,1) and (n,128)
    choice arrays. *)
Theorem C08_iknp_correlation :
  forall X c n R t q s, env_ok X ->
  iknp_rand_ok R -> choice_bits_ok c n -> iknp_core X c n R = Some (t, q, s) ->
  s = ik_s R /\ length t = n /\ length q = n /\
  (forall j, j < n -> length (row t j) = 128 /\ length (row q j) = 128 /\
                      Forall bit (row t j) /\ Forall bit (row q j)) /\
  forall j k, j < n -> k < 128 ->
    at2 t j k = N.lxor (at2 q j k) (N.land (choice_bit c j k) (at1 s k)).
Proof. intros X c n R t q s OKX. exact (iknp_correct X OKX c n R t q s). Qed.
Print Assumptions C08_iknp_correlation.

(** C08: transfer_extension delivers the chosen row. *)
Theorem C08_extension_delivers_chosen_message :
  forall X m0 m1 d bits n R out, env_ok X ->
  iknp_rand_ok R -> length bits = n -> Forall bit bits ->
  length m0 = n -> length m1 = n ->
  Forall (fun r => length r = d) m0 -> Forall (fun r => length r = d) m1 ->
  transfer_extension X m0 m1 d bits n R = Some out ->
  length out = n /\
  forall j, j < n -> row out j = chosen (N.eqb (nth j bits 0%N) 1) (row m0 j) (row m1 j).
Proof. intros X m0 m1 d bits n R out OKX. exact (transfer_extension_correct X OKX m0 m1 d bits n R out). Qed.
Print Assumptions C08_extension_delivers_chosen_message.

(** C08: with generic draws the extension completes exactly when messages are at most 32
    bytes wide (the hash output is sliced to the message width). *)
Theorem C08_extension_completes_iff_messages_fit :
  forall X m0 m1 d bits n R, env_ok X -> gen_exact (grp X) ->
  iknp_rand_ok R -> iknp_rand_generic X R -> length bits = n -> Forall bit bits ->
  (exists out, transfer_extension X m0 m1 d bits n R = Some out) <-> d <= 32.
Proof.
  intros X m0 m1 d bits n R OKX EX HR HG L F. unfold transfer_extension.
  destruct (iknp_succeeds X OKX (Choice1 bits) n R EX HR (conj L F) HG) as (t & q & ->). cbn [bind].
  destruct (Nat.leb d 32) eqn:D; cbn [negb].
  - apply Nat.leb_le in D. split; eauto.
  - apply Nat.leb_gt in D. split; [intros (? & E); discriminate|lia].
Qed.
Print Assumptions C08_extension_completes_iff_messages_fit.

Example C08_example :
  iknp_rand_ok rand11 /\ iknp_rand_generic env11 rand11 /\
  transfer_extension env11 [[1; 2]; [3; 4]; [5; 6]]%N [[11; 12]; [13; 14]; [15; 16]]%N 2 [1; 0; 1]%N 3 rand11
  = Some [[11; 12]; [3; 4]; [15; 16]]%N.
Proof. split; [exact rand11_ok|]. split; [exact rand11_generic|]. vm_compute. reflexivity. Qed.

(** C09: with the Python multiplication kernel every index of the Gilboa VOLE satisfies
    w = v + u*delta in GF(2^128). *)
Theorem C09_gilboa_vole_correlation :
  forall X u delta n R v w u' d', env_ok X -> iknp_rand_ok R -> word_pair delta -> all_words u ->
  vole X false u delta n R = Some (v, w, u', d') ->
  u' = u /\ d' = delta /\ length v = n /\ length w = n /\
  forall j, j < n -> vole_correlation delta (entry v j) (entry w j) (entry u j).
Proof.
  intros X u delta n R v w u' d' OKX HR Hd Hu H.
  destruct (vole_correct X OKX false u delta n R v w u' d' HR Hd Hu H) as (A & B & C & D & _ & E).
  split; [exact A|]. split; [exact B|]. split; [exact C|]. split; [exact D|]. intros j Hj.
  exists (gf128_mul_single (entry u j) delta). split; [apply mul_single_wp; [apply Hu|exact Hd]|].
  split; [apply gf128_mul_single_correct; [apply Hu|exact Hd]|]. exact (E j Hj).
Qed.
Print Assumptions C09_gilboa_vole_correlation.

(** C09: it completes for generic draws. *)
Theorem C09_gilboa_completes :
  forall X lib u delta R, env_ok X -> gen_exact (grp X) -> iknp_rand_ok R -> iknp_rand_generic X R ->
  exists v w, vole X lib u delta (length u) R = Some (v, w, u, delta).
Proof.
  intros X lib u delta R OKX EX HR HG. unfold vole.
  destruct (iknp_succeeds X OKX _ 128 R EX HR (delta_choice_ok delta) HG) as (t & q & ->). cbn [bind].
  rewrite Nat.eqb_refl. cbn [negb]. unfold sender_round. eauto.
Qed.
Print Assumptions C09_gilboa_completes.

(** C109 (partial): with the native kernel the correlation holds for that kernel's product;
    missing: the kernel is not the field multiplication (C02). *)
Theorem C109_native_kernel_correlation_partial :
  forall X u delta n R v w u' d', env_ok X -> iknp_rand_ok R -> word_pair delta -> all_words u ->
  vole X true u delta n R = Some (v, w, u', d') ->
  u' = u /\ d' = delta /\ length v = n /\ length w = n /\
  forall j, j < n -> native_correlation delta (entry v j) (entry w j) (entry u j).
Proof.
  intros X u delta n R v w u' d' OKX HR Hd Hu H.
  destruct (vole_correct X OKX true u delta n R v w u' d' HR Hd Hu H) as (A & B & C & D & _ & E).
  auto.
Qed.
Print Assumptions C109_native_kernel_correlation_partial.

(** C109 (refuted for the native kernel): whenever delta = x^127 and u_j = x^127 the output
    is not VOLE-correlated at j, in every run. *)
Theorem C109_native_gilboa_correlation_refuted :
  forall X u n R v w u' d' j, env_ok X -> iknp_rand_ok R -> all_words u ->
  vole X true u (0, 2 ^ 63)%N n R = Some (v, w, u', d') ->
  j < n -> entry u j = (0, 2 ^ 63)%N ->
  ~ vole_correlation (0, 2 ^ 63)%N (entry v j) (entry w j) (entry u j).
Proof.
  intros X u n R v w u' d' j OKX HR Hu H Hj Eu.
  assert (word_pair (0, 2 ^ 63)%N) as Wd by (split; vm_compute; reflexivity).
  destruct (vole_correct X OKX true u _ n R v w u' d' HR Wd Hu H) as (_ & _ & _ & _ & _ & E).
  specialize (E j Hj). unfold elem in E. fold (entry w j) (entry v j) (entry u j) in E.
  intros (p & Wp & Pp & E'). rewrite E' in E. rewrite Eu in E, Pp.
  assert (p = field_mul_impl true (0, 2 ^ 63)%N (0, 2 ^ 63)%N) as Ep.
  { apply (f_equal (xor_pair (entry v j))) in E. rewrite !xp_assoc, xp_nil, !xp_0_l in E. exact E. }
  apply (mul_single_unique _ _ _ Wd Wd) in Pp. rewrite Ep in Pp. vm_compute in Pp. discriminate.
Qed.
Print Assumptions C109_native_gilboa_correlation_refuted.

Definition ex_delta : N * N := (0, 2 ^ 63)%N.
Definition ex_u : list (N * N) := [(0, 2 ^ 63); (3, 5)]%N.
Example C09_example :
  word_pair ex_delta /\ all_words ex_u /\
  (exists v w, vole env11 false ex_u ex_delta 2 rand11 = Some (v, w, ex_u, ex_delta)) /\
  (exists v w, vole env11 true ex_u ex_delta 2 rand11 = Some (v, w, ex_u, ex_delta)).
Proof.
  split; [split; vm_compute; reflexivity|].
  assert (all_words ex_u).
  { intros [|[|[|j]]]; split; vm_compute; reflexivity. }
  split; [assumption|]. split; apply (C09_gilboa_completes env11); auto using env11_ok, grp11_exact, rand11_ok, rand11_generic.
Qed.

(** C10: silent expansion preserves the correlation at every one of the n outputs, for
    every expansion seed, base size and length (several chunks included). *)
Theorem C10_silent_expansion_correlated :
  forall X u delta seed k n R v w u' d', env_ok X -> iknp_rand_ok R -> word_pair delta -> all_words u ->
  silent_vole X false u delta seed k n R = Some (v, w, u', d') ->
  d' = delta /\ length v = n /\ length w = n /\ length u' = n /\
  forall j, j < n -> vole_correlation delta (entry v j) (entry w j) (entry u' j).
Proof.
  intros X u delta seed k n R v w u' d' OKX HR Hd Hu H.
  destruct (silent_correct X OKX false u delta seed k n R v w u' d' HR Hd Hu H) as (A & B & C & D & E).
  split; [exact A|]. split; [exact B|]. split; [exact C|]. split; [exact D|]. intros j Hj.
  assert (word_pair (entry u' j)) as Wj.
  { unfold silent_vole in H. apply bind_Some in H. destruct H as ([[[vb wb] ub] db] & HV & H).
    destruct (Nat.eqb (num_chunks n) 0); [discriminate|]. injection H as _ _ <- _.
    destruct (vole_correct X OKX false _ _ _ _ _ _ _ _ HR Hd Hu HV) as (-> & _).
    apply run_expansion_words. exact Hu. }
  exists (gf128_mul_single (entry u' j) delta). split; [apply mul_single_wp; assumption|].
  split; [apply gf128_mul_single_correct; assumption|]. exact (E j Hj).
Qed.
Print Assumptions C10_silent_expansion_correlated.

(** C110 (partial): the same with the native kernel, relative to that kernel's product. *)
Theorem C110_native_silent_expansion_partial :
  forall X u delta seed k n R v w u' d', env_ok X -> iknp_rand_ok R -> word_pair delta -> all_words u ->
  silent_vole X true u delta seed k n R = Some (v, w, u', d') ->
  d' = delta /\ length v = n /\ length w = n /\ length u' = n /\
  forall j, j < n -> native_correlation delta (entry v j) (entry w j) (entry u' j).
Proof.
  intros X u delta seed k n R v w u' d' OKX HR Hd Hu H.
  exact (silent_correct X OKX true u delta seed k n R v w u' d' HR Hd Hu H).
Qed.
Print Assumptions C110_native_silent_expansion_partial.

(** C110 (refuted for the native kernel): with delta = x^127, every output whose u is x^127 is not
    VOLE-correlated, in every run. *)
Theorem C110_native_silent_expansion_refuted :
  forall X u seed k n R v w u' d' j, env_ok X -> iknp_rand_ok R -> all_words u ->
  silent_vole X true u (0, 2 ^ 63)%N seed k n R = Some (v, w, u', d') ->
  j < n -> entry u' j = (0, 2 ^ 63)%N ->
  ~ vole_correlation (0, 2 ^ 63)%N (entry v j) (entry w j) (entry u' j).
Proof.
  intros X u seed k n R v w u' d' j OKX HR Hu H Hj Eu.
  assert (word_pair (0, 2 ^ 63)%N) as Wd by (split; vm_compute; reflexivity).
  destruct (silent_correct X OKX true u _ seed k n R v w u' d' HR Wd Hu H) as (_ & _ & _ & _ & E).
  specialize (E j Hj). unfold elem in E.
  intros (p & Wp & Pp & E'). change (entry w j = xor_pair (entry v j) (field_mul_impl true (entry u' j) (0, 2 ^ 63)%N)) in E.
  rewrite E' in E. rewrite Eu in E, Pp.
  assert (p = field_mul_impl true (0, 2 ^ 63)%N (0, 2 ^ 63)%N) as Ep.
  { apply (f_equal (xor_pair (entry v j))) in E. rewrite !xp_assoc, xp_nil, !xp_0_l in E. exact E. }
  apply (mul_single_unique _ _ _ Wd Wd) in Pp. rewrite Ep in Pp. vm_compute in Pp. discriminate.
Qed.
Print Assumptions C110_native_silent_expansion_refuted.

(** C10: it completes for generic draws and every n > 0. *)
Theorem C10_silent_completes :
  forall X lib u delta seed n R, env_ok X -> gen_exact (grp X) -> iknp_rand_ok R -> iknp_rand_generic X R ->
  0 < n -> exists r, silent_vole X lib u delta seed (length u) n R = Some r.
Proof.
  intros X lib u delta seed n R OKX EX HR HG Hn. unfold silent_vole.
  destruct (C09_gilboa_completes X lib u delta R OKX EX HR HG) as (v & w & ->). cbn [bind].
  destruct (Nat.eqb (num_chunks n) 0) eqn:Z; [|eauto].
  apply Nat.eqb_eq in Z. apply (proj1 (num_chunks_0 n)) in Z. subst n. exact (False_ind _ (Nat.lt_irrefl 0 Hn)).
Qed.
Print Assumptions C10_silent_completes.

Example C10_example :
  all_words ex_u /\ word_pair ex_delta /\
  exists r, silent_vole env11 false ex_u ex_delta (tab 32 N.of_nat) 2 (N.to_nat 250000) rand11 = Some r.
Proof.
  destruct C09_example as (A & B & _). split; [exact B|]. split; [exact A|].
  refine (C10_silent_completes env11 false ex_u ex_delta (tab 32 N.of_nat) (N.to_nat 250000) rand11
            env11_ok grp11_exact rand11_ok rand11_generic _).
  apply Nat.neq_0_lt_0. intros E. apply (f_equal N.of_nat) in E. rewrite N2Nat.id in E. discriminate E.
Qed.
Example C10_native_example :
  exists v w u', all_words [(0, 2 ^ 63); (0, 0)]%N /\
    silent_vole env11 true [(0, 2 ^ 63); (0, 0)]%N (0, 2 ^ 63)%N (tab 32 N.of_nat) 2 8 rand11 = Some (v, w, u', (0, 2 ^ 63)%N) /\
    entry u' 3 = (0, 2 ^ 63)%N.
Proof.
  assert (all_words [(0, 2 ^ 63); (0, 0)]%N) as A by (intros [|[|[|j]]]; split; vm_compute; reflexivity).
  destruct (C09_gilboa_completes env11 true [(0, 2 ^ 63); (0, 0)]%N (0, 2 ^ 63)%N rand11 env11_ok grp11_exact rand11_ok rand11_generic) as (v & w & E).
  exists (run_expansion env11 v (tab 32 N.of_nat) 2 8), (run_expansion env11 w (tab 32 N.of_nat) 2 8),
    (run_expansion env11 [(0, 2 ^ 63); (0, 0)]%N (tab 32 N.of_nat) 2 8).
  split; [exact A|]. split; [|vm_compute; reflexivity].
  cbn [length] in E. unfold silent_vole. rewrite E. reflexivity.
Qed.

(** C59 (refuted): every full chunk of 100000 outputs is expanded with the same masks, so in
    every run the outputs u, v and w repeat with period 100000: no output beyond the first
    chunk is fresh. *)
Theorem C59_silent_outputs_fresh_refuted :
  forall X lib u delta seed k n R v w u' d',
  silent_vole X lib u delta seed k n R = Some (v, w, u', d') ->
  forall c j, j < N.to_nat 100000 -> S c * N.to_nat 100000 <= n ->
    entry u' (c * N.to_nat 100000 + j) = entry u' j /\
    entry v (c * N.to_nat 100000 + j) = entry v j /\
    entry w (c * N.to_nat 100000 + j) = entry w j.
Proof.
  intros X lib u delta seed k n R v w u' d' H c j Hj Hc.
  unfold silent_vole in H. apply bind_Some in H. destruct H as ([[[vb wb] ub] db] & HV & H).
  destruct (Nat.eqb (num_chunks n) 0); [discriminate|]. injection H as <- <- <- <-.
  assert (1 * CHUNK_SIZE <= n) as H0.
  { unfold CHUNK_SIZE. refine (Nat.le_trans _ _ _ _ Hc). apply Nat.mul_le_mono_r, le_n_S, Nat.le_0_l. }
  split; [|split]; exact (expansion_repeats X _ seed k n c 0 j Hc H0 Hj).
Qed.
Print Assumptions C59_silent_outputs_fresh_refuted.
Example C59_example :
  exists r, silent_vole env11 false ex_u ex_delta (tab 32 N.of_nat) 2 (N.to_nat 250000) rand11 = Some r.
Proof. apply C10_example. Qed.

(** C11 (refuted): Silver xors its sparse noise into the receiver's w only, so an output
    index is VOLE-correlated exactly when the noise there is zero. *)
Theorem C11_silver_correlated_only_without_noise_refuted :
  forall X u delta noise indices indptr k n R V W U d',
  env_ok X -> iknp_rand_ok R -> word_pair delta -> all_words u ->
  length u = k -> csr_ok indices indptr n k -> length noise = n ->
  silver_vole X false u delta noise indices indptr k n R = Some (V, W, U, d') ->
  d' = delta /\ length V = n /\ length W = n /\ length U = n /\
  forall j, j < n ->
    (vole_correlation128 delta (nth j V 0%N) (nth j W 0%N) (nth j U 0%N) <-> nth j noise 0%N = 0%N).
Proof.
  intros X u delta noise indices indptr k n R V W U d' OKX HR Hd Hu Lu HC Ln H.
  destruct (silver_value X false u delta noise indices indptr k n R V W U d' OKX HR Hd Hu Lu HC Ln H)
    as (A & B & C & D & E).
  pose proof (silver_small X false u delta noise indices indptr k n R V W U d' OKX HR Hd Hu Lu HC H) as US.
  split; [exact A|]. split; [exact B|]. split; [exact C|]. split; [exact D|]. intros j Hj.
  specialize (E j Hj). specialize (US j). unfold mulj, field_mul_impl in E.
  pose proof (split_word_pair _ US) as WU.
  pose proof (gf128_mul_single_correct _ _ WU Hd) as [Wp Pp]. rewrite join_split in Pp by exact US.
  set (p := join (gf128_mul_single (split128 (nth j U 0%N)) delta)) in *. split.
  - intros (p' & Pp' & E'). rewrite <- (join_split (nth j U 0%N) US) in Pp'.
    apply (mul_single_unique _ _ _ WU Hd) in Pp'. fold p in Pp'. subst p'. rewrite E in E'.
    apply (f_equal (N.lxor (N.lxor (nth j V 0%N) p))) in E'.
    rewrite <- N.lxor_assoc, N.lxor_nilpotent, N.lxor_0_l in E'. exact E'.
  - intros E0. exists p. split; [exact Pp|]. rewrite E, E0, N.lxor_0_r. reflexivity.
Qed.
Print Assumptions C11_silver_correlated_only_without_noise_refuted.

Definition ex_idx : list nat := [0; 1; 0; 1].
Definition ex_ptr : list nat := [0; 1; 2; 4].
Example C11_example :
  csr_ok ex_idx ex_ptr 3 2 /\
  exists r, silver_vole env11 false ex_u ex_delta [0; 9; 0]%N ex_idx ex_ptr 2 3 rand11 = Some r.
Proof.
  split.
  - split; [cbn; lia|]. split.
    + intros [|[|[|i]]] Hi; cbn; lia.
    + intros c [H|[H|[H|[H|[]]]]]; lia.
  - destruct (C09_gilboa_completes env11 false ex_u ex_delta rand11 env11_ok grp11_exact rand11_ok rand11_generic)
      as (v & w & E). unfold silver_vole. change (length ex_u) with 2 in E. rewrite E. cbn [bind].
    destruct (vole_correct env11 env11_ok false _ _ _ _ _ _ _ _ rand11_ok (proj1 C09_example) (proj1 (proj2 C09_example)) E)
      as (_ & _ & Lv & Lw & _ & _).
    clear E. destruct v as [|? [|? [|]]]; try discriminate Lv. destruct w as [|? [|? [|]]]; try discriminate Lw.
    eexists. reflexivity.
Qed.

(** C11 (refuted): silver_vole_ldpc draws u and delta after the fact, independently of v and
    w: in every run, some values of the two draws break the correlation at any chosen index. *)
Theorem C11_silver_ldpc_correlation_refuted :
  forall X cb n R u_rand d_rand v w u d j,
  silver_vole_ldpc X cb n R u_rand d_rand = Some (v, w, u, d) ->
  exists u2 d2, silver_vole_ldpc X cb n R u2 d2 = Some (v, w, u2, d2) /\
    word_pair d2 /\ all_words u2 /\
    ~ vole_correlation d2 (entry v j) (entry w j) (entry u2 j).
Proof.
  intros X cb n R u_rand d_rand v w u d j H. unfold silver_vole_ldpc in *.
  destruct (iknp_core X (Choice2 (map (fun b => [b]) cb)) 128 R) as [[[t q] s]|]; [|discriminate].
  cbn [bind] in *. injection H as <- <- <- <-.
  set (vj := entry (ldpc_expand X t n) j). set (wj := entry (ldpc_expand X q n) j).
  assert (word_pair (1, 0)%N) as W1 by (split; vm_compute; reflexivity).
  assert (forall c : bool, exists u2, all_words u2 /\ entry u2 j = if c then (1, 0)%N else (0, 0)%N) as Hc.
  { intros c. exists (repeat (if c then (1, 0)%N else (0, 0)%N) (S j)). split.
    - intros i. unfold entry. destruct (Nat.lt_ge_cases i (S j)) as [L|L].
      + rewrite nth_repeat_lt by exact L. destruct c; [exact W1|exact wp_0].
      + rewrite nth_overflow by (rewrite repeat_length; exact L). exact wp_0.
    - unfold entry. apply nth_repeat_lt. lia. }
  assert (vj = wj \/ vj <> wj) as D.
  { destruct vj as [a b], wj as [a' b']. destruct (N.eq_dec a a'); destruct (N.eq_dec b b'); subst; auto; right; congruence. }
  destruct D as [D|D].
  - destruct (Hc true) as (u2 & A & B). exists u2, (1, 0)%N. split; [reflexivity|]. split; [exact W1|].
    split; [exact A|]. intros (p & Wp & Pp & E). rewrite B in Pp. fold vj wj in E.
    apply (mul_single_unique _ _ _ W1 W1) in Pp.
    assert (p = (0, 0)%N) as ->.
    { rewrite <- D in E. apply (f_equal (xor_pair vj)) in E. rewrite xp_assoc, xp_nil, xp_0_l in E. congruence. }
    vm_compute in Pp. discriminate.
  - destruct (Hc false) as (u2 & A & B). exists u2, (1, 0)%N. split; [reflexivity|]. split; [exact W1|].
    split; [exact A|]. intros (p & Wp & Pp & E). rewrite B in Pp. fold vj wj in E. apply D.
    apply (mul_single_unique _ _ _ wp_0 W1) in Pp. change (join (gf128_mul_single (0, 0)%N (1, 0)%N)) with 0%N in Pp.
    assert (p = (0, 0)%N) as -> by (apply (join_inj _ _ Wp wp_0 Pp)).
    rewrite xp_0_r in E. symmetry. exact E.
Qed.
Print Assumptions C11_silver_ldpc_correlation_refuted.

(** C11 (refuted): and its v and w are not secret: seeds are pairs of 0/1 matrix entries, so
    every output block is a block of one of four public expansions. *)
Theorem C11_silver_ldpc_outputs_secret_refuted :
  forall X cb n R u_rand d_rand v w u d,
  env_ok X -> iknp_rand_ok R -> length cb = 128 -> Forall bit cb ->
  silver_vole_ldpc X cb n R u_rand d_rand = Some (v, w, u, d) ->
  forall x, In x v \/ In x w -> exists a b, bit a /\ bit b /\ In x (prg X (a, b) (n / 128 + 1)).
Proof.
  intros X cb n R u_rand d_rand v w u d OKX HR Lc Fc H. unfold silver_vole_ldpc in H. apply bind_Some in H.
  destruct H as ([[t q] s] & HI & H). injection H as <- <- <- <-.
  assert (choice_bits_ok (Choice2 (map (fun b => [b]) cb)) 128) as CO.
  { split; [rewrite map_length; exact Lc|]. split.
    - apply Forall_forall. intros r Hr. apply in_map_iff in Hr. destruct Hr as (b & <- & Hb).
      constructor; [|constructor]. rewrite Forall_forall in Fc. apply Fc, Hb.
    - left. apply Forall_forall. intros r Hr. apply in_map_iff in Hr. destruct Hr as (b & <- & _). reflexivity. }
  destruct (iknp_correct X OKX _ _ _ _ _ _ HR CO HI) as (Es & Lt & Lq & HW & HC).
  assert (forall m, length m = 128 -> (forall j, j < 128 -> Forall bit (row m j)) -> Forall (Forall bit) m) as FM.
  { intros m Lm Hm. apply Forall_forall. intros r Hr. apply (In_nth _ _ []) in Hr. destruct Hr as (i & Hi & <-).
    apply Hm. lia. }
  intros x [Hx|Hx]; (eapply ldpc_expand_public; [|exact Hx]); apply FM; try assumption; intros j Hj; apply (HW j Hj).
Qed.
Print Assumptions C11_silver_ldpc_outputs_secret_refuted.
Example C11_example_ldpc :
  exists r, silver_vole_ldpc env11 (tab 128 (fun i => N.of_nat (Nat.modulo i 2))) 4 rand11 [] (1, 0)%N = Some r.
Proof.
  unfold silver_vole_ldpc.
  destruct (iknp_succeeds env11 env11_ok (Choice2 (map (fun b => [b]) (tab 128 (fun i => N.of_nat (Nat.modulo i 2))))) 128
    rand11 grp11_exact rand11_ok) as (t & q & ->); [|exact rand11_generic|cbn [bind]; eauto].
  split; [reflexivity|]. split.
  - apply Forall_forall. intros r Hr. apply in_map_iff in Hr. destruct Hr as (b & <- & Hb).
    unfold tab in Hb. apply in_map_iff in Hb. destruct Hb as (i & <- & _).
    constructor; [|constructor]. pose proof (Nat.mod_upper_bound i 2 ltac:(lia)). unfold bit. lia.
  - left. apply Forall_forall. intros r Hr. apply in_map_iff in Hr. destruct Hr as (b & <- & _). reflexivity.
Qed.

(** C14: the sender's evaluation of an item at row i equals the receiver's output for row i
    when the items are equal; if the hash does not collide, exactly when the two items agree
    on every bit selected by the sender's secret s. *)
Theorem C14_sender_and_receiver_agree :
  forall X ys n R t s outs xs i, env_ok X ->
  iknp_rand_ok R -> length ys = n -> Forall (fun y => length y = 16) ys ->
  eval_oprf X ys n R = Some ((t, s), outs) -> i < n -> i < length xs ->
  row xs i = row ys i ->
  row (sender_eval_prf_batch X (t, s) xs) i = row outs i.
Proof.
  intros X ys n R t s outs xs i OKX HR Ly Fy H Hi Hx E.
  apply (oprf_agree X OKX ys n R t s outs xs i HR Ly Fy H Hi Hx (or_intror E)). rewrite E. reflexivity.
Qed.
Print Assumptions C14_sender_and_receiver_agree.

Theorem C14_agreement_iff_selected_bits_agree :
  forall X ys n R t s outs xs i, env_ok X ->
  (forall a b, sha X (le8 0x0CDF ++ a) = sha X (le8 0x0CDF ++ b) -> a = b) ->
  iknp_rand_ok R -> length ys = n -> Forall (fun y => length y = 16) ys ->
  eval_oprf X ys n R = Some ((t, s), outs) -> i < n -> i < length xs ->
  (row (sender_eval_prf_batch X (t, s) xs) i = row outs i <->
   forall k, k < 128 -> at1 s k = 1%N ->
     N.testbit (at1 (row xs i) (k / 8)) (N.of_nat (7 - k mod 8)) =
     N.testbit (at1 (row ys i) (k / 8)) (N.of_nat (7 - k mod 8))).
Proof.
  intros X ys n R t s outs xs i OKX INJ HR Ly Fy H Hi Hx.
  rewrite (oprf_agree X OKX ys n R t s outs xs i HR Ly Fy H Hi Hx (or_introl INJ)).
  assert (forall x k, k < 128 -> at1 (encode_item x) k = N.b2n (N.testbit (at1 x (k / 8)) (N.of_nat (7 - k mod 8)))) as EI
    by exact encode_item_at.
  split; intros HA k Hk E1; specialize (HA k Hk E1).
  - rewrite !EI in HA by exact Hk. destruct (N.testbit (at1 (row xs i) _) _), (N.testbit (at1 (row ys i) _) _); cbn in HA; congruence.
  - rewrite !EI by exact Hk. rewrite HA. reflexivity.
Qed.
Print Assumptions C14_agreement_iff_selected_bits_agree.

(** the batch evaluation answers every item, also more items than the key has rows *)
Theorem C14_one_answer_per_item : forall X key xs, length (sender_eval_prf_batch X key xs) = length xs.
Proof.
  intros X [t s] xs. unfold sender_eval_prf_batch. rewrite map_length, app_length, tab_length, repeat_length. lia.
Qed.
Print Assumptions C14_one_answer_per_item.

(** C112 (refuted): the single-item evaluation sender_eval_prf raises for every key and item. *)
Theorem C112_single_item_evaluation_refuted :
  forall X key x, sender_eval_prf X key x = None.
Proof. intros X [t s] x. reflexivity. Qed.
Print Assumptions C112_single_item_evaluation_refuted.

Definition ex_items : list (list N) := [tab 16 N.of_nat; tab 16 (fun i => N.of_nat (7 * i + 2))].
Example C14_example :
  exists t s outs, eval_oprf env11 ex_items 2 rand11 = Some ((t, s), outs) /\
    row (sender_eval_prf_batch env11 (t, s) ex_items) 1 = row outs 1 /\
    row (sender_eval_prf_batch env11 (t, s) (rev ex_items)) 1 <> row outs 1.
Proof.
  destruct (eval_oprf env11 ex_items 2 rand11) as [[[t s] outs]|] eqn:E; [|vm_compute in E; discriminate].
  exists t, s, outs. split; [reflexivity|]. vm_compute in E. injection E as <- <- <-.
  split; [vm_compute; reflexivity|vm_compute; discriminate].
Qed.

(** C146 (refuted): for every n >= weight >= 3 the draws 0,0,...,0 put all but the first
    position at index 1: only two distinct positions instead of weight. *)
Theorem C146_positions_distinct_refuted :
  forall n weight, 3 <= weight -> (Z.of_nat weight <= n)%Z ->
  let ps := noise_positions n (repeat 0%Z weight) [] in
  length ps = weight /\ ps = (0%Z :: repeat 1%Z (weight - 1)) /\ ~ NoDup ps.
Proof.
  intros n weight Hw Hn. cbv zeta. replace weight with (3 + (weight - 3)) by lia.
  rewrite positions_zero_all by lia. split; [cbn [length]; rewrite repeat_length; lia|].
  split; [do 2 f_equal; lia|]. intros ND. inversion ND as [|? ? _ ND1]; subst. cbn in ND1.
  inversion ND1 as [|? ? NI _]; subst. apply NI. left. reflexivity.
Qed.
Print Assumptions C146_positions_distinct_refuted.

(** C19: always the requested number of positions, all below n; distinct for
    weight at most 2.  Missing: distinctness for weight >= 3, which is false. *)
Theorem C19_positions_in_range :
  forall n raws, (Z.of_nat (length raws) <= n)%Z ->
  length (noise_positions n raws []) = length raws /\
  Forall (fun p => 0 <= p < n)%Z (noise_positions n raws []).
Proof.
  intros n raws H. split.
  - destruct (positions_app n raws []) as (l & -> & L). exact L.
  - apply positions_range; [exact H|constructor].
Qed.
Print Assumptions C19_positions_in_range.
Theorem C19_two_positions_distinct :
  forall n a b, (2 <= n)%Z -> NoDup (noise_positions n [a; b] []).
Proof. exact positions_two. Qed.
Print Assumptions C19_two_positions_distinct.
Example C19_example : noise_positions 100 [7; 3; 50]%Z [] = [7; 3; 52]%Z.
Proof. reflexivity. Qed.
