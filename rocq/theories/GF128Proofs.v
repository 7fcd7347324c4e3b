(** Correctness of the Python GF(2^128) kernel. *)
From Coq Require Import NArith Lia Ring List.
From Verif Require Import GF128Spec GF128Model GF128Poly.
Import ListNotations.
Local Open Scope N_scope.

(** ** words *)
Lemma land_mask64_lt x : N.land x mask64 < 2 ^ 64.
Proof. unfold mask64. rewrite N.land_ones. apply N.mod_lt. vm_compute. discriminate. Qed.

Lemma land_mask64_id x : x < 2 ^ 64 -> N.land x mask64 = x.
Proof. intros H. unfold mask64. rewrite N.land_ones. apply N.mod_small. exact H. Qed.

Lemma lo_hi_lxor x : N.lxor (N.land x mask64) (N.shiftl (N.shiftr x 64) 64) = x.
Proof.
  apply N.bits_inj. intros n. unfold mask64.
  rewrite N.lxor_spec, N.land_spec.
  destruct (N.ltb_spec n 64) as [H|H].
  - rewrite N.ones_spec_low by exact H. rewrite N.shiftl_spec_low by exact H.
    rewrite Bool.andb_true_r, Bool.xorb_false_r. reflexivity.
  - rewrite N.ones_spec_high by exact H. rewrite N.shiftl_spec_high' by exact H.
    rewrite N.shiftr_spec' . replace (n - 64 + 64) with n by lia.
    rewrite Bool.andb_false_r, Bool.xorb_false_l. reflexivity.
Qed.

Lemma shiftr64_lt x : x < 2 ^ 128 -> N.shiftr x 64 < 2 ^ 64.
Proof.
  intros H. rewrite N.shiftr_div_pow2. apply N.div_lt_upper_bound.
  - vm_compute. discriminate.
  - change (2 ^ 64 * 2 ^ 64) with (2 ^ 128). exact H.
Qed.

Lemma join_lxor w : word_pair w -> join w = N.lxor (fst w) (N.shiftl (snd w) 64).
Proof.
  intros [H1 _]. unfold join. apply N.bits_inj. intros n.
  rewrite N.lor_spec, N.lxor_spec.
  destruct (N.ltb_spec n 64) as [H|H].
  - rewrite N.shiftl_spec_low by exact H. rewrite Bool.orb_false_r, Bool.xorb_false_r. reflexivity.
  - assert (E : N.testbit (fst w) n = false).
    { destruct (N.eq_dec (fst w) 0) as [->|Hz]; [apply N.bits_0|].
      apply N.bits_above_log2. apply lt_pow2_log2 in H1; [lia|exact Hz]. }
    rewrite E. destruct (N.testbit (N.shiftl (snd w) 64) n); reflexivity.
Qed.

Lemma join_pmul w : word_pair w -> join w = N.lxor (fst w) (pmul (2 ^ 64) (snd w)).
Proof. intros H. rewrite join_lxor by exact H. rewrite shiftl_pmul. reflexivity. Qed.

Lemma shiftl64_lt x : x < 2 ^ 64 -> N.shiftl x 64 < 2 ^ 128.
Proof.
  intros H. rewrite N.shiftl_mul_pow2. change (2 ^ 128) with (2 ^ 64 * 2 ^ 64).
  apply N.mul_lt_mono_pos_r; [vm_compute; reflexivity|exact H].
Qed.

Lemma lt64_128 x : x < 2 ^ 64 -> x < 2 ^ 128.
Proof. intros H. eapply N.lt_trans; [exact H|]. vm_compute. reflexivity. Qed.

Lemma join_lt w : word_pair w -> join w < 2 ^ 128.
Proof.
  intros [H1 H2]. rewrite join_lxor by (split; assumption).
  apply lxor_lt_pow2; [apply lt64_128; exact H1|apply shiftl64_lt; exact H2].
Qed.

Lemma split_word_pair x : x < 2 ^ 128 -> word_pair (split128 x).
Proof. intros H. split; cbn [split128 fst snd]; [apply land_mask64_lt|apply shiftr64_lt; exact H]. Qed.

Lemma join_split x : x < 2 ^ 128 -> join (split128 x) = x.
Proof.
  intros H. rewrite join_lxor by (apply split_word_pair; exact H).
  cbn [split128 fst snd]. apply lo_hi_lxor.
Qed.

Lemma split_join w : word_pair w -> split128 (join w) = w.
Proof.
  intros [H1 H2]. destruct w as [l h]. cbn [fst snd] in *. unfold split128.
  rewrite join_lxor by (split; assumption). cbn [fst snd]. f_equal.
  - apply N.bits_inj. intros n. rewrite N.land_spec, N.lxor_spec. unfold mask64.
    destruct (N.ltb_spec n 64) as [H|H].
    + rewrite N.ones_spec_low by exact H. rewrite N.shiftl_spec_low by exact H.
      rewrite Bool.andb_true_r, Bool.xorb_false_r. reflexivity.
    + rewrite N.ones_spec_high by exact H. rewrite Bool.andb_false_r. symmetry.
      destruct (N.eq_dec l 0) as [->|Hz]; [apply N.bits_0|].
      apply N.bits_above_log2. apply lt_pow2_log2 in H1; [lia|exact Hz].
  - rewrite N.shiftr_lxor, N.shiftr_shiftl_l by lia. rewrite N.sub_diag, N.shiftl_0_r.
    rewrite (N.shiftr_div_pow2 l), N.div_small by exact H1. apply N.lxor_0_l.
Qed.

(** ** 64x64 carry-less product *)
Definition loop_inv (a b : N) (k : nat) (acc : N * N) : Prop :=
  fst acc < 2 ^ 64 /\ snd acc < 2 ^ 64 /\
  N.lxor (fst acc) (N.shiftl (snd acc) 64) = pmul (N.land b (N.ones (N.of_nat k))) a.

Lemma land_ones_succ b k :
  N.land b (N.ones (N.of_nat (S k))) =
  N.lxor (N.land b (N.ones (N.of_nat k))) (if N.testbit b (N.of_nat k) then 2 ^ N.of_nat k else 0).
Proof.
  apply N.bits_inj. intros n.
  rewrite N.land_spec, N.lxor_spec, N.land_spec.
  destruct (N.ltb_spec n (N.of_nat k)) as [H|H].
  - rewrite !N.ones_spec_low by lia. rewrite Bool.andb_true_r.
    destruct (N.testbit b (N.of_nat k)).
    + rewrite N.pow2_bits_false by lia. rewrite Bool.xorb_false_r. reflexivity.
    + rewrite N.bits_0, Bool.xorb_false_r. reflexivity.
  - rewrite (N.ones_spec_high (N.of_nat k)) by exact H.
    rewrite Bool.andb_false_r, Bool.xorb_false_l.
    destruct (N.eq_dec n (N.of_nat k)) as [->|Hne].
    + rewrite N.ones_spec_low by lia. rewrite Bool.andb_true_r.
      destruct (N.testbit b (N.of_nat k)); [rewrite N.pow2_bits_true; reflexivity|rewrite N.bits_0; reflexivity].
    + rewrite N.ones_spec_high by lia. rewrite Bool.andb_false_r.
      destruct (N.testbit b (N.of_nat k)); [rewrite N.pow2_bits_false by lia; reflexivity|rewrite N.bits_0; reflexivity].
Qed.

Lemma shifted_hi_eq a i : a < 2 ^ 64 -> i < 64 ->
  (if 0 <? i then N.shiftr a (64 - i) else 0) = N.shiftr (N.shiftl a i) 64.
Proof.
  intros Ha Hi. destruct (N.ltb_spec 0 i) as [H|H].
  - rewrite N.shiftr_shiftl_r by lia. reflexivity.
  - replace i with 0 by lia. rewrite N.shiftl_0_r, N.shiftr_div_pow2. symmetry.
    apply N.div_small. exact Ha.
Qed.

Lemma clmul64_step_inv a b k acc : a < 2 ^ 64 -> (k < 64)%nat ->
  loop_inv a b k acc -> loop_inv a b (S k) (clmul64_step a b acc (N.of_nat k)).
Proof.
  intros Ha Hk [H1 [H2 H3]]. destruct acc as [l h]. cbn [fst snd] in *.
  unfold clmul64_step. unfold loop_inv. rewrite land_ones_succ.
  destruct (N.testbit b (N.of_nat k)); cbn [fst snd].
  - rewrite shifted_hi_eq by (try exact Ha; lia).
    assert (Hs : N.shiftl a (N.of_nat k) < 2 ^ 128).
    { rewrite N.shiftl_mul_pow2. change (2 ^ 128) with (2 ^ 64 * 2 ^ 64).
      apply N.mul_lt_mono; [exact Ha|]. apply N.pow_lt_mono_r; lia. }
    split; [|split].
    + apply lxor_lt_pow2; [exact H1|apply land_mask64_lt].
    + apply lxor_lt_pow2; [exact H2|apply shiftr64_lt; exact Hs].
    + rewrite N.shiftl_lxor, lxor4, H3, lo_hi_lxor, pmul_lxor_l, pmul_pow2_l. reflexivity.
  - rewrite N.lxor_0_r. split; [exact H1|split; [exact H2|exact H3]].
Qed.

Lemma rangeN_S n : rangeN (S n) = rangeN n ++ [N.of_nat n].
Proof. unfold rangeN. rewrite seq_S, map_app. reflexivity. Qed.

Lemma clmul64_loop_inv a b k : a < 2 ^ 64 -> (k <= 64)%nat ->
  loop_inv a b k (fold_left (clmul64_step a b) (rangeN k) (0, 0)).
Proof.
  intros Ha. induction k as [|k IH]; intros Hk.
  - cbn. split; [|split]; [reflexivity|reflexivity|]. rewrite N.land_0_r. reflexivity.
  - rewrite rangeN_S, fold_left_app. cbn [fold_left].
    apply clmul64_step_inv; [exact Ha|lia|]. apply IH. lia.
Qed.

Lemma clmul64_correct a b lo hi : a < 2 ^ 64 -> b < 2 ^ 64 -> gf128_clmul64 a b = (lo, hi) ->
  lo < 2 ^ 64 /\ hi < 2 ^ 64 /\ N.lxor lo (pmul (2 ^ 64) hi) = pmul a b.
Proof.
  intros Ha Hb E. pose proof (clmul64_loop_inv a b 64 Ha (le_n 64)) as [H1 [H2 H3]].
  unfold gf128_clmul64 in E. rewrite E in *. cbn [fst snd] in *.
  split; [exact H1|split; [exact H2|]].
  rewrite shiftl_pmul in H3. rewrite H3, pmul_comm. f_equal.
  change (N.ones (N.of_nat 64)) with mask64. apply land_mask64_id. exact Hb.
Qed.

(** ** reduction and the product *)
Lemma gf_poly_split : gf_poly = N.lxor (pmul (2 ^ 64) (2 ^ 64)) GF128_POLYNOMIAL.
Proof. vm_compute. reflexivity. Qed.

Lemma poly_lt64 : GF128_POLYNOMIAL < 2 ^ 64.
Proof. vm_compute. reflexivity. Qed.

Lemma lxor_move a b c : N.lxor a b = c -> a = N.lxor c b.
Proof. intros <-. rewrite N.lxor_assoc, N.lxor_nilpotent, N.lxor_0_r. reflexivity. Qed.

Lemma reduce_correct r0 r1 r2 r3 lo hi :
  r0 < 2 ^ 64 -> r1 < 2 ^ 64 -> r2 < 2 ^ 64 -> r3 < 2 ^ 64 ->
  gf128_reduce r0 r1 r2 r3 = (lo, hi) ->
  lo < 2 ^ 64 /\ hi < 2 ^ 64 /\
  exists q, N.lxor (N.lxor (N.lxor r0 (pmul (2 ^ 64) r1))
                           (N.lxor (pmul (pmul (2 ^ 64) (2 ^ 64)) r2)
                                   (pmul (pmul (2 ^ 64) (pmul (2 ^ 64) (2 ^ 64))) r3)))
                   (N.lxor lo (pmul (2 ^ 64) hi)) = pmul q gf_poly.
Proof.
  intros L0 L1 L2 L3. unfold gf128_reduce.
  destruct (gf128_clmul64 r3 GF128_POLYNOMIAL) as [q3l q3h] eqn:E3.
  apply clmul64_correct in E3; [|exact L3|exact poly_lt64]. destruct E3 as [B1 [B2 E3]].
  assert (L2' : N.lxor r2 q3h < 2 ^ 64) by (apply lxor_lt_pow2; assumption).
  destruct (gf128_clmul64 (N.lxor r2 q3h) GF128_POLYNOMIAL) as [q2l q2h] eqn:E2.
  apply clmul64_correct in E2; [|exact L2'|exact poly_lt64]. destruct E2 as [B3 [B4 E2]].
  intros E. injection E as E4 E5. subst lo hi.
  split; [apply lxor_lt_pow2; assumption|].
  split; [apply lxor_lt_pow2; [apply lxor_lt_pow2; assumption|assumption]|].
  exists (N.lxor (pmul (2 ^ 64) r3) (N.lxor r2 q3h)).
  rewrite gf_poly_split.
  apply lxor_move in E2. apply lxor_move in E3.
  generalize dependent (2 ^ 64). intros X. intros. subst q2l q3l. ring.
Qed.

Lemma gf128_mul_single_correct a b : word_pair a -> word_pair b ->
  word_pair (gf128_mul_single a b) /\
  is_product (join a) (join b) (join (gf128_mul_single a b)).
Proof.
  intros Ha Hb. destruct a as [al ah], b as [bl bh].
  pose proof Ha as [Ha1 Ha2]. pose proof Hb as [Hb1 Hb2]. cbn [fst snd] in *.
  unfold gf128_mul_single, gf128_clmul128.
  destruct (gf128_clmul64 al bl) as [t0l t0h] eqn:E0.
  destruct (gf128_clmul64 ah bh) as [t1l t1h] eqn:E1.
  destruct (gf128_clmul64 al bh) as [t2l t2h] eqn:E2.
  destruct (gf128_clmul64 ah bl) as [t3l t3h] eqn:E3.
  apply clmul64_correct in E0; [|assumption|assumption]. destruct E0 as [A1 [A2 E0]].
  apply clmul64_correct in E1; [|assumption|assumption]. destruct E1 as [A3 [A4 E1]].
  apply clmul64_correct in E2; [|assumption|assumption]. destruct E2 as [A5 [A6 E2]].
  apply clmul64_correct in E3; [|assumption|assumption]. destruct E3 as [A7 [A8 E3]].
  match goal with |- context[gf128_reduce ?x ?y ?z ?w] =>
    destruct (gf128_reduce x y z w) as [rl rh] eqn:ER end.
  apply reduce_correct in ER;
    [|assumption|repeat apply lxor_lt_pow2; assumption|repeat apply lxor_lt_pow2; assumption|assumption].
  destruct ER as [B1 [B2 [q ER]]].
  rewrite !land_mask64_id by assumption.
  assert (W : word_pair (rl, rh)) by (split; assumption).
  split; [exact W|]. split; [apply join_lt; exact W|].
  exists q. rewrite <- ER. rewrite !join_pmul by assumption. cbn [fst snd].
  apply lxor_move in E0. apply lxor_move in E1. apply lxor_move in E2. apply lxor_move in E3.
  clear ER W Ha Hb Ha1 Ha2 Hb1 Hb2 A1 A2 A3 A4 A5 A6 A7 A8 B1 B2.
  generalize dependent (2 ^ 64). intros X E0 E1 E2 E3. subst t0l t1l t2l t3l. ring.
Qed.
