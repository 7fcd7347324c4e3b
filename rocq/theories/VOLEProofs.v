From Coq Require Import List NArith ZArith Bool Lia.
From Verif Require Import MPCBase OTModel OTSpec OTProofs IKNPProofs GF128Model GF128Proofs GF128Field VOLEModel.
Import ListNotations.
Local Open Scope nat_scope.

(* ---------------------------------------------------- xor of pairs *)
Lemma xp_assoc a b c : xor_pair a (xor_pair b c) = xor_pair (xor_pair a b) c.
Proof. unfold xor_pair. cbn. rewrite !N.lxor_assoc. reflexivity. Qed.
Lemma xp_comm a b : xor_pair a b = xor_pair b a.
Proof. unfold xor_pair. f_equal; apply N.lxor_comm. Qed.
Lemma xp_0_l a : xor_pair (0, 0)%N a = a.
Proof. destruct a. unfold xor_pair. cbn. reflexivity. Qed.
Lemma xp_0_r a : xor_pair a (0, 0)%N = a.
Proof. rewrite xp_comm. apply xp_0_l. Qed.
Lemma xp_nil a : xor_pair a a = (0, 0)%N.
Proof. unfold xor_pair. rewrite !N.lxor_nilpotent. reflexivity. Qed.
Lemma wp_0 : word_pair (0, 0)%N.
Proof. split; vm_compute; reflexivity. Qed.

Fixpoint bigxor (n : nat) (f : nat -> N * N) : N * N :=
  match n with O => (0, 0)%N | S m => xor_pair (bigxor m f) (f m) end.

Lemma bigxor_ext n f g : (forall i, i < n -> f i = g i) -> bigxor n f = bigxor n g.
Proof. induction n as [|n IH]; intros H; cbn; [reflexivity|]. rewrite IH, H by (intros; auto). reflexivity. Qed.
Lemma bigxor_xor n f g : bigxor n (fun i => xor_pair (f i) (g i)) = xor_pair (bigxor n f) (bigxor n g).
Proof.
  induction n as [|n IH]; cbn [bigxor]; [reflexivity|]. rewrite IH.
  unfold xor_pair; cbn; f_equal; rewrite !N.lxor_assoc; f_equal; rewrite <- !N.lxor_assoc; f_equal; apply N.lxor_comm.
Qed.
Lemma bigxor_wp n f : (forall i, i < n -> word_pair (f i)) -> word_pair (bigxor n f).
Proof. induction n as [|n IH]; intros H; cbn; [apply wp_0|]. apply xor_pair_wp; auto. Qed.

Lemma fold_bigxor n f acc : fold_left (fun a i => xor_pair a (f i)) (seq 0 n) acc = xor_pair acc (bigxor n f).
Proof.
  induction n as [|n IH]; cbn [bigxor].
  - cbn. symmetry. apply xp_0_r.
  - rewrite seq_S, fold_left_app, IH. cbn. symmetry. apply xp_assoc.
Qed.
Lemma xor_from_first_big k f : 0 < k -> xor_from_first k f = bigxor k f.
Proof.
  intros H. destruct k as [|k]; [lia|]. unfold xor_from_first.
  pose proof (fold_bigxor (S k) f (0, 0)%N) as F. rewrite xp_0_l in F. rewrite <- F.
  cbn [seq fold_left]. rewrite xp_0_l. replace (S k - 1) with k by lia. reflexivity.
Qed.

(** multiplication kernels are additive in the second argument *)
Lemma mul_add_r lib a b c : word_pair a -> word_pair b -> word_pair c ->
  field_mul_impl lib a (xor_pair b c) = xor_pair (field_mul_impl lib a b) (field_mul_impl lib a c).
Proof.
  intros Ha Hb Hc. destruct lib.
  - apply native_bilinear; assumption.
  - unfold field_mul_impl. apply mul_single_ring; assumption.
Qed.
Lemma mul_comm lib a b : word_pair a -> word_pair b -> field_mul_impl lib a b = field_mul_impl lib b a.
Proof.
  intros Ha Hb. destruct lib.
  - apply (native_bilinear a b b); assumption.
  - unfold field_mul_impl. apply mul_single_ring; assumption.
Qed.
Lemma mul_add_l lib a b c : word_pair a -> word_pair b -> word_pair c ->
  field_mul_impl lib (xor_pair a b) c = xor_pair (field_mul_impl lib a c) (field_mul_impl lib b c).
Proof.
  intros Ha Hb Hc. rewrite mul_comm by (auto using xor_pair_wp). rewrite mul_add_r by assumption.
  rewrite (mul_comm lib c a), (mul_comm lib c b) by assumption. reflexivity.
Qed.
Lemma mul_0_r lib a : word_pair a -> field_mul_impl lib a (0, 0)%N = (0, 0)%N.
Proof.
  intros Ha. pose proof (mul_add_r lib a _ _ Ha wp_0 wp_0) as H. rewrite xp_nil, xp_nil in H. exact H.
Qed.
Lemma mul_0_l lib a : word_pair a -> field_mul_impl lib (0, 0)%N a = (0, 0)%N.
Proof. intros Ha. rewrite mul_comm by (auto using wp_0). apply mul_0_r, Ha. Qed.
Lemma mul_big lib a n g : word_pair a -> (forall i, i < n -> word_pair (g i)) ->
  field_mul_impl lib a (bigxor n g) = bigxor n (fun i => field_mul_impl lib a (g i)).
Proof.
  intros Ha. induction n as [|n IH]; intros H; cbn [bigxor]; [apply mul_0_r, Ha|].
  rewrite mul_add_r, IH; auto. apply bigxor_wp. auto.
Qed.

(* ---------------------------------------------------- decomposition of delta *)
Definition pick (b : N) (w : N * N) : N * N := if N.eqb b 0 then (0, 0)%N else w.

Lemma nth_block_bits w i : i < 128 ->
  at1 (block_bits w) i = if Nat.ltb i 64 then bitN (fst w) i else bitN (snd w) (i - 64).
Proof.
  intros Hi. unfold at1, block_bits. destruct (Nat.ltb_spec i 64) as [L|L].
  - rewrite app_nth1 by (rewrite tab_length; exact L). apply tab_nth, L.
  - rewrite app_nth2 by (rewrite tab_length; exact L). rewrite tab_length. apply tab_nth. lia.
Qed.

Lemma mod_pow2_S x m : (x mod 2 ^ N.succ m = N.lxor (x mod 2 ^ m) (if N.testbit x m then N.shiftl 1 m else 0))%N.
Proof.
  apply N.bits_inj. intros k. rewrite N.lxor_spec.
  destruct (N.lt_ge_cases k (N.succ m)) as [L|L].
  - rewrite N.mod_pow2_bits_low by exact L.
    destruct (N.eq_dec k m) as [->|Ne].
    + rewrite N.mod_pow2_bits_high by lia. destruct (N.testbit x m) eqn:T.
      * rewrite N.shiftl_spec_high', N.sub_diag by lia. reflexivity.
      * rewrite N.bits_0. reflexivity.
    + rewrite N.mod_pow2_bits_low by lia. destruct (N.testbit x m).
      * rewrite N.shiftl_spec_low by lia. rewrite xorb_false_r. reflexivity.
      * rewrite N.bits_0, xorb_false_r. reflexivity.
  - rewrite !N.mod_pow2_bits_high by lia. destruct (N.testbit x m).
    + rewrite N.shiftl_spec_high' by lia.
      destruct (k - m)%N eqn:E; [lia|]. destruct p; reflexivity.
    + rewrite N.bits_0. reflexivity.
Qed.

Lemma pick_bitN x i w : pick (bitN x i) w = if N.testbit x (N.of_nat i) then w else (0, 0)%N.
Proof. unfold pick, bitN. destruct (N.testbit x (N.of_nat i)); reflexivity. Qed.

Lemma delta_lo d m : m <= 64 ->
  bigxor m (fun i => pick (at1 (block_bits d) i) (power_of_x i)) = ((fst d) mod 2 ^ N.of_nat m, 0)%N.
Proof.
  induction m as [|m IH]; intros Hm; cbn [bigxor].
  - rewrite N.mod_1_r. reflexivity.
  - rewrite IH by lia. rewrite nth_block_bits by lia. unfold power_of_x.
    assert (Nat.ltb m 64 = true) as -> by (apply Nat.ltb_lt; lia).
    rewrite pick_bitN, Nat2N.inj_succ, mod_pow2_S. destruct (N.testbit (fst d) (N.of_nat m)); reflexivity.
Qed.
Lemma delta_hi d m : m <= 64 -> (fst d < 2 ^ 64)%N ->
  bigxor (64 + m) (fun i => pick (at1 (block_bits d) i) (power_of_x i)) = (fst d, (snd d) mod 2 ^ N.of_nat m)%N.
Proof.
  intros Hm Hd. induction m as [|m IH].
  - rewrite Nat.add_0_r, delta_lo by lia. change (N.of_nat 64) with 64%N.
    rewrite N.mod_small by exact Hd. change (N.of_nat 0) with 0%N. rewrite N.pow_0_r, N.mod_1_r. reflexivity.
  - replace (64 + S m) with (S (64 + m)) by lia. cbn [bigxor]. rewrite IH by lia. rewrite nth_block_bits by lia.
    unfold power_of_x. assert (Nat.ltb (64 + m) 64 = false) as -> by (apply Nat.ltb_ge; lia).
    replace (64 + m - 64) with m by lia.
    rewrite pick_bitN, Nat2N.inj_succ, mod_pow2_S. unfold xor_pair.
    destruct (N.testbit (snd d) (N.of_nat m)); cbn [fst snd]; rewrite !N.lxor_0_r; reflexivity.
Qed.
Lemma delta_decompose d : word_pair d ->
  bigxor 128 (fun i => pick (at1 (block_bits d) i) (power_of_x i)) = d.
Proof.
  intros [H1 H2]. change 128 with (64 + 64). rewrite delta_hi by (auto; lia).
  change (N.of_nat 64) with 64%N. rewrite N.mod_small by exact H2. destruct d; reflexivity.
Qed.
Lemma power_wp i : i < 128 -> word_pair (power_of_x i).
Proof.
  intros Hi. unfold power_of_x. destruct (Nat.ltb_spec i 64) as [L|L]; split; cbn [fst snd];
    rewrite ?N.shiftl_1_l; first [apply N.pow_lt_mono_r; lia | apply N.neq_0_lt_0, N.pow_nonzero; discriminate].
Qed.

(* ---------------------------------------------------- packbits *)
Lemma pack8_xor a b : length a = length b -> Forall bit a -> Forall bit b ->
  pack8 (xor_bytes a b) = N.lxor (pack8 a) (pack8 b).
Proof.
  intros L Fa Fb. unfold pack8.
  assert (forall i, nth i (xor_bytes a b) 0%N = N.lxor (nth i a 0%N) (nth i b 0%N)) as Hx.
  { intros i. apply (xor_bytes_nth a b i L). }
  cbn [seq map fold_left]. rewrite !Hx.
  pose proof (fun i => at1_bit a i Fa) as Ba. pose proof (fun i => at1_bit b i Fb) as Bb. unfold at1 in Ba, Bb.
  assert (forall x y p q, bit p -> bit q ->
    (2 * N.lxor x y + N.lxor p q = N.lxor (2 * x + p) (2 * y + q))%N) as St.
  { intros x y p q Hp Hq. destruct Hp as [->| ->], Hq as [->| ->]; destruct x, y; cbn; try reflexivity;
      destruct (Pos.lxor p p0); reflexivity. }
  rewrite <- !St by auto. reflexivity.
Qed.

Lemma firstn_xor n : forall a b, firstn n (xor_bytes a b) = xor_bytes (firstn n a) (firstn n b).
Proof.
  induction n as [|n IH]; intros [|x a] [|y b]; cbn; try reflexivity.
  f_equal. apply IH.
Qed.
Lemma skipn_xor n : forall a b, length a = length b -> skipn n (xor_bytes a b) = xor_bytes (skipn n a) (skipn n b).
Proof.
  induction n as [|n IH]; intros [|x a] [|y b] L; cbn; try reflexivity; try discriminate.
  apply IH. cbn in L. lia.
Qed.
Lemma Forall_skipn {A} (P : A -> Prop) n l : Forall P l -> Forall P (skipn n l).
Proof. revert l. induction n as [|n IH]; intros [|a l] H; cbn; auto. inversion H; auto. Qed.

Lemma xor_bytes_tab n f g : xor_bytes (tab n f) (tab n g) = tab n (fun i => N.lxor (f i) (g i)).
Proof.
  apply nth_ext with (d := 0%N) (d' := 0%N); [rewrite xor_bytes_length, !tab_length; lia|].
  intros i Hi. rewrite xor_bytes_length, !tab_length, Nat.min_id in Hi.
  change (nth i (xor_bytes (tab n f) (tab n g)) 0%N) with (at1 (xor_bytes (tab n f) (tab n g)) i).
  rewrite xor_bytes_nth by (rewrite !tab_length; reflexivity). unfold at1. rewrite !tab_nth by exact Hi. reflexivity.
Qed.

Lemma packbits_xor a b : length a = length b -> Forall bit a -> Forall bit b ->
  packbits (xor_bytes a b) = xor_bytes (packbits a) (packbits b).
Proof.
  intros L Fa Fb. unfold packbits. rewrite xor_bytes_length, L, Nat.min_id, xor_bytes_tab.
  apply tab_ext. intros i Hi. rewrite skipn_xor, firstn_xor by exact L.
  apply pack8_xor; [rewrite !firstn_length, !skipn_length; lia|apply Forall_firstn, Forall_skipn; assumption..].
Qed.

(* ---------------------------------------------------- Gilboa *)
Section G.
Variable X : cenv.
Hypothesis OKX : env_ok X.
Variable lib : bool.

Lemma prg_wp s n j : word_pair (elem (prg X s n) j).
Proof.
  unfold elem. destruct (e_prg X OKX s n) as [L F].
  destruct (Nat.lt_ge_cases j (length (prg X s n))) as [H|H].
  - rewrite Forall_forall in F. apply F. apply nth_In, H.
  - rewrite nth_overflow by exact H. apply wp_0.
Qed.

Lemma block_bits_length w : length (block_bits w) = 128.
Proof. unfold block_bits. rewrite app_length, !tab_length. reflexivity. Qed.

Lemma delta_choice_ok d : choice_bits_ok (delta_choice d) 128.
Proof.
  unfold delta_choice, choice_bits_ok. rewrite map_length, block_bits_length. split; [reflexivity|]. split.
  - apply Forall_forall. intros r Hr. apply in_map_iff in Hr. destruct Hr as (b & <- & Hb).
    constructor; [|constructor]. pose proof (block_bits_bits d) as F. rewrite Forall_forall in F. apply F, Hb.
  - left. apply Forall_forall. intros r Hr. apply in_map_iff in Hr. destruct Hr as (b & <- & _). reflexivity.
Qed.
Lemma delta_choice_bit d i k : i < 128 -> choice_bit (delta_choice d) i k = at1 (block_bits d) i.
Proof.
  intros Hi. unfold delta_choice, choice_bit.
  rewrite nth_indep with (d' := [0%N]) by (rewrite map_length, block_bits_length; exact Hi).
  rewrite (map_nth (fun b : N => [b]) (block_bits d) 0%N i). reflexivity.
Qed.

Lemma vole_correct u delta n R v w u' d' :
  iknp_rand_ok R -> word_pair delta -> (forall j, word_pair (elem u j)) ->
  vole X lib u delta n R = Some (v, w, u', d') ->
  u' = u /\ d' = delta /\ length v = n /\ length w = n /\
  (forall j, word_pair (elem v j) /\ word_pair (elem w j)) /\
  forall j, j < n -> elem w j = xor_pair (elem v j) (field_mul_impl lib (elem u j) delta).
Proof.
  intros HR Hd Hu H. unfold vole in H. apply bind_Some in H. destruct H as ([[t q] s] & HI & H).
  destruct (negb (Nat.eqb (length u) n)); [discriminate|]. cbn [sender_round] in H.
  unfold sender_round in H. injection H as <- <- <- <-.
  destruct (iknp_correct X OKX _ _ _ _ _ _ HR (delta_choice_ok delta) HI) as (Es & Lt & Lq & HW & HC).
  split; [reflexivity|]. split; [reflexivity|]. unfold recv_round. rewrite !tab_length. split; [reflexivity|]. split; [reflexivity|].
  set (v0 := fun i => prg X (seed_view (packbits (row t i))) n).
  set (v1 := fun i => prg X (seed_view (xor_bytes (packbits (row t i)) (packbits s))) n).
  assert (forall j, j < n ->
    elem (tab n (fun j0 => xor_from_first 128 (fun i => xor_pair (elem (prg X (seed_view (packbits (row q i))) n) j0)
      (if N.eqb (at1 (block_bits delta) i) 0 then (0, 0)%N
       else elem (nth i (tab 128 (fun i0 => tab n (fun j1 =>
         xor_pair (xor_pair (elem (v0 i0) j1) (elem (v1 i0) j1)) (field_mul_impl lib (elem u j1) (power_of_x i0))))) []) j0)))) j
    = xor_pair (bigxor 128 (fun i => elem (v0 i) j)) (field_mul_impl lib (elem u j) delta)) as Main.
  { intros j Hj. unfold elem at 1. rewrite tab_nth by exact Hj. rewrite xor_from_first_big by lia.
    assert (field_mul_impl lib (elem u j) delta = bigxor 128 (fun i =>
      field_mul_impl lib (elem u j) (pick (at1 (block_bits delta) i) (power_of_x i)))) as Ed.
    { rewrite <- mul_big; [rewrite delta_decompose by exact Hd; reflexivity|apply Hu|].
      intros i Hi. unfold pick. destruct (N.eqb _ 0); [apply wp_0|apply power_wp, Hi]. }
    rewrite Ed, <- bigxor_xor. apply bigxor_ext. intros i Hi.
    destruct (HW i Hi) as (W1 & W2 & W3 & W4).
    assert (length s = 128) as Lss by (rewrite Es; apply HR).
    assert (Forall bit s) as Fs by (rewrite Es; apply HR).
    rewrite tab_nth by exact Hi.
    assert (forall g, elem (tab n g) j = g j) as ET by (intros g; unfold elem; apply tab_nth, Hj).
    rewrite ET. unfold pick. destruct (at1_bit (block_bits delta) i (block_bits_bits delta)) as [Eb|Eb]; rewrite Eb; cbn [N.eqb].
    - rewrite xp_0_r, mul_0_r, xp_0_r by apply Hu. unfold v0. do 4 f_equal.
      apply (row_eq _ _ 128 W2 W1). intros k Hk. specialize (HC i k Hi Hk). unfold at2 in HC. rewrite HC.
      rewrite delta_choice_bit, Eb, N.land_0_l, N.lxor_0_r by exact Hi. reflexivity.
    - assert (packbits (row q i) = xor_bytes (packbits (row t i)) (packbits s)) as Eq.
      { rewrite <- packbits_xor by (auto; lia). f_equal. apply (row_eq _ _ 128); [exact W2|rewrite xor_bytes_length; lia|].
        intros k Hk. rewrite xor_bytes_nth by lia. specialize (HC i k Hi Hk). unfold at2 in HC. rewrite HC.
        rewrite delta_choice_bit, Eb by exact Hi.
        replace (N.land 1 (at1 s k)) with (at1 s k) by (destruct (at1_bit s k Fs) as [-> | ->]; reflexivity).
        rewrite N.lxor_assoc, N.lxor_nilpotent, N.lxor_0_r. reflexivity. }
      rewrite Eq. fold (v1 i).
      rewrite (xp_comm (elem (v0 i) j) (elem (v1 i) j)), !xp_assoc, xp_nil, xp_0_l. reflexivity. }
  assert (forall j, j < n -> elem (tab n (fun j0 => xor_from_first 128 (fun i => elem (v0 i) j0))) j
                             = bigxor 128 (fun i => elem (v0 i) j)) as MV.
  { intros j Hj. unfold elem at 1. rewrite tab_nth by exact Hj. apply xor_from_first_big. lia. }
  assert (forall k j, n <= j -> elem (tab n k) j = (0, 0)%N) as Out.
  { intros k j Hj. unfold elem. apply nth_overflow. rewrite tab_length. exact Hj. }
  assert (forall j, word_pair (field_mul_impl lib (elem u j) delta)) as WM.
  { intros j. unfold field_mul_impl. destruct lib.
    - apply split_word_pair, cpp_small; apply join_lt; auto.
    - apply mul_single_wp; auto. }
  split.
  - intros j. destruct (Nat.lt_ge_cases j n) as [L|L].
    + rewrite MV by exact L. split; [apply bigxor_wp; intros; apply prg_wp|]. refine (eq_ind_r word_pair _ (Main j L)).
      apply xor_pair_wp; [apply bigxor_wp; intros; apply prg_wp|apply WM].
    + split; rewrite Out by exact L; apply wp_0.
  - intros j Hj. rewrite MV by exact Hj. exact (Main j Hj).
Qed.
End G.
