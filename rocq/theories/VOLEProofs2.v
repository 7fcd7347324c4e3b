From Coq Require Import List NArith ZArith Bool Lia.
From Verif Require Import MPCBase OTModel OTSpec OTProofs IKNPProofs GF128Model GF128Proofs GF128Field
  LDPCModel LDPCSpec LDPCProofs VOLEModel VOLEProofs.
Import ListNotations.
Local Open Scope nat_scope.

(* ------------------------------------------------------------ silent *)
Section S.
Variable X : cenv.
Hypothesis OKX : env_ok X.
Variable lib : bool.

Lemma scale_pick b w : bit b -> word_pair w -> scale b w = pick b w.
Proof.
  intros Hb [H1 H2]. unfold scale, pick, mask64. rewrite !N.land_ones.
  destruct Hb as [-> | ->]; cbn [N.eqb].
  - rewrite !N.mul_0_r. rewrite N.mod_0_l by discriminate. reflexivity.
  - rewrite !N.mul_1_r, !N.mod_small by assumption. destruct w; reflexivity.
Qed.
Lemma pick_xor b x y : pick b (xor_pair x y) = xor_pair (pick b x) (pick b y).
Proof. unfold pick. destruct (N.eqb b 0); [symmetry; apply xp_0_l|reflexivity]. Qed.
Lemma pick_wp b x : word_pair x -> word_pair (pick b x).
Proof. intros H. unfold pick. destruct (N.eqb b 0); [apply wp_0|exact H]. Qed.
Lemma pick_mul b x d : word_pair d ->
  pick b (field_mul_impl lib x d) = field_mul_impl lib (pick b x) d.
Proof. intros H. unfold pick. destruct (N.eqb b 0); [symmetry; apply mul_0_l, H|reflexivity]. Qed.
Lemma mul_big_l n g d : word_pair d -> (forall i, i < n -> word_pair (g i)) ->
  field_mul_impl lib (bigxor n g) d = bigxor n (fun i => field_mul_impl lib (g i) d).
Proof.
  intros Hd. induction n as [|n IH]; intros H; cbn [bigxor]; [apply mul_0_l, Hd|].
  rewrite mul_add_l, IH; auto. apply bigxor_wp. auto.
Qed.

(** w = v + u*delta at every index, all lists of one length *)
Definition correlated (d : N * N) (w v u : list (N * N)) : Prop :=
  length w = length v /\ length u = length v /\
  forall j, j < length v -> elem w j = xor_pair (elem v j) (field_mul_impl lib (elem u j) d).

Lemma correlated_app d w v u w' v' u' :
  correlated d w v u -> correlated d w' v' u' -> correlated d (w ++ w') (v ++ v') (u ++ u').
Proof.
  intros (L1 & L2 & H) (L1' & L2' & H'). split; [rewrite !app_length; congruence|].
  split; [rewrite !app_length; congruence|]. intros j Hj. rewrite app_length in Hj. unfold elem in *.
  destruct (Nat.lt_ge_cases j (length v)) as [L|L].
  - rewrite !app_nth1 by congruence. apply H, L.
  - rewrite !app_nth2 by lia. rewrite L1, L2. apply H'. lia.
Qed.

Lemma expand_chunk_elem base mask k len j : j < len -> (forall i, word_pair (elem base i)) ->
  elem (expand_chunk base mask k len) j =
  bigxor k (fun i => pick (at1 (flat_map block_bits (nth i mask [])) j) (elem base i)).
Proof.
  intros Hj Hb. unfold expand_chunk, elem at 1. rewrite tab_nth by exact Hj. rewrite fold_bigxor, xp_0_l.
  apply bigxor_ext. intros i Hi. apply scale_pick; [|apply Hb]. apply at1_bit, flat_map_Forall, block_bits_bits.
Qed.

Lemma expand_chunk_correlated d mask k len w v u : word_pair d ->
  (forall i, word_pair (elem w i)) -> (forall i, word_pair (elem v i)) -> (forall i, word_pair (elem u i)) ->
  (forall i, i < k -> elem w i = xor_pair (elem v i) (field_mul_impl lib (elem u i) d)) ->
  correlated d (expand_chunk w mask k len) (expand_chunk v mask k len) (expand_chunk u mask k len).
Proof.
  intros Hd Ww Wv Wu H. unfold correlated. unfold expand_chunk at 1 2 3 4 5. rewrite !tab_length.
  split; [reflexivity|]. split; [reflexivity|]. intros j Hj. rewrite !expand_chunk_elem by assumption.
  rewrite mul_big_l; [|exact Hd|intros; apply pick_wp, Wu].
  rewrite <- bigxor_xor. apply bigxor_ext. intros i Hi. rewrite (H i Hi), pick_xor, pick_mul by exact Hd. reflexivity.
Qed.

Lemma CHUNK_pos : 0 < CHUNK_SIZE. Proof. unfold CHUNK_SIZE. lia. Qed.
Lemma this_len_sum n m : list_sum (map (this_len n) (seq 0 m)) = Nat.min n (m * CHUNK_SIZE).
Proof.
  induction m as [|m IH]; [cbn; lia|]. rewrite seq_S, map_app, list_sum_app, IH. cbn [map list_sum].
  unfold this_len. cbn [Nat.add]. generalize CHUNK_SIZE. intros c. unfold list_sum. cbn [fold_right]. nia.
Qed.
Lemma num_chunks_enough n : n <= num_chunks n * CHUNK_SIZE.
Proof.
  unfold num_chunks. pose proof CHUNK_pos. generalize dependent CHUNK_SIZE. intros c Hc.
  pose proof (Nat.div_mod (n + c - 1) c). pose proof (Nat.mod_upper_bound (n + c - 1) c). nia.
Qed.
Lemma num_chunks_0 n : num_chunks n = 0 <-> n = 0.
Proof.
  pose proof CHUNK_pos. pose proof (num_chunks_enough n). split; [intros E; rewrite E in *; lia|].
  intros ->. unfold num_chunks. apply Nat.div_small. lia.
Qed.
Lemma chunk_length base seed k n i : length (chunk X base seed k n i) = this_len n i.
Proof. unfold chunk, expand_chunk. apply tab_length. Qed.
Lemma length_concat_map {A B} (f : A -> list B) (g : A -> nat) l :
  (forall a, length (f a) = g a) -> length (concat (map f l)) = list_sum (map g l).
Proof. intros H. induction l as [|a l IH]; [reflexivity|]. cbn [map concat]. rewrite app_length, H, IH. reflexivity. Qed.
Lemma run_expansion_length base seed k n : length (run_expansion X base seed k n) = n.
Proof.
  unfold run_expansion. rewrite (length_concat_map _ (this_len n)) by (intros; apply chunk_length).
  rewrite this_len_sum. pose proof (num_chunks_enough n). lia.
Qed.

Lemma run_expansion_correlated d seed k n w v u : word_pair d ->
  (forall i, word_pair (elem w i)) -> (forall i, word_pair (elem v i)) -> (forall i, word_pair (elem u i)) ->
  (forall i, i < k -> elem w i = xor_pair (elem v i) (field_mul_impl lib (elem u i) d)) ->
  correlated d (run_expansion X w seed k n) (run_expansion X v seed k n) (run_expansion X u seed k n).
Proof.
  intros Hd Ww Wv Wu H. unfold run_expansion. induction (seq 0 (num_chunks n)) as [|i l IH].
  - split; [reflexivity|]. split; [reflexivity|]. cbn. intros; lia.
  - cbn [map concat]. apply correlated_app; [|exact IH]. unfold chunk. apply expand_chunk_correlated; assumption.
Qed.

Lemma silent_correct u delta seed k n R v w u' d' :
  iknp_rand_ok R -> word_pair delta -> (forall j, word_pair (elem u j)) ->
  silent_vole X lib u delta seed k n R = Some (v, w, u', d') ->
  d' = delta /\ length v = n /\ length w = n /\ length u' = n /\
  forall j, j < n -> elem w j = xor_pair (elem v j) (field_mul_impl lib (elem u' j) delta).
Proof.
  intros HR Hd Hu H. unfold silent_vole in H. apply bind_Some in H. destruct H as ([[[vb wb] ub] db] & HV & H).
  destruct (Nat.eqb (num_chunks n) 0); [discriminate|]. injection H as <- <- <- <-.
  destruct (vole_correct X OKX lib _ _ _ _ _ _ _ _ HR Hd Hu HV) as (-> & -> & Lv & Lw & HW & HC).
  destruct (run_expansion_correlated delta seed k n wb vb u Hd) as (C1 & C2 & C3); try assumption.
  { intros i; apply HW. } { intros i; apply HW. }
  rewrite run_expansion_length in C3. rewrite !run_expansion_length. auto.
Qed.

Lemma nth_concat_blocks (f : nat -> list (N * N)) c m i o :
  (forall a, a <= i -> length (f a) = c) -> i < m -> o < c ->
  elem (concat (map f (seq 0 m))) (i * c + o) = elem (f i) o.
Proof.
  intros Hl Hi Ho. cut (forall st, (forall a, a <= i -> length (f (st + a)) = c) ->
    elem (concat (map f (seq st m))) (i * c + o) = elem (f (st + i)) o).
  { intros H. apply (H 0). exact Hl. }
  clear Hl. revert m Hi. induction i as [|i IH]; intros m Hi st Hl; (destruct m as [|m]; [lia|]); cbn [seq map concat]; unfold elem in *.
  - rewrite app_nth1 by (specialize (Hl 0 (le_n 0)); rewrite Nat.add_0_r in Hl; lia). rewrite Nat.add_0_r. reflexivity.
  - assert (length (f st) = c) as L0 by (specialize (Hl 0); rewrite Nat.add_0_r in Hl; apply Hl; lia).
    rewrite app_nth2 by (rewrite L0; cbn [Nat.mul]; lia). rewrite L0. replace (S i * c + o - c) with (i * c + o) by (cbn [Nat.mul]; lia).
    rewrite IH; [f_equal; f_equal; lia|lia|]. intros a Ha. replace (S st + a) with (st + S a) by lia. apply Hl. lia.
Qed.

Lemma expansion_repeats base seed k n i i' o :
  S i * CHUNK_SIZE <= n -> S i' * CHUNK_SIZE <= n -> o < CHUNK_SIZE ->
  elem (run_expansion X base seed k n) (i * CHUNK_SIZE + o) =
  elem (run_expansion X base seed k n) (i' * CHUNK_SIZE + o).
Proof.
  assert (forall i, S i * CHUNK_SIZE <= n -> forall a, a <= i -> this_len n a = CHUNK_SIZE) as TL.
  { intros x Hx a Ha. unfold this_len. revert Hx. generalize CHUNK_SIZE. intros c Hx. nia. }
  assert (forall i, S i * CHUNK_SIZE <= n -> i < num_chunks n) as NC.
  { intros x Hx. pose proof (num_chunks_enough n). pose proof CHUNK_pos. nia. }
  intros H1 H2 Ho. unfold run_expansion.
  rewrite (nth_concat_blocks _ CHUNK_SIZE) by (auto; intros a Ha; rewrite chunk_length; exact (TL i H1 a Ha)).
  rewrite (nth_concat_blocks _ CHUNK_SIZE) by (auto; intros a Ha; rewrite chunk_length; exact (TL i' H2 a Ha)).
  unfold chunk. rewrite (TL i H1 i (le_n i)), (TL i' H2 i' (le_n i')). reflexivity.
Qed.
End S.

(* ------------------------------------------------------------ Silver *)
Lemma join_0 : join (0, 0)%N = 0%N. Proof. reflexivity. Qed.
Lemma nth_map_join l i : nth i (map join l) 0%N = join (elem l i).
Proof. unfold elem. rewrite <- join_0. apply map_nth. Qed.

Section Sv.
Variable lib : bool.
Definition mulj (d : N * N) (x : N) : N := join (field_mul_impl lib (split128 x) d).

Lemma mul_wp a b : word_pair a -> word_pair b -> word_pair (field_mul_impl lib a b).
Proof.
  intros Ha Hb. unfold field_mul_impl. destruct lib.
  - apply split_word_pair, cpp_small; apply join_lt; auto.
  - apply mul_single_wp; auto.
Qed.
Lemma mulj_0 d : word_pair d -> mulj d 0 = 0%N.
Proof. intros Hd. unfold mulj. change (split128 0) with (0, 0)%N. rewrite mul_0_l by exact Hd. reflexivity. Qed.
Lemma split_xor x y : split128 (N.lxor x y) = xor_pair (split128 x) (split128 y).
Proof. unfold split128, xor_pair. cbn [fst snd]. f_equal; [apply lo64_lxor|apply N.shiftr_lxor]. Qed.
Lemma mulj_xor d x y : word_pair d -> small x -> small y -> mulj d (N.lxor x y) = N.lxor (mulj d x) (mulj d y).
Proof.
  intros Hd Hx Hy. unfold mulj. pose proof (split_word_pair _ Hx). pose proof (split_word_pair _ Hy).
  rewrite split_xor, mul_add_l by assumption. apply join_xor_pair; apply mul_wp; assumption.
Qed.
Lemma xor_all_small {A} (f : A -> N) l : (forall x, small (f x)) -> small (xor_all (map f l)).
Proof. intros H. induction l; cbn; [apply small_0|]. apply lxor_small; auto. Qed.

Lemma row_correlated d (w v u : list (N * N)) (g : nat -> nat) l : word_pair d ->
  (forall i, word_pair (elem v i)) -> (forall i, word_pair (elem u i)) ->
  (forall k, In k l -> elem w (g k) = xor_pair (elem v (g k)) (field_mul_impl lib (elem u (g k)) d)) ->
  xor_all (map (fun k => nth (g k) (map join w) 0%N) l) =
  N.lxor (xor_all (map (fun k => nth (g k) (map join v) 0%N) l))
         (mulj d (xor_all (map (fun k => nth (g k) (map join u) 0%N) l))).
Proof.
  intros Hd Wv Wu. induction l as [|k l IH]; intros H; cbn [map xor_all fold_right].
  - rewrite mulj_0 by exact Hd. reflexivity.
  - fold (xor_all (map (fun k => nth (g k) (map join w) 0%N) l)).
    fold (xor_all (map (fun k => nth (g k) (map join v) 0%N) l)).
    fold (xor_all (map (fun k => nth (g k) (map join u) 0%N) l)).
    rewrite IH by (intros; apply H; right; assumption).
    rewrite !nth_map_join, (H k (or_introl eq_refl)). rewrite join_xor_pair by (auto using mul_wp).
    rewrite mulj_xor; [|exact Hd|apply join_lt, Wu|apply xor_all_small; intros; rewrite nth_map_join; apply join_lt, Wu].
    unfold mulj at 2. rewrite split_join by apply Wu.
    rewrite !N.lxor_assoc. f_equal. rewrite <- !N.lxor_assoc. f_equal. apply N.lxor_comm.
Qed.
End Sv.

Lemma nth_xor_vecs a b i : length a = length b -> nth i (xor_vecs a b) 0%N = N.lxor (nth i a 0%N) (nth i b 0%N).
Proof. intros L. exact (xor_bytes_nth a b i L). Qed.

Lemma silver_value X lib u delta noise indices indptr k n R V W U d' :
  env_ok X -> iknp_rand_ok R -> word_pair delta -> (forall j, word_pair (elem u j)) ->
  length u = k -> csr_ok indices indptr n k -> length noise = n ->
  silver_vole X lib u delta noise indices indptr k n R = Some (V, W, U, d') ->
  d' = delta /\ length V = n /\ length W = n /\ length U = n /\
  forall j, j < n -> nth j W 0%N = N.lxor (N.lxor (nth j V 0%N) (mulj lib delta (nth j U 0%N))) (nth j noise 0%N).
Proof.
  intros OKX HR Hd Hu Lu HC Ln H. unfold silver_vole in H. apply bind_Some in H.
  destruct H as ([[[vb wb] ub] db] & HV & H).
  destruct (vole_correct X OKX lib _ _ _ _ _ _ _ _ HR Hd Hu HV) as (-> & -> & Lv & Lw & HW & HE).
  apply bind_Some in H. destruct H as (V0 & EV & H). apply bind_Some in H. destruct H as (W0 & EW & H).
  apply bind_Some in H. destruct H as (U0 & EU & H). injection H as <- <- <- <-.
  assert (forall b r, length b = k -> silver_encode b indices indptr n = Some r ->
     length r = n /\ forall j, j < n -> nth j r 0%N = xor_all (row_blocks (map join b) indices indptr j)) as ES.
  { intros b r Lb Er. destruct (encode_spec (map join b) indices indptr n) as (s & Hs & _ & Ls & Hn).
    - rewrite map_length, Lb. exact HC.
    - unfold silver_encode in Er. rewrite Hs in Er. injection Er as <-. auto. }
  destruct (ES _ _ Lv EV) as [LV EVj]. destruct (ES _ _ Lw EW) as [LW EWj]. destruct (ES _ _ Lu EU) as [LU EUj].
  split; [reflexivity|]. split; [exact LV|].
  split; [unfold xor_vecs; rewrite map_length, combine_length; lia|]. split; [exact LU|].
  intros j Hj. rewrite nth_xor_vecs by congruence. f_equal. rewrite EVj, EWj, EUj by exact Hj. unfold row_blocks.
  apply (row_correlated lib delta wb vb u (fun k => nth k indices 0)); [exact Hd|intros; apply HW|exact Hu|].
  intros x Hx. apply HE. destruct HC as (_ & H1 & H2). apply in_seq in Hx.
  apply H2, nth_In. specialize (H1 j Hj). lia.
Qed.

(* ------------------------------------------------------------ noise *)
Lemma positions_app n raws : forall acc, exists l, noise_positions n raws acc = acc ++ l /\ length l = length raws.
Proof.
  induction raws as [|r raws IH]; intros acc; cbn [noise_positions].
  - exists []. rewrite app_nil_r. auto.
  - match goal with |- context [noise_positions n raws ?a] => destruct (IH a) as (l & -> & L) end.
    exists ((r mod (n - Z.of_nat (length acc)) + Z.of_nat (length (filter (fun p => Z.leb p (r mod (n - Z.of_nat (length acc)))) acc)))%Z :: l).
    rewrite <- app_assoc. split; [reflexivity|]. cbn. lia.
Qed.
Lemma filter_length_le' {A} (f : A -> bool) l : length (filter f l) <= length l.
Proof. induction l; cbn; [lia|]. destruct (f a); cbn; lia. Qed.
Lemma positions_range n raws : forall acc,
  (Z.of_nat (length acc + length raws) <= n)%Z -> Forall (fun p => 0 <= p < n)%Z acc ->
  Forall (fun p => 0 <= p < n)%Z (noise_positions n raws acc).
Proof.
  induction raws as [|r raws IH]; intros acc HL HA; cbn [noise_positions]; [exact HA|].
  apply IH; [rewrite app_length; cbn [length] in *; lia|]. apply Forall_app. split; [exact HA|].
  constructor; [|constructor]. cbn [length] in HL.
  pose proof (Z.mod_pos_bound r (n - Z.of_nat (length acc))).
  pose proof (filter_length_le' (fun p => Z.leb p (r mod (n - Z.of_nat (length acc)))) acc). lia.
Qed.
Lemma positions_zero n k : forall m, (2 <= k)%nat ->
  noise_positions n (repeat 0%Z m) ((0 :: repeat 1 k)%Z) = (0 :: repeat 1 (k + m))%Z.
Proof.
  intros m. revert k. induction m as [|m IH]; intros k Hk; cbn [repeat noise_positions].
  - rewrite Nat.add_0_r. reflexivity.
  - rewrite Zmod_0_l. cbn [filter Z.leb Z.compare].
    assert (filter (fun p => Z.leb p 0) (repeat 1%Z k) = []) as ->.
    { clear. induction k; cbn; auto. }
    cbn [length Z.of_nat Z.add Pos.of_succ_nat app].
    replace (repeat 1%Z k ++ [1%Z]) with (repeat 1%Z (S k)).
    + rewrite IH by lia. do 2 f_equal. lia.
    + change [1%Z] with (repeat 1%Z 1). rewrite <- repeat_app. f_equal. lia.
Qed.
Lemma positions_zero_all n m : (3 <= n)%Z ->
  noise_positions n (repeat 0%Z (3 + m)) [] = (0 :: repeat 1 (2 + m))%Z.
Proof.
  intros Hn. cbn [Nat.add repeat noise_positions length filter app]. rewrite !Zmod_0_l.
  cbn [Z.of_nat Z.add filter Z.leb Z.compare length app Pos.of_succ_nat Pos.compare Pos.compare_cont].
  exact (positions_zero n 2 m (le_n 2)).
Qed.
Lemma positions_two n a b : (2 <= n)%Z -> NoDup (noise_positions n [a; b] []).
Proof.
  intros Hn. cbn [noise_positions length filter app]. rewrite Z.sub_0_r, Z.add_0_r.
  pose proof (Z.mod_pos_bound a n). pose proof (Z.mod_pos_bound b (n - 1)).
  change (Z.of_nat 1) with 1%Z.
  constructor; [|constructor; [|constructor]; intros []].
  intros [E|[]]. destruct (Z.leb (a mod n) (b mod (n - 1))) eqn:Lb; cbn in E.
  - apply Z.leb_le in Lb. lia.
  - apply Z.leb_gt in Lb. lia.
Qed.

(* ------------------------------------------------------------ silver_vole_ldpc *)
Lemma pairs_bits l : Forall bit l -> Forall (fun p => bit (fst p) /\ bit (snd p)) (pairs l).
Proof.
  cut (forall n l, length l <= n -> Forall bit l -> Forall (fun p => bit (fst p) /\ bit (snd p)) (pairs l)).
  { intros H. apply (H (length l)). lia. }
  clear l. induction n as [|n IH]; intros [|a [|b l]] L F; cbn [pairs]; try constructor; cbn in L; try lia.
  - inversion F as [|? ? Ha F1]; subst. inversion F1; subst. cbn. auto.
  - inversion F as [|? ? Ha F1]; subst. inversion F1; subst. apply IH; [lia|assumption].
Qed.
Lemma ldpc_expand_public X m n : Forall (Forall bit) m ->
  forall w, In w (ldpc_expand X m n) ->
  exists a b, bit a /\ bit b /\ In w (prg X (a, b) (n / 128 + 1)).
Proof.
  intros F w Hw. unfold ldpc_expand in Hw.
  assert (In w (flat_map (fun sd => prg X sd (n / 128 + 1)) (pairs (concat m)))) as H.
  { revert Hw. generalize (flat_map (fun sd => prg X sd (n / 128 + 1)) (pairs (concat m))). intros l.
    intros Hi. rewrite <- (firstn_skipn n l). apply in_or_app. left. exact Hi. }
  apply in_flat_map in H. destruct H as ([a b] & Hp & Hi).
  assert (Forall bit (concat m)) as Fc.
  { clear - F. induction F; cbn; [constructor|]. apply Forall_app. auto. }
  pose proof (pairs_bits _ Fc) as FP. rewrite Forall_forall in FP. destruct (FP _ Hp). cbn in *. eauto.
Qed.

(* ------------------------------------------------------------ OPRF *)
Lemma pack8_zero l : pack8 l = 0%N -> forall i, i < 8 -> nth i l 0%N = 0%N.
Proof.
  unfold pack8. cbn [seq map fold_left]. intros H i Hi.
  do 8 (destruct i as [|i]; [lia|]). lia.
Qed.
Lemma nth_firstn' (l : list N) n i : i < n -> nth i (firstn n l) 0%N = nth i l 0%N.
Proof.
  revert n l. induction i as [|i IH]; intros [|n] [|a l] H; try lia; try reflexivity.
  cbn [firstn nth]. apply IH. lia.
Qed.
Lemma nth_firstn_skipn (l : list N) g i : i < 8 -> nth i (firstn 8 (skipn g l)) 0%N = nth (g + i) l 0%N.
Proof.
  intros Hi. rewrite nth_firstn' by exact Hi. revert l. induction g as [|g IH]; intros l; [reflexivity|].
  destruct l as [|a l]; [cbn; destruct i; reflexivity|]. cbn [skipn Nat.add nth]. apply IH.
Qed.
Lemma packbits_zero l k : (forall i, nth i (packbits l) 0%N = 0%N) -> k < length l -> nth k l 0%N = 0%N.
Proof.
  intros H Hk. pose proof (Nat.div_mod k 8 ltac:(lia)) as D. pose proof (Nat.mod_upper_bound k 8 ltac:(lia)) as Mb.
  assert (k / 8 < (length l + 7) / 8) as B.
  { apply Nat.div_lt_upper_bound; [lia|]. pose proof (Nat.div_mod (length l + 7) 8 ltac:(lia)).
    pose proof (Nat.mod_upper_bound (length l + 7) 8 ltac:(lia)). lia. }
  specialize (H (k / 8)). unfold packbits in H. rewrite tab_nth in H by exact B.
  pose proof (pack8_zero _ H (k mod 8) Mb) as Z. rewrite nth_firstn_skipn in Z by exact Mb.
  rewrite <- D in Z. exact Z.
Qed.
Lemma packbits_inj a b : length a = length b -> Forall bit a -> Forall bit b -> packbits a = packbits b -> a = b.
Proof.
  intros L Fa Fb H. apply (row_eq _ _ (length b) L eq_refl). intros i Hi.
  assert (nth i (xor_bytes a b) 0%N = 0%N) as Z.
  { apply packbits_zero; [|rewrite xor_bytes_length; lia]. intros j. rewrite packbits_xor, H by assumption.
    change (nth j (xor_bytes (packbits b) (packbits b)) 0%N) with (at1 (xor_bytes (packbits b) (packbits b)) j).
    rewrite xor_bytes_nth by reflexivity. apply N.lxor_nilpotent. }
  change (at1 (xor_bytes a b) i = 0%N) in Z. rewrite xor_bytes_nth in Z by exact L. apply N.lxor_eq, Z.
Qed.

Lemma unpackbits_bits l : Forall bit (unpackbits l).
Proof. apply flat_map_Forall. intros w. cbn. repeat (constructor; [apply bitN_bit|]). constructor. Qed.
Lemma unpackbits_length l : length (unpackbits l) = 8 * length l.
Proof. induction l as [|a l IH]; [reflexivity|]. unfold unpackbits in *. cbn [flat_map length]. rewrite app_length, IH, map_length, seq_length. lia. Qed.
Lemma encode_item_length x : length x = 16 -> length (encode_item x) = 128.
Proof. intros L. unfold encode_item. rewrite firstn_length, unpackbits_length, L. reflexivity. Qed.
Lemma encode_item_bits x : Forall bit (encode_item x).
Proof. apply Forall_firstn, unpackbits_bits. Qed.

Section OPRF.
Variable X : cenv.
Hypothesis OKX : env_ok X.

Definition masked (s : list N) (x : list N) : list N :=
  tab K (fun k => if N.eqb (at1 (encode_item x) k) 0 then 0%N else at1 s k).

Lemma oprf_rows ys n R t s outs :
  iknp_rand_ok R -> length ys = n -> Forall (fun y => length y = 16) ys ->
  eval_oprf X ys n R = Some ((t, s), outs) ->
  s = ik_s R /\ length t = n /\ length outs = n /\
  forall i, i < n -> exists q, length (row t i) = 128 /\ Forall bit (row t i) /\ length q = 128 /\ Forall bit q /\
    row outs i = vec_hash_row X 0x0CDF (packbits q) /\
    forall k, k < 128 -> at1 (row t i) k = N.lxor (at1 q k) (N.land (at1 (encode_item (row ys i)) k) (at1 s k)).
Proof.
  intros HR Ly Fy H. unfold eval_oprf in H. apply bind_Some in H. destruct H as ([[t' q] s'] & HI & H).
  injection H as <- <- <-.
  assert (choice_bits_ok (Choice2 (map encode_item ys)) n) as CO.
  { split; [rewrite map_length; exact Ly|]. split.
    - apply Forall_forall. intros r Hr. apply in_map_iff in Hr. destruct Hr as (y & <- & _). apply encode_item_bits.
    - right. apply Forall_forall. intros r Hr. apply in_map_iff in Hr. destruct Hr as (y & <- & Hy).
      rewrite Forall_forall in Fy. apply encode_item_length, Fy, Hy. }
  destruct (iknp_correct X OKX _ _ _ _ _ _ HR CO HI) as (Es & Lt & Lq & HW & HC).
  split; [exact Es|]. split; [exact Lt|]. split; [rewrite map_length; exact Lq|].
  intros i Hi. exists (row q i). destruct (HW i Hi) as (W1 & W2 & W3 & W4).
  split; [exact W1|]. split; [exact W3|]. split; [exact W2|]. split; [exact W4|]. split.
  - unfold row at 1. rewrite nth_indep with (d' := vec_hash_row X 0x0CDF (packbits [])) by (rewrite map_length; lia).
    rewrite (map_nth (fun r => vec_hash_row X 0x0CDF (packbits r)) q [] i). reflexivity.
  - intros k Hk. specialize (HC i k Hi Hk). unfold at2 in HC. rewrite HC. do 2 f_equal. cbn [choice_bit].
    rewrite nth_indep with (d' := encode_item []) by (rewrite map_length; lia). rewrite map_nth.
    change (nth i ys []) with (row ys i).
    assert (length (encode_item (row ys i)) = 128) as Le.
    { apply encode_item_length. apply (row_length Fy). lia. }
    destruct (encode_item (row ys i)) as [|a [|b l]]; try discriminate. reflexivity.
Qed.

Lemma sender_batch_row t s xs i : i < length xs -> i < length t ->
  row (sender_eval_prf_batch X (t, s) xs) i =
  vec_hash_row X 0x0CDF (packbits (xor_bytes (row t i) (masked s (row xs i)))).
Proof.
  intros Hx Ht. unfold sender_eval_prf_batch, row at 1. rewrite map_app, app_nth1 by (rewrite map_length, tab_length; lia).
  rewrite nth_indep with (d' := vec_hash_row X 0x0CDF []) by (rewrite map_length, tab_length; lia).
  rewrite map_nth, tab_nth by lia. reflexivity.
Qed.

Lemma masked_at s x k : Forall bit s -> k < 128 ->
  at1 (masked s x) k = N.land (at1 (encode_item x) k) (at1 s k).
Proof.
  intros Fs Hk. unfold at1 at 1, masked. rewrite tab_nth by exact Hk.
  destruct (at1_bit (encode_item x) k (encode_item_bits x)) as [-> | ->]; cbn [N.eqb].
  - rewrite N.land_0_l. reflexivity.
  - destruct (at1_bit s k Fs) as [-> | ->]; reflexivity.
Qed.

Lemma oprf_agree ys n R t s outs xs i :
  iknp_rand_ok R -> length ys = n -> Forall (fun y => length y = 16) ys ->
  eval_oprf X ys n R = Some ((t, s), outs) -> i < n -> i < length xs ->
  (forall a b, sha X (le8 0x0CDF ++ a) = sha X (le8 0x0CDF ++ b) -> a = b) \/ row xs i = row ys i ->
  (row (sender_eval_prf_batch X (t, s) xs) i = row outs i <->
   forall k, k < 128 -> at1 s k = 1%N -> at1 (encode_item (row xs i)) k = at1 (encode_item (row ys i)) k).
Proof.
  intros HR Ly Fy H Hi Hx HH. destruct (oprf_rows _ _ _ _ _ _ HR Ly Fy H) as (Es & Lt & Lo & HQ).
  destruct (HQ i Hi) as (q & L1 & B1 & L2 & B2 & Eo & Eq).
  assert (Forall bit s) as Fs by (rewrite Es; apply HR).
  assert (length (masked s (row xs i)) = 128) as Lm by apply tab_length.
  rewrite sender_batch_row, Eo by lia.
  assert (Forall bit (xor_bytes (row t i) (masked s (row xs i)))) as Bx.
  { apply Forall_forall. intros z Hz. unfold xor_bytes in Hz. apply in_map_iff in Hz. destruct Hz as ([a b] & <- & Hab).
    cbn. apply bit_lxor.
    - rewrite Forall_forall in B1. apply B1. exact (in_combine_l _ _ _ _ Hab).
    - apply in_combine_r in Hab. unfold masked, tab in Hab. apply in_map_iff in Hab. destruct Hab as (k & <- & _).
      destruct (N.eqb _ 0); [left; reflexivity|apply at1_bit, Fs]. }
  assert ((forall k, k < 128 -> at1 s k = 1%N -> at1 (encode_item (row xs i)) k = at1 (encode_item (row ys i)) k)
          -> xor_bytes (row t i) (masked s (row xs i)) = q) as Fwd.
  { intros HA. apply (row_eq _ _ 128); [rewrite xor_bytes_length; lia|exact L2|]. intros k Hk.
    rewrite xor_bytes_nth by lia. rewrite (Eq k Hk), masked_at by assumption.
    destruct (at1_bit s k Fs) as [E|E].
    - rewrite E, !N.land_0_r, !N.lxor_0_r. reflexivity.
    - rewrite (HA k Hk E), N.lxor_assoc, N.lxor_nilpotent, N.lxor_0_r. reflexivity. }
  split; [|intros HA; rewrite (Fwd HA); reflexivity].
  intros HE k Hk E1. destruct HH as [INJ|Exy]; [|rewrite Exy; reflexivity].
  unfold vec_hash_row in HE. change (N.eqb 0x0CDF 0) with false in HE. cbv iota in HE. apply INJ in HE.
  apply packbits_inj in HE; [|rewrite xor_bytes_length; lia|exact Bx|exact B2].
  pose proof (f_equal (fun l => at1 l k) HE) as Ek. cbv beta in Ek. rewrite xor_bytes_nth in Ek by lia.
  rewrite (Eq k Hk), masked_at, E1 in Ek by assumption.
  destruct (at1_bit _ k (encode_item_bits (row xs i))) as [A|A]; destruct (at1_bit _ k (encode_item_bits (row ys i))) as [B|B];
    rewrite A, B in *; try reflexivity; exfalso; cbn in Ek; destruct (at1_bit q k B2) as [Q|Q]; rewrite Q in Ek; discriminate.
Qed.
End OPRF.

Lemma nth_repeat_lt {A} (a d : A) n i : i < n -> nth i (repeat a n) d = a.
Proof. revert i. induction n as [|n IH]; intros [|i] H; cbn; try lia; auto. apply IH. lia. Qed.

Lemma run_expansion_words X base seed k n j : (forall i, word_pair (elem base i)) ->
  word_pair (elem (run_expansion X base seed k n) j).
Proof.
  intros Hb. unfold elem.
  destruct (Nat.lt_ge_cases j (length (run_expansion X base seed k n))) as [L|L]; [|rewrite nth_overflow by exact L; apply wp_0].
  pose proof (nth_In _ (0, 0)%N L) as Hi. unfold run_expansion in *. revert Hi.
  generalize (nth j (concat (map (chunk X base seed k n) (seq 0 (num_chunks n)))) (0, 0)%N). intros x Hi.
  apply in_concat in Hi. destruct Hi as (c & Hc & Hx). apply in_map_iff in Hc. destruct Hc as (i & <- & _).
  unfold chunk in Hx. apply (In_nth _ _ (0, 0)%N) in Hx. destruct Hx as (o & Ho & <-).
  unfold expand_chunk in Ho. rewrite tab_length in Ho.
  match goal with |- word_pair (nth o ?l _) => change (word_pair (elem l o)) end.
  rewrite expand_chunk_elem by assumption. apply bigxor_wp. intros. apply pick_wp, Hb.
Qed.

Lemma silver_small X lib u delta noise indices indptr k n R V W U d' :
  env_ok X -> iknp_rand_ok R -> word_pair delta -> (forall j, word_pair (elem u j)) ->
  length u = k -> csr_ok indices indptr n k ->
  silver_vole X lib u delta noise indices indptr k n R = Some (V, W, U, d') ->
  forall j, small (nth j U 0%N).
Proof.
  intros OKX HR Hd Hu Lu HC H. unfold silver_vole in H. apply bind_Some in H.
  destruct H as ([[[vb wb] ub] db] & HV & H).
  destruct (vole_correct X OKX lib _ _ _ _ _ _ _ _ HR Hd Hu HV) as (-> & -> & _ & _ & _ & _).
  apply bind_Some in H. destruct H as (V0 & EV & H). apply bind_Some in H. destruct H as (W0 & EW & H).
  apply bind_Some in H. destruct H as (U0 & EU & H). injection H as _ _ <- _.
  destruct (encode_spec (map join u) indices indptr n) as (s & Hs & _ & Ls & Hn).
  { rewrite map_length, Lu. exact HC. }
  unfold silver_encode in EU. rewrite Hs in EU. injection EU as <-. intros j.
  destruct (Nat.lt_ge_cases j n) as [L|L].
  - rewrite (Hn j L). unfold row_blocks. apply xor_all_small. intros x. rewrite nth_map_join. apply join_lt, Hu.
  - rewrite nth_overflow by lia. apply small_0.
Qed.

Lemma nth_flat_map8 (f : N -> list N) l g i : (forall a, length (f a) = 8) -> i < 8 ->
  g < length l -> nth (8 * g + i) (flat_map f l) 0%N = nth i (f (nth g l 0%N)) 0%N.
Proof.
  intros Hf Hi. revert l. induction g as [|g IH]; intros [|a l] Hg; cbn in Hg; try lia; cbn [flat_map nth].
  - rewrite Nat.mul_0_r, Nat.add_0_l, app_nth1 by (rewrite Hf; exact Hi). reflexivity.
  - rewrite app_nth2 by (rewrite Hf; lia). rewrite Hf. replace (8 * S g + i - 8) with (8 * g + i) by lia. apply IH. lia.
Qed.
Lemma encode_item_at x k : k < 128 ->
  at1 (encode_item x) k = N.b2n (N.testbit (at1 x (k / 8)) (N.of_nat (7 - k mod 8))).
Proof.
  intros Hk. unfold encode_item, at1. rewrite nth_firstn' by exact Hk.
  pose proof (Nat.div_mod k 8 ltac:(lia)) as D. pose proof (Nat.mod_upper_bound k 8 ltac:(lia)) as Mb.
  destruct (Nat.lt_ge_cases (k / 8) (length x)) as [L|L].
  - rewrite D at 1. unfold unpackbits. rewrite nth_flat_map8; [|intros; rewrite map_length, seq_length; reflexivity|exact Mb|exact L].
    change (map (fun i => bitN (nth (k / 8) x 0%N) (7 - i)) (seq 0 8)) with (tab 8 (fun i => bitN (nth (k / 8) x 0%N) (7 - i))).
    rewrite tab_nth by exact Mb. reflexivity.
  - rewrite nth_overflow by (rewrite unpackbits_length; lia).
    rewrite (nth_overflow x) by exact L. rewrite N.bits_0. reflexivity.
Qed.
