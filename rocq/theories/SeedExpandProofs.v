From Coq Require Import NArith List Arith Lia Btauto Bool.
From Verif Require Import AESRound SeedExpandModel SeedExpandSpec.
Import ListNotations.
Local Open Scope N_scope.

Lemma all_bytes : forall (P : N -> bool), forallb P (map N.of_nat (seq 0 256)) = true -> forall a, a < 256 -> P a = true.
Proof.
  intros P H a Ha. rewrite forallb_forall in H. apply H. apply in_map_iff. exists (N.to_nat a). split; [apply N2Nat.id|]. apply in_seq. lia.
Qed.
Lemma xtime_byte : forall a, a < 256 -> xtime a < 256.
Proof. intros a Ha. apply N.ltb_lt. apply (all_bytes (fun a => xtime a <? 256)); [vm_compute; reflexivity|exact Ha]. Qed.
Lemma xtime_lxor : forall a b, a < 256 -> b < 256 -> xtime (N.lxor a b) = N.lxor (xtime a) (xtime b).
Proof.
  intros a b Ha Hb. apply N.eqb_eq.
  assert (H : forallb (fun a => forallb (fun b => xtime (N.lxor a b) =? N.lxor (xtime a) (xtime b)) (map N.of_nat (seq 0 256))) (map N.of_nat (seq 0 256)) = true) by (vm_compute; reflexivity).
  apply (all_bytes (fun b => xtime (N.lxor a b) =? N.lxor (xtime a) (xtime b))); [|exact Hb].
  apply (all_bytes (fun a => forallb (fun b => xtime (N.lxor a b) =? N.lxor (xtime a) (xtime b)) (map N.of_nat (seq 0 256)))); [exact H|exact Ha].
Qed.
Lemma lt_bits : forall a n, a < 2 ^ n <-> forall k, n <= k -> N.testbit a k = false.
Proof.
  intros a n. split.
  - intros H k Hk. destruct (N.eq_dec a 0) as [->|Hz]; [apply N.bits_0|]. apply N.bits_above_log2. apply N.log2_lt_pow2 in H; lia.
  - intros H. destruct (N.eq_dec a 0) as [->|Hz]; [apply N.neq_0_lt_0; apply N.pow_nonzero; discriminate|].
    apply N.log2_lt_pow2; [lia|]. apply N.nle_gt. intros Hle. specialize (H _ Hle). rewrite N.bit_log2 in H by exact Hz. discriminate.
Qed.
Lemma lxor_bound : forall a b n, a < 2 ^ n -> b < 2 ^ n -> N.lxor a b < 2 ^ n.
Proof. intros a b n Ha Hb. rewrite lt_bits in *. intros k Hk. rewrite N.lxor_spec, Ha, Hb by exact Hk. reflexivity. Qed.
Lemma lxor_byte : forall a b, a < 256 -> b < 256 -> N.lxor a b < 256.
Proof. intros a b Ha Hb. change 256 with (2 ^ 8) in *. apply lxor_bound; assumption. Qed.
Lemma byte_at_byte : forall x i, byte_at x i < 256.
Proof. intros x i. unfold byte_at. change 255 with (N.ones 8). rewrite N.land_ones. apply N.mod_upper_bound. discriminate. Qed.
Lemma sub_byte_byte : forall b, sub_byte b < 256.
Proof.
  intros b. unfold sub_byte. assert (H : Forall (fun x => x < 256) sbox) by (repeat constructor).
  destruct (Nat.lt_ge_cases (N.to_nat b) (length sbox)) as [Hl|Hl]; [|rewrite nth_overflow by exact Hl; reflexivity].
  rewrite Forall_forall in H. apply H. apply nth_In. exact Hl.
Qed.
Lemma inv_sub_sub : forall b, b < 256 -> inv_sub (sub_byte b) = b.
Proof. intros b Hb. apply N.eqb_eq. apply (all_bytes (fun b => inv_sub (sub_byte b) =? b)); [vm_compute; reflexivity|exact Hb]. Qed.

Lemma fold_testbit : forall (f : nat -> N) l k,
  N.testbit (fold_right (fun i acc => N.lor (N.shiftl (f i) (8 * N.of_nat i)) acc) 0 l) k =
  existsb (fun i => (8 * N.of_nat i <=? k) && N.testbit (f i) (k - 8 * N.of_nat i)) l.
Proof.
  intros f l k. induction l as [|i l IH]; [apply N.bits_0|]. cbn [fold_right existsb]. rewrite N.lor_spec, IH. f_equal.
  destruct (N.leb_spec (8 * N.of_nat i) k) as [H|H]; [rewrite N.shiftl_spec_high' by exact H; reflexivity|].
  rewrite N.shiftl_spec_low by exact H. reflexivity.
Qed.
Lemma pack_testbit : forall f i t, (forall i, f i < 256) -> (i < 16)%nat -> t < 8 -> N.testbit (pack f) (8 * N.of_nat i + t) = N.testbit (f i) t.
Proof.
  intros f i t Hf Hi Ht. unfold pack. rewrite fold_testbit.
  destruct (N.testbit (f i) t) eqn:E.
  - apply existsb_exists. exists i. split; [apply in_seq; lia|]. replace (8 * N.of_nat i + t - 8 * N.of_nat i) with t by lia. rewrite E.
    rewrite andb_true_r. apply N.leb_le. lia.
  - apply Bool.not_true_is_false. intros H. apply existsb_exists in H as [j [Hj H]]. apply andb_prop in H as [H1 H2]. apply N.leb_le in H1.
    assert (j = i).
    { destruct (N.lt_ge_cases (8 * N.of_nat i + t - 8 * N.of_nat j) 8) as [Hlt|Hge]; [lia|].
      specialize (Hf j). change 256 with (2 ^ 8) in Hf. rewrite lt_bits in Hf. rewrite (Hf _ Hge) in H2. discriminate. }
    subst j. replace (8 * N.of_nat i + t - 8 * N.of_nat i) with t in H2 by lia. congruence.
Qed.
Lemma byte_pack : forall f i, (forall i, f i < 256) -> (i < 16)%nat -> byte_at (pack f) i = f i.
Proof.
  intros f i Hf Hi. apply N.bits_inj. intros t. unfold byte_at. change 255 with (N.ones 8). rewrite N.land_spec, N.shiftr_spec' .
  destruct (N.lt_ge_cases t 8) as [Ht|Ht].
  - rewrite N.ones_spec_low by exact Ht. rewrite andb_true_r, N.add_comm. apply pack_testbit; assumption.
  - rewrite N.ones_spec_high by exact Ht. rewrite andb_false_r. specialize (Hf i). change 256 with (2 ^ 8) in Hf. rewrite lt_bits in Hf. symmetry. apply Hf. exact Ht.
Qed.
Lemma pack_bound : forall f, (forall i, f i < 256) -> pack f < 2 ^ 128.
Proof.
  intros f Hf. apply lt_bits. intros k Hk. unfold pack. rewrite fold_testbit. apply Bool.not_true_is_false. intros H.
  apply existsb_exists in H as [j [Hj H]]. apply in_seq in Hj. apply andb_prop in H as [H1 H2]. apply N.leb_le in H1.
  specialize (Hf j). change 256 with (2 ^ 8) in Hf. rewrite lt_bits in Hf. rewrite Hf in H2 by lia. discriminate.
Qed.
Lemma pack_bytes : forall x, x < 2 ^ 128 -> pack (byte_at x) = x.
Proof.
  intros x Hx. apply N.bits_inj. intros k. destruct (N.lt_ge_cases k 128) as [Hk|Hk].
  - pose proof (N.div_mod k 8) as Hd. pose proof (N.mod_upper_bound k 8) as Hm.
    assert (Hq : k / 8 < 16) by (apply N.div_lt_upper_bound; lia).
    replace k with (8 * N.of_nat (N.to_nat (k / 8)) + k mod 8) by (rewrite N2Nat.id; lia).
    rewrite pack_testbit; [|apply byte_at_byte|lia|lia].
    unfold byte_at. change 255 with (N.ones 8). rewrite N.land_spec, N.shiftr_spec', N.ones_spec_low by lia. rewrite andb_true_r. f_equal. lia.
  - assert (Hp : pack (byte_at x) < 2 ^ 128) by (apply pack_bound, byte_at_byte). rewrite lt_bits in Hp, Hx. rewrite Hp, Hx by exact Hk. reflexivity.
Qed.
Lemma pack_ext : forall f g, (forall i, (i < 16)%nat -> f i = g i) -> pack f = pack g.
Proof.
  intros f g H. unfold pack. assert (Hg : forall l, (forall i, In i l -> (i < 16)%nat) ->
    fold_right (fun i acc => N.lor (N.shiftl (f i) (8 * N.of_nat i)) acc) 0 l = fold_right (fun i acc => N.lor (N.shiftl (g i) (8 * N.of_nat i)) acc) 0 l).
  { induction l as [|i l IH]; intros Hl; [reflexivity|]. cbn [fold_right]. rewrite IH by (intros; apply Hl; right; assumption). rewrite H by (apply Hl; left; reflexivity). reflexivity. }
  apply Hg. intros i Hi. apply in_seq in Hi. lia.
Qed.

(** inverse of MixColumns on one column *)
Lemma unmix_column : forall a0 a1 a2 a3, a0 < 256 -> a1 < 256 -> a2 < 256 -> a3 < 256 ->
  let m p q r s := N.lxor (N.lxor (xtime p) (N.lxor (xtime q) q)) (N.lxor r s) in
  N.lxor (N.lxor (by14 (m a0 a1 a2 a3)) (by11 (m a1 a2 a3 a0))) (N.lxor (by13 (m a2 a3 a0 a1)) (by9 (m a3 a0 a1 a2))) = a0.
Proof.
  intros a0 a1 a2 a3 H0 H1 H2 H3 m. unfold m, by14, by11, by13, by9, x8, x4, x2.
  repeat rewrite xtime_lxor by (repeat first [apply lxor_byte|apply xtime_byte|assumption]).
  apply N.bits_inj. intros k. rewrite !N.lxor_spec.
  repeat match goal with |- context [N.testbit ?x k] => generalize (N.testbit x k); intro end. btauto.
Qed.

Lemma shifted_byte : forall x i, shifted x i < 256.
Proof. intros. apply sub_byte_byte. Qed.
Lemma mixed_byte : forall x i, mixed x i < 256.
Proof. intros. unfold mixed. repeat first [apply lxor_byte|apply xtime_byte|apply shifted_byte]. Qed.

Ltac each i H tac :=
  do 16 (destruct i as [|i]; [tac|]); exfalso; lia.

Lemma unmixed_mixed : forall x i, (i < 16)%nat -> unmixed (pack (mixed x)) i = shifted x i.
Proof.
  intros x i Hi. unfold unmixed. cbv zeta.
  assert (Hb : forall k, (k < 16)%nat -> byte_at (pack (mixed x)) k = mixed x k) by (intros; apply byte_pack; [apply mixed_byte|assumption]).
  assert (Hlt : forall k, (4 * (i / 4) + (i mod 4 + k) mod 4 < 16)%nat).
  { intros k. assert (i / 4 < 4)%nat by (apply Nat.div_lt_upper_bound; lia). pose proof (Nat.mod_upper_bound (i mod 4 + k) 4). lia. }
  rewrite !Hb by apply Hlt. clear Hb Hlt.
  each i Hi ltac:(idtac; match goal with |- _ = shifted x ?n => 
    let c := eval vm_compute in (4 * (n / 4))%nat in let r := eval vm_compute in (n mod 4)%nat in
    let i0 := eval vm_compute in (c + (r + 0) mod 4)%nat in let i1 := eval vm_compute in (c + (r + 1) mod 4)%nat in
    let i2 := eval vm_compute in (c + (r + 2) mod 4)%nat in let i3 := eval vm_compute in (c + (r + 3) mod 4)%nat in
    exact (unmix_column (shifted x i0) (shifted x i1) (shifted x i2) (shifted x i3) (shifted_byte x i0) (shifted_byte x i1) (shifted_byte x i2) (shifted_byte x i3)) end).
Qed.

Lemma source_target : forall k, (k < 16)%nat -> source (target k) = k /\ (target k < 16)%nat.
Proof. intros k Hk. each k Hk ltac:(idtac; split; [reflexivity|vm_compute; lia]). Qed.
Lemma shifted_source : forall x k, (k < 16)%nat -> inv_sub (shifted x (target k)) = byte_at x k.
Proof.
  intros x k Hk. unfold shifted. fold (source (target k)). rewrite (proj1 (source_target k Hk)). apply inv_sub_sub, byte_at_byte.
Qed.
Lemma xor_twice : forall a b, N.lxor (N.lxor a b) b = a.
Proof. intros. rewrite N.lxor_assoc, N.lxor_nilpotent. apply N.lxor_0_r. Qed.
Lemma dec_enc : forall x rk, x < 2 ^ 128 -> dec (aesenc x rk) rk = x.
Proof.
  intros x rk Hx. unfold dec, aesenc. cbv zeta. rewrite xor_twice. change (fold_right _ 0 (seq 0 16)) with (pack (mixed x)).
  transitivity (pack (byte_at x)); [|apply pack_bytes; exact Hx]. apply pack_ext. intros k Hk. rewrite unmixed_mixed by (apply source_target; exact Hk). apply shifted_source. exact Hk.
Qed.
Lemma dec_enclast : forall x rk, x < 2 ^ 128 -> declast (aesenclast x rk) rk = x.
Proof.
  intros x rk Hx. unfold declast, aesenclast. cbv zeta. rewrite xor_twice.
  transitivity (pack (byte_at x)); [|apply pack_bytes; exact Hx]. apply pack_ext. intros k Hk. rewrite byte_pack by (first [apply shifted_byte|apply source_target; exact Hk]). apply shifted_source. exact Hk.
Qed.
Lemma aesenc_bound : forall x rk, rk < 2 ^ 128 -> aesenc x rk < 2 ^ 128.
Proof. intros x rk Hr. unfold aesenc. apply lxor_bound; [|exact Hr]. apply (pack_bound (mixed x)), mixed_byte. Qed.
Lemma decrypt_encrypt : forall keys block, (forall r, nth r keys 0 < 2 ^ 128) -> block < 2 ^ 128 -> decrypt_block keys (encrypt_block keys block) = block.
Proof.
  intros keys block Hk Hb. unfold decrypt_block, encrypt_block.
  assert (H : forall l st, st < 2 ^ 128 ->
    fold_left (fun s r => aesenc s (nth r keys 0)) l st < 2 ^ 128 /\
    fold_left (fun s r => dec s (nth r keys 0)) (rev l) (fold_left (fun s r => aesenc s (nth r keys 0)) l st) = st).
  { induction l as [|r l IH]; intros st Hst; [split; [exact Hst|reflexivity]|]. cbn [fold_left rev].
    destruct (IH (aesenc st (nth r keys 0)) (aesenc_bound _ _ (Hk r))) as [H1 H2]. split; [exact H1|].
    rewrite fold_left_app, H2. cbn [fold_left]. apply dec_enc. exact Hst. }
  destruct (H (seq 1 9) (N.lxor block (nth 0 keys 0))) as [H1 H2]; [apply lxor_bound; [exact Hb|apply Hk]|].
  rewrite dec_enclast by exact H1. rewrite H2. apply xor_twice.
Qed.
Definition schedule : list N := Eval vm_compute in aes_key_expand fixed_key.
Lemma schedule_eq : aes_key_expand fixed_key = schedule.
Proof. vm_compute. reflexivity. Qed.
Lemma schedule_bound : forall r, nth r (aes_key_expand fixed_key) 0 < 2 ^ 128.
Proof.
  intros r. rewrite schedule_eq. destruct (Nat.lt_ge_cases r (length schedule)) as [H|H]; [|rewrite nth_overflow by exact H; reflexivity].
  assert (Hf : Forall (fun x => x < 2 ^ 128) schedule) by (unfold schedule; repeat constructor).
  rewrite Forall_forall in Hf. apply Hf. apply nth_In. exact H.
Qed.
Lemma nat_bound : forall j, N.of_nat j < 2 ^ 64 -> N.of_nat j < 2 ^ 128.
Proof. intros j Hj. eapply N.lt_trans; [exact Hj|]. reflexivity. Qed.

Lemma nth_expand : forall seed len j, (j < len)%nat -> nth j (expand_seed seed len) 0 = encrypt_block (aes_key_expand fixed_key) (N.lxor seed (N.of_nat j)).
Proof.
  intros seed len j Hj. unfold expand_seed.
  rewrite nth_indep with (d' := (fun j => encrypt_block (aes_key_expand fixed_key) (N.lxor seed (N.of_nat j))) 0%nat) by (rewrite map_length, seq_length; exact Hj).
  rewrite (map_nth (fun j => encrypt_block (aes_key_expand fixed_key) (N.lxor seed (N.of_nat j)))), seq_nth by exact Hj. reflexivity.
Qed.
Lemma recover : forall seed len j, seed < 2 ^ 128 -> (j < len)%nat -> N.of_nat len <= 2 ^ 64 -> recover_seed j (nth j (expand_seed seed len) 0) = seed.
Proof.
  intros seed len j Hs Hj Hlen. rewrite nth_expand by exact Hj. unfold recover_seed.
  rewrite decrypt_encrypt; [apply xor_twice|apply schedule_bound|]. apply lxor_bound; [exact Hs|]. apply nat_bound. lia.
Qed.
Lemma blocks_distinct : forall seed len, seed < 2 ^ 128 -> N.of_nat len <= 2 ^ 64 -> NoDup (expand_seed seed len).
Proof.
  intros seed len Hs Hlen. unfold expand_seed. 
  assert (Hinj : forall i j, (i < len)%nat -> (j < len)%nat ->
    encrypt_block (aes_key_expand fixed_key) (N.lxor seed (N.of_nat i)) = encrypt_block (aes_key_expand fixed_key) (N.lxor seed (N.of_nat j)) -> i = j).
  { intros i j Hi Hj E. apply (f_equal (decrypt_block (aes_key_expand fixed_key))) in E.
    rewrite !decrypt_encrypt in E by (first [apply schedule_bound|apply lxor_bound; [exact Hs|apply nat_bound; lia]]).
    rewrite !(N.lxor_comm seed) in E. apply (f_equal (fun a => N.lxor a seed)) in E. rewrite !xor_twice in E. lia. }
  assert (Hg : forall l, (forall i, In i l -> (i < len)%nat) -> NoDup l -> NoDup (map (fun j => encrypt_block (aes_key_expand fixed_key) (N.lxor seed (N.of_nat j))) l)).
  { induction l as [|a l IH]; intros Hl Hd; [constructor|]. inversion Hd; subst. cbn [map]. constructor.
    - intros Hin. apply in_map_iff in Hin as [b [E Hb]]. apply Hinj in E; [subst; contradiction|apply Hl; right; exact Hb|apply Hl; left; reflexivity].
    - apply IH; [intros; apply Hl; right; assumption|assumption]. }
  apply Hg; [intros i Hi; apply in_seq in Hi; lia|apply seq_NoDup].
Qed.
Lemma expand_prefix : forall seed len more, firstn len (expand_seed seed (len + more)) = expand_seed seed len.
Proof.
  intros seed len more. unfold expand_seed. rewrite firstn_map. f_equal.
  assert (H : forall n a m, firstn n (seq a (n + m)) = seq a n) by (induction n as [|n IH]; intros a m; [reflexivity|]; cbn; rewrite IH; reflexivity). apply H.
Qed.
Lemma expand_bound : forall seed len b, In b (expand_seed seed len) -> b < 2 ^ 128.
Proof.
  intros seed len b Hb. unfold expand_seed in Hb. apply in_map_iff in Hb as [j [<- _]]. unfold encrypt_block, aesenclast.
  apply lxor_bound; [apply pack_bound, shifted_byte|apply schedule_bound].
Qed.
