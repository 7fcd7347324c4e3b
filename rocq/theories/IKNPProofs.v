From Coq Require Import List NArith ZArith Bool Lia.
From Verif Require Import MPCBase OTModel OTSpec OTProofs.
Import ListNotations.
Local Open Scope nat_scope.

Lemma bit_lxor a b : bit a -> bit b -> bit (N.lxor a b).
Proof. unfold bit. intros [->| ->] [->| ->]; cbn; auto. Qed.
Lemma bitN_bit w i : bit (bitN w i).
Proof. unfold bitN, bit. destruct (N.testbit w (N.of_nat i)); cbn; auto. Qed.
Lemma at1_bit l i : Forall bit l -> bit (at1 l i).
Proof.
  intros H. unfold at1. destruct (Nat.lt_ge_cases i (length l)) as [L|L].
  - rewrite Forall_forall in H. apply H, nth_In, L.
  - rewrite nth_overflow by exact L. left. reflexivity.
Qed.
Lemma Forall_tab {A} (P : A -> Prop) n f : (forall i, i < n -> P (f i)) -> Forall P (tab n f).
Proof. intros H. apply Forall_forall. intros x Hx. unfold tab in Hx. apply in_map_iff in Hx.
  destruct Hx as (i & <- & Hi). apply in_seq in Hi. apply H. lia. Qed.
Lemma Forall_firstn {A} (P : A -> Prop) n l : Forall P l -> Forall P (firstn n l).
Proof.
  revert n. induction l as [|a l IH]; intros [|n] H; cbn; auto. inversion H; subst. constructor; auto.
Qed.
Lemma at2_tab n m f j k : j < n -> k < m -> at2 (tab n (fun j => tab m (f j))) j k = f j k.
Proof. intros Hj Hk. unfold at2, row, at1. rewrite tab_nth by exact Hj. apply tab_nth, Hk. Qed.
Lemma block_bits_bits w : Forall bit (block_bits w).
Proof. apply Forall_app. split; apply Forall_tab; intros; apply bitN_bit. Qed.
Lemma flat_map_Forall {A B} (P : B -> Prop) (f : A -> list B) l :
  (forall a, Forall P (f a)) -> Forall P (flat_map f l).
Proof. intros H. induction l; cbn; [constructor|]. apply Forall_app. auto. Qed.

Section IKNP.
Variable X : cenv.
Hypothesis OKX : env_ok X.
Notation EE := (grp X).
Let OK : group_ok EE := e_grp X OKX.

Lemma prg_expand_bits s n : Forall bit (prg_expand X s n).
Proof. apply Forall_firstn, flat_map_Forall, block_bits_bits. Qed.

Lemma flat_map_blocks_length l : length (flat_map block_bits l) = 128 * length l.
Proof.
  induction l as [|a l IH]; [reflexivity|]. cbn [flat_map length]. rewrite app_length, IH.
  unfold block_bits. rewrite app_length, !tab_length. lia.
Qed.
Lemma prg_expand_length s n : length (prg_expand X s n) = n.
Proof.
  unfold prg_expand. rewrite firstn_length, flat_map_blocks_length.
  destruct (e_prg X OKX (seed_view (firstn 16 s)) ((n + 127) / 128)) as [-> _].
  pose proof (Nat.div_mod (n + 127) 128). pose proof (Nat.mod_upper_bound (n + 127) 128). lia.
Qed.

Lemma bytes_pt_inv p q : bytes_pt X (pt_bytes X p) = Some q -> q = p /\ pis0 EE p = false.
Proof.
  unfold bytes_pt, pt_bytes. destruct (pis0 EE p) eqn:P.
  - rewrite (e_zero X OKX). discriminate.
  - rewrite (e_codec X OKX p P). intros [= <-]. auto.
Qed.
Lemma bytes_pt_fin p : pis0 EE p = false -> bytes_pt X (pt_bytes X p) = Some p.
Proof. intros P. unfold bytes_pt, pt_bytes. rewrite P. apply (e_codec X OKX p P). Qed.

Lemma row_length {l : list (list N)} {n i} : Forall (fun r => length r = n) l -> i < length l -> length (row l i) = n.
Proof. intros H Hi. rewrite Forall_forall in H. apply H, nth_In, Hi. Qed.

Lemma base_rev_correct C s kp r k0 k1 PK0b cts ks :
  length s = 128 -> Forall bit s ->
  length k0 = 128 -> Forall (fun x => length x = 32) k0 ->
  length k1 = 128 -> Forall (fun x => length x = 32) k1 ->
  base_sender_keygen X C s kp = Some PK0b ->
  base_encrypt_rev X C PK0b k0 k1 r = Some cts ->
  base_decrypt_rev X kp cts s = Some ks ->
  length ks = 128 /\ forall i, i < 128 -> row ks i = if N.eqb (at1 s i) 0 then row k0 i else row k1 i.
Proof.
  intros Ls Hs L0 F0 L1 F1 HK HE HD.
  apply tabM_Some in HK. destruct HK as [LK HK].
  apply tabM_Some in HE. destruct HE as [LE HE].
  apply tabM_Some in HD. destruct HD as [LD HD]. unfold K in *.
  split; [exact LD|]. intros i Hi. specialize (HK i [] Hi). specialize (HD i [] Hi). cbv beta in HK, HD.
  destruct (nth_error cts i) as [ct|] eqn:Ei; [|discriminate].
  specialize (HE i ct Hi). cbv beta in HE. rewrite (nth_error_nth _ _ ct Ei) in HE.
  apply bind_Some in HK. destruct HK as (df & Hdf & HK). injection HK as HK.
  apply bind_Some in HE. destruct HE as (PK0 & HP0 & HE).
  apply bind_Some in HE. destruct HE as (PK1 & HP1 & HE). injection HE as <-.
  change (nth i PK0b []) with (row PK0b i) in HK. rewrite <- HK in HP0.
  apply bytes_pt_inv in HP0. destruct HP0 as [E0 _].
  apply bind_Some in HD. destruct HD as (U & HU & HD). injection HD as HD.
  apply bytes_pt_inv in HU. destruct HU as [EU _]. rewrite EU in HD.
  change (nth i ks []) with (row ks i) in HD. rewrite <- HD.
  apply (ec_sub_ok EE OK) in Hdf. apply (ec_sub_ok EE OK) in HP1.
  destruct (N.eqb (at1 s i) 0) eqn:Es.
  - rewrite E0. replace (ec_mul EE (ec_mul EE (pgen EE) (kp i)) (r i)) with
      (ec_mul EE (ec_mul EE (pgen EE) (r i)) (kp i)) by (rewrite !(ec_mul_mul EE OK); f_equal; lia).
    apply xor_bytes_cancel. rewrite (row_length F0) by lia. symmetry. apply (e_sha X OKX).
  - assert (PK1 = ec_mul EE (pgen EE) (kp i)) as ->.
    { apply (cancel_l EE OK PK0). rewrite (g_comm EE OK), HP1, E0, Hdf. reflexivity. }
    replace (ec_mul EE (ec_mul EE (pgen EE) (kp i)) (r i)) with
      (ec_mul EE (ec_mul EE (pgen EE) (r i)) (kp i)) by (rewrite !(ec_mul_mul EE OK); f_equal; lia).
    apply xor_bytes_cancel. rewrite (row_length F1) by lia. symmetry. apply (e_sha X OKX).
Qed.

Lemma choice_at_bit c n k j : choice_bits_ok c n -> j < n -> k < 128 ->
  choice_at c k j = choice_bit c j k /\ bit (choice_bit c j k).
Proof.
  destruct c as [l|rows]; cbn [choice_bits_ok choice_at choice_bit].
  - intros [L F] Hj _. split; [reflexivity|]. exact (at1_bit _ j F).
  - intros (L & F & D) Hj Hk. unfold at2.
    assert (Forall bit (row rows j)) as Fr.
    { rewrite Forall_forall in F. apply F, nth_In. lia. }
    destruct D as [D|D].
    + assert (length (row rows j) = 1) as L1 by (apply (row_length D); lia). rewrite L1. cbn [Nat.eqb].
      unfold row in *. destruct (nth j rows []) as [|b [|? ?]]; try discriminate. cbn. inversion Fr; auto.
    + assert (length (row rows j) = 128) as L1 by (apply (row_length D); lia). rewrite L1.
      change (Nat.eqb 128 1) with false. cbv iota. unfold row in *.
      destruct (nth j rows []) as [|b [|b' r']]; try discriminate. split; [reflexivity|]. exact (at1_bit _ k Fr).
Qed.

Lemma choice_shape_ok c n : choice_bits_ok c n -> choice_shape c n = true.
Proof.
  destruct c as [l|rows]; cbn.
  - intros [-> _]. apply Nat.eqb_refl.
  - intros (-> & _ & D). rewrite Nat.eqb_refl. cbn. apply orb_true_iff.
    destruct D as [D|D]; [left|right]; apply forallb_forall; intros r Hr; apply Nat.eqb_eq;
      rewrite Forall_forall in D; apply D, Hr.
Qed.

Lemma iknp_correct c n R t q s :
  iknp_rand_ok R -> choice_bits_ok c n -> iknp_core X c n R = Some (t, q, s) ->
  s = ik_s R /\ length t = n /\ length q = n /\
  (forall j, j < n -> length (row t j) = 128 /\ length (row q j) = 128 /\
                      Forall bit (row t j) /\ Forall bit (row q j)) /\
  forall j k, j < n -> k < 128 ->
    at2 t j k = N.lxor (at2 q j k) (N.land (choice_bit c j k) (at1 s k)).
Proof.
  intros (Ls & Hs & L0 & F0 & L1 & F1) Hc H. unfold iknp_core in H. rewrite (choice_shape_ok _ _ Hc) in H.
  cbn [negb] in H. apply bind_Some in H. destruct H as (PK & HK & H).
  apply bind_Some in H. destruct H as (cts & HE & H). apply bind_Some in H. destruct H as (ks & HD & H).
  injection H as <- <- <-.
  destruct (base_rev_correct _ _ _ _ _ _ _ _ _ Ls Hs L0 F0 L1 F1 HK HE HD) as [Lk Hk].
  unfold calc_t, calc_q. rewrite !tab_length. split; [reflexivity|]. split; [reflexivity|]. split; [reflexivity|].
  assert (forall a k j, bit (at1 (prg_expand X a k) j)) as PB by (intros; apply at1_bit, prg_expand_bits).
  assert (forall k j, k < 128 -> j < n ->
    N.lxor (at1 (prg_expand X (row ks k) n) j) (N.land (at2 (calc_u X (ik_k0 R) (ik_k1 R) c n) k j) (at1 (ik_s R) k))
    = N.lxor (at1 (prg_expand X (row (ik_k0 R) k) n) j) (N.land (choice_bit c j k) (at1 (ik_s R) k))) as Main.
  { intros k j Hk' Hj. rewrite (Hk k Hk').
    destruct (choice_at_bit c n k j Hc Hj Hk') as [Ec Bc].
    assert (at2 (calc_u X (ik_k0 R) (ik_k1 R) c n) k j =
      N.lxor (N.lxor (at1 (prg_expand X (row (ik_k0 R) k) n) j) (at1 (prg_expand X (row (ik_k1 R) k) n) j)) (choice_bit c j k)) as ->.
    { unfold at2, row at 1, calc_u. rewrite tab_nth by exact Hk'. unfold at1 at 1. rewrite tab_nth by exact Hj.
      rewrite Ec. reflexivity. }
    destruct (at1_bit (ik_s R) k Hs) as [-> | ->]; cbn [N.eqb].
    - rewrite !N.land_0_r. reflexivity.
    - destruct (PB (row (ik_k0 R) k) n j) as [-> | ->]; destruct (PB (row (ik_k1 R) k) n j) as [-> | ->];
        destruct Bc as [-> | ->]; reflexivity. }
  split.
  - intros j Hj. unfold row. rewrite !tab_nth by exact Hj. rewrite !tab_length. split; [reflexivity|].
    split; [reflexivity|]. split; apply Forall_tab; intros k Hk'; [|apply PB].
    change (nth k ks []) with (row ks k). rewrite (Main k j Hk' Hj). apply bit_lxor; [apply PB|].
    destruct (choice_at_bit c n k j Hc Hj Hk') as [_ [-> | ->]].
    + rewrite N.land_0_l. left; reflexivity.
    + destruct (at1_bit (ik_s R) k Hs) as [-> | ->]; cbn; [left|right]; reflexivity.
  - intros j k Hj Hk'. rewrite !at2_tab by assumption. exact (Main k j Hk' Hj).
Qed.

Lemma iknp_succeeds c n R : gen_exact EE -> iknp_rand_ok R -> choice_bits_ok c n ->
  iknp_rand_generic X R -> exists t q, iknp_core X c n R = Some (t, q, ik_s R).
Proof.
  intros EX (Ls & Hs & L0 & F0 & L1 & F1) Hc HG. unfold iknp_core. rewrite (choice_shape_ok _ _ Hc).
  cbn [negb]. set (C := ec_mul EE (pgen EE) (ik_rC R)).
  assert (forall a, (a mod ord EE <> 0)%Z -> pis0 EE (ec_mul EE (pgen EE) a) = false) as NZ.
  { intros a Ha. apply (is0_false EE OK). intros E0. apply Ha, EX, E0. }
  assert (forall i, i < 128 -> exists df, ec_sub EE C (ec_mul EE (pgen EE) (ik_kp R i)) = Some df /\
     df = ec_mul EE (pgen EE) (ik_rC R - ik_kp R i)) as SUB.
  { intros i Hi. destruct (HG i Hi) as (H1 & H2 & H3). destruct (ec_sub_total EE OK C (ec_mul EE (pgen EE) (ik_kp R i))) as [df Hdf].
    - intros E0. apply H3, (gen_inj EE OK EX), E0.
    - exists df. split; [exact Hdf|]. apply (ec_sub_ok EE OK) in Hdf.
      apply (cancel_l EE OK (ec_mul EE (pgen EE) (ik_kp R i))). rewrite (g_comm EE OK), Hdf.
      rewrite <- (ec_mul_add EE OK). unfold C. f_equal. lia. }
  set (PKv := fun i => if N.eqb (at1 (ik_s R) i) 0 then ec_mul EE (pgen EE) (ik_kp R i)
                       else ec_mul EE (pgen EE) (ik_rC R - ik_kp R i)).
  assert (exists PKb, base_sender_keygen X C (ik_s R) (ik_kp R) = Some PKb) as [PKb HK].
  { apply tabM_total. intros i Hi. destruct (SUB i Hi) as (df & Hdf & _). cbv zeta. rewrite Hdf. cbn [bind]. eauto. }
  rewrite HK. cbn [bind]. apply tabM_Some in HK. destruct HK as [LK HK].
  assert (forall i, i < 128 -> row PKb i = pt_bytes X (PKv i)) as PKE.
  { intros i Hi. specialize (HK i [] Hi). cbv beta zeta in HK. destruct (SUB i Hi) as (df & Hdf & Ed).
    rewrite Hdf in HK. cbn [bind] in HK. injection HK as HK. unfold row. rewrite <- HK. unfold PKv.
    destruct (N.eqb (at1 (ik_s R) i) 0); [reflexivity|]. rewrite Ed. reflexivity. }
  assert (forall i, i < 128 -> pis0 EE (PKv i) = false) as PKN.
  { intros i Hi. destruct (HG i Hi) as (H1 & H2 & H3). unfold PKv. destruct (N.eqb (at1 (ik_s R) i) 0); apply NZ; assumption. }
  match goal with |- context [base_encrypt_rev ?X ?C ?P ?a ?b ?r] =>
    assert (exists cts, base_encrypt_rev X C P a b r = Some cts) as [cts HE] end.
  { apply tabM_total. intros i Hi. rewrite (PKE i Hi), (bytes_pt_fin _ (PKN i Hi)). cbn [bind].
    destruct (ec_sub_total EE OK C (PKv i)) as [P1 ->]; [|cbn [bind]; eauto].
    intros E0. unfold PKv, C in E0. destruct (HG i Hi) as (H1 & H2 & H3).
    destruct (N.eqb (at1 (ik_s R) i) 0); apply (gen_inj EE OK EX) in E0; [exact (H3 E0)|].
    replace (ik_rC R - (ik_rC R - ik_kp R i))%Z with (ik_kp R i) in E0 by lia. exact (H1 E0). }
  rewrite HE. cbn [bind]. unfold base_encrypt_rev in HE. apply tabM_Some in HE. destruct HE as [LE HE].
  match goal with |- context [base_decrypt_rev ?X ?a ?b ?r] =>
    assert (exists ks, base_decrypt_rev X a b r = Some ks) as [ks HD] end.
  { apply tabM_total. intros i Hi. destruct (nth_error cts i) as [ct|] eqn:Ei.
    2: { apply nth_error_None in Ei. unfold K in *. lia. }
    specialize (HE i ct Hi). cbv beta in HE. rewrite (nth_error_nth _ _ ct Ei) in HE.
    apply bind_Some in HE. destruct HE as (P0 & _ & HE). apply bind_Some in HE. destruct HE as (P1 & _ & HE).
    injection HE as <-. destruct (HG i Hi) as (H1 & H2 & H3). rewrite bytes_pt_fin by (apply NZ, H2).
    cbn [bind]. eauto. }
  rewrite HD. cbn [bind]. eauto.
Qed.

Lemma row_eq a b n : length a = n -> length b = n -> (forall i, i < n -> at1 a i = at1 b i) -> a = b.
Proof. intros La Lb H. apply nth_ext with (d := 0%N) (d' := 0%N); [congruence|]. intros i Hi. apply H. congruence. Qed.

Lemma transfer_extension_correct m0 m1 d bits n R out :
  iknp_rand_ok R -> length bits = n -> Forall bit bits ->
  length m0 = n -> length m1 = n ->
  Forall (fun r => length r = d) m0 -> Forall (fun r => length r = d) m1 ->
  transfer_extension X m0 m1 d bits n R = Some out ->
  length out = n /\
  forall j, j < n -> row out j = chosen (N.eqb (nth j bits 0%N) 1) (row m0 j) (row m1 j).
Proof.
  intros HR Lb Fb L0 L1 F0 F1 H. unfold transfer_extension in H. apply bind_Some in H.
  destruct H as ([[t q] s] & HI & H). destruct (Nat.leb d 32) eqn:D; [|discriminate]. cbn [negb] in H.
  apply Nat.leb_le in D. injection H as <-.
  destruct (iknp_correct (Choice1 bits) n R t q s HR (conj Lb Fb) HI) as (Es & Lt & Lq & HW & HC).
  split; [apply tab_length|]. intros j Hj. unfold row at 1. rewrite tab_nth by exact Hj.
  rewrite tab_nth by exact Hj. cbv beta iota zeta.
  destruct (HW j Hj) as (W1 & W2 & W3 & W4).
  assert (length s = 128) as Lss by (rewrite Es; apply HR).
  assert (forall x, length (firstn d (vec_hash_row X 1 x)) = d) as LH.
  { intros x. rewrite firstn_length. unfold vec_hash_row. destruct (e_sha X OKX (if N.eqb 1 0 then x else le8 1 ++ x)) as [-> _]. lia. }
  change (at1 bits j) with (nth j bits 0%N). destruct (at1_bit bits j Fb) as [Eb|Eb]; unfold at1 in Eb; rewrite Eb; cbn [N.eqb Pos.eqb chosen].
  - assert (row t j = row q j) as ->.
    { apply (row_eq _ _ 128 W1 W2). intros k Hk. specialize (HC j k Hj Hk). unfold at2 in HC. rewrite HC.
      cbn [choice_bit]. rewrite Eb, N.land_0_l, N.lxor_0_r. reflexivity. }
    apply xor_bytes_cancel. rewrite LH. apply (row_length F0). lia.
  - assert (xor_bytes (row t j) s = row q j) as ->.
    { apply (row_eq _ _ 128); [rewrite xor_bytes_length; lia|exact W2|]. intros k Hk.
      rewrite xor_bytes_nth by lia. specialize (HC j k Hj Hk). unfold at2 in HC. rewrite HC. cbn [choice_bit]. rewrite Eb.
      replace (N.land 1 (at1 s k)) with (at1 s k).
      - rewrite N.lxor_assoc, N.lxor_nilpotent, N.lxor_0_r. reflexivity.
      - destruct (at1_bit s k) as [-> | ->]; [rewrite Es; apply HR| |]; reflexivity. }
    apply xor_bytes_cancel. rewrite LH. apply (row_length F1). lia.
Qed.
End IKNP.
