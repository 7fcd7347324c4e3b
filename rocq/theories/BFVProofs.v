(** Proofs about the BFV analytics. *)
From Coq Require Import List ZArith Bool Arith Lia.
From Verif Require Import MPCBase BFVModel BFVSpec.
Import ListNotations.
Local Open Scope nat_scope.

(* ---------------------------------------------------------------- sums *)

Lemma zsum_ext n f g : (forall i, i < n -> f i = g i) -> zsum n f = zsum n g.
Proof. induction n as [|n IH]; intros H; [reflexivity|]. cbn [zsum]. rewrite IH, H by (intros; try apply H; lia). reflexivity. Qed.
Lemma zsum_add a b f : zsum (a + b) f = (zsum a f + zsum b (fun i => f (a + i)%nat))%Z.
Proof.
  induction b as [|b IH]; [rewrite Nat.add_0_r; cbn; lia|]. rewrite Nat.add_succ_r. cbn [zsum]. rewrite IH. lia.
Qed.
Lemma zsum_plus n f g : zsum n (fun i => f i + g i)%Z = (zsum n f + zsum n g)%Z.
Proof. induction n as [|n IH]; [reflexivity|]. cbn [zsum]. rewrite IH. lia. Qed.
Lemma zsum_0 n : zsum n (fun _ => 0%Z) = 0%Z.
Proof. induction n as [|n IH]; [reflexivity|]. cbn [zsum]. rewrite IH. reflexivity. Qed.
Lemma zsum_swap a b f : zsum a (fun i => zsum b (fun j => f i j)) = zsum b (fun j => zsum a (fun i => f i j)).
Proof.
  induction a as [|a IH]; [cbn [zsum]; symmetry; apply zsum_0|]. cbn [zsum]. rewrite IH, <- zsum_plus. reflexivity.
Qed.
Lemma zsum_mul a b f : zsum (a * b) f = zsum a (fun i => zsum b (fun j => f (i * b + j))).
Proof.
  induction a as [|a IH]; [reflexivity|]. cbn [zsum]. rewrite <- IH, <- zsum_add. f_equal. lia.
Qed.
Lemma zsum_mod n f t : (t <> 0)%Z -> (zsum n f mod t = zsum n (fun i => f i mod t) mod t)%Z.
Proof.
  intros Ht. induction n as [|n IH]; [reflexivity|]. cbn [zsum].
  rewrite (Z.add_mod (zsum n f)), IH by exact Ht.
  rewrite (Z.add_mod (zsum n (fun i => f i mod t)%Z) (f n mod t)), Z.mod_mod by exact Ht. reflexivity.
Qed.
Lemma zsum_cong n f g t : (t <> 0)%Z -> (forall i, i < n -> (f i mod t = g i mod t)%Z) -> (zsum n f mod t = zsum n g mod t)%Z.
Proof.
  intros Ht H. rewrite zsum_mod, (zsum_mod n g) by exact Ht. f_equal. apply zsum_ext. exact H.
Qed.

Section Ops.
Variables (R : nat) (t : Z).
Hypothesis HR : 0 < R.
Hypothesis Ht : (0 < t)%Z.
Notation rpos := (rpos R). Notation rot_rows := (rot_rows R).

Lemma rpos_div p a : rpos p a / R = p / R.
Proof.
  unfold BFVModel.rpos. pose proof (Z.mod_pos_bound (Z.of_nat (p mod R) + a) (Z.of_nat R)).
  rewrite Nat.add_comm, Nat.div_add by lia. rewrite Nat.div_small by lia. reflexivity.
Qed.
Lemma rpos_mod p a : Z.of_nat (rpos p a mod R) = ((Z.of_nat (p mod R) + a) mod Z.of_nat R)%Z.
Proof.
  unfold BFVModel.rpos. pose proof (Z.mod_pos_bound (Z.of_nat (p mod R) + a) (Z.of_nat R)).
  rewrite Nat.add_comm, Nat.mod_add by lia. rewrite Nat.mod_small by lia. lia.
Qed.
Lemma rpos_rpos p a b : rpos (rpos p a) b = rpos p (a + b).
Proof.
  unfold BFVModel.rpos at 1. rewrite rpos_div, rpos_mod. unfold BFVModel.rpos. f_equal. f_equal.
  rewrite Z.add_mod_idemp_l by lia. f_equal. lia.
Qed.
Lemma rpos_0 p : rpos p 0 = p.
Proof.
  unfold BFVModel.rpos. rewrite Z.add_0_r, Z.mod_small by (pose proof (Nat.mod_upper_bound p R); lia).
  rewrite Nat2Z.id. pose proof (Nat.div_mod p R). lia.
Qed.
Lemma rpos_lt p a : p < 2 * R -> rpos p a < 2 * R.
Proof.
  intros H. assert (p / R < 2) by (apply Nat.div_lt_upper_bound; lia).
  unfold BFVModel.rpos. pose proof (Z.mod_pos_bound (Z.of_nat (p mod R) + a) (Z.of_nat R)).
  assert (p / R <= 1) as L by lia. pose proof (Nat.mul_le_mono_r _ _ R L). lia.
Qed.
(** inside a row *)
Lemma rpos_row r p m : p + m < R -> rpos (r * R + p) (Z.of_nat m) = r * R + (p + m).
Proof.
  intros H. unfold BFVModel.rpos.
  assert ((r * R + p) / R = r) as -> by (rewrite Nat.add_comm, Nat.div_add, Nat.div_small; lia).
  assert ((r * R + p) mod R = p) as -> by (rewrite Nat.add_comm, Nat.mod_add, Nat.mod_small; lia).
  rewrite Z.mod_small by lia. lia.
Qed.

(* ---------------------------------------------------------------- rotations *)

Definition has (c : cipher) (k : nat) (s : list Z) : Prop := payload c = Some (k, s).

Lemma rotate_has c k s step gk : has c k s -> public_part gk = Some k -> (Z.abs step < Z.of_nat R)%Z ->
  exists c' s', rotate R c step gk = Some c' /\ cctx c' = cctx c /\ has c' k s' /\ forall p, p < 2 * R -> nth p s' 0%Z = nth (rpos p step) s 0%Z.
Proof.
  intros H Hg Hs. unfold rotate. destruct (Z.eqb_spec step 0) as [->|Ne].
  - exists c, s. split; [reflexivity|]. split; [reflexivity|]. split; [exact H|]. intros p _. rewrite rpos_0. reflexivity.
  - rewrite H, Hg, Nat.eqb_refl. rewrite (proj2 (Z.ltb_lt _ _) Hs). cbn [andb].
    eexists _, _. split; [reflexivity|]. split; [reflexivity|]. split; [reflexivity|]. intros p Hp. unfold BFVModel.rot_rows. rewrite tab_nth by exact Hp. reflexivity.
Qed.

Lemma rotate_loop_has gk k mx sgn : public_part gk = Some k -> (1 <= mx < Z.of_nat R)%Z -> (sgn = 1 \/ sgn = -1)%Z ->
  forall fuel c s rem, has c k s -> (0 <= rem <= Z.of_nat fuel)%Z ->
  exists c' s', rotate_loop R fuel c rem sgn mx gk = Some c' /\ cctx c' = cctx c /\ has c' k s' /\
    forall p, p < 2 * R -> nth p s' 0%Z = nth (rpos p (sgn * rem)) s 0%Z.
Proof.
  intros Hg Hm Hsg. induction fuel as [|fuel IH]; intros c s rem H Hr.
  - assert (rem = 0%Z) as -> by lia. exists c, s. cbn [rotate_loop]. repeat split; auto. intros p _. rewrite Z.mul_0_r, rpos_0. reflexivity.
  - cbn [rotate_loop]. destruct (Z.ltb_spec 0 rem) as [P|P].
    2: { assert (rem = 0%Z) as -> by lia. exists c, s. repeat split; auto. intros p _. rewrite Z.mul_0_r, rpos_0. reflexivity. }
    destruct (rotate_has c k s (sgn * Z.min rem mx) gk H Hg) as (c1 & s1 & E1 & X1 & H1 & N1); [destruct Hsg as [-> | ->]; lia|].
    rewrite E1. cbn [bind].
    destruct (IH c1 s1 (rem - Z.min rem mx)%Z H1) as (c2 & s2 & E2 & X2 & H2 & N2); [lia|].
    exists c2, s2. split; [exact E2|]. split; [congruence|]. split; [exact H2|]. intros p Hp. rewrite N2 by exact Hp.
    rewrite N1 by (apply rpos_lt, Hp). rewrite rpos_rpos. f_equal. f_equal. lia.
Qed.

Lemma safe_rotate_has c k s step gk mx : has c k s -> public_part gk = Some k -> (1 <= mx)%Z ->
  (Z.abs step < Z.of_nat R \/ mx < Z.of_nat R)%Z ->  (Z.abs step <= mx -> Z.abs step < Z.of_nat R)%Z ->
  exists c' s', safe_rotate R c step gk mx = Some c' /\ cctx c' = cctx c /\ has c' k s' /\ forall p, p < 2 * R -> nth p s' 0%Z = nth (rpos p step) s 0%Z.
Proof.
  intros H Hg Hm Hd Hle. unfold safe_rotate. destruct (Z.eqb_spec step 0) as [->|Ne].
  { exists c, s. repeat split; auto. intros p _. rewrite rpos_0. reflexivity. }
  destruct (Z.leb_spec (Z.abs step) mx) as [L|L]; [apply rotate_has; auto|].
  assert (mx < Z.of_nat R)%Z as Hx by lia.
  destruct (rotate_loop_has gk k mx (if (0 <? step)%Z then 1 else -1)%Z Hg (conj Hm Hx)) with (fuel := Z.to_nat (Z.abs step)) (c := c) (s := s) (rem := Z.abs step)
    as (c' & s' & E & X & H' & N'); [destruct (0 <? step)%Z; auto|exact H|lia|].
  exists c', s'. split; [exact E|]. split; [exact X|]. split; [exact H'|]. intros p Hp. rewrite N' by exact Hp. f_equal. f_equal.
  destruct (Z.ltb_spec 0 step); lia.
Qed.

(* ---------------------------------------------------------------- doubling *)

Definition cong (x y : Z) : Prop := (x mod t = y mod t)%Z.
Lemma cong_refl x : cong x x. Proof. reflexivity. Qed.
Lemma cong_mod x : cong (x mod t) x. Proof. unfold cong. apply Z.mod_mod. lia. Qed.
Lemma cong_add a b c d : cong a b -> cong c d -> cong (a + c) (b + d).
Proof. unfold cong. intros H1 H2. rewrite Z.add_mod, H1, H2, <- Z.add_mod by lia. reflexivity. Qed.
Lemma cong_mul a b c d : cong a b -> cong c d -> cong (a * c) (b * d).
Proof. unfold cong. intros H1 H2. rewrite Z.mul_mod, H1, H2, <- Z.mul_mod by lia. reflexivity. Qed.

Lemma add_has a b k s s' : has a k s -> has b k s' -> exists c r, add R t a b = Some c /\ cctx c = cctx a /\ has c k r /\
  forall p, p < 2 * R -> cong (nth p r 0%Z) (nth p s 0 + nth p s' 0)%Z.
Proof.
  intros Ha Hb. unfold add. rewrite Ha, Hb, Nat.eqb_refl. eexists _, _. split; [reflexivity|]. split; [reflexivity|]. split; [reflexivity|].
  intros p Hp. unfold slotwise. rewrite tab_nth by exact Hp. apply cong_mod.
Qed.

(** sum of n slots from p, stride apart, cyclically in p's row *)
Definition rsum (s : list Z) (p n stride : nat) : Z := zsum n (fun m => nth (rpos p (Z.of_nat (m * stride))) s 0%Z).

Lemma doubling_has gk k mx stride cnt : public_part gk = Some k -> (1 <= mx)%Z -> 0 < stride ->
  forall n i c s0 s, has c k s ->
  (forall j, j < i + n -> 2 ^ j < cnt) ->
  (forall j, j < i + n -> (Z.of_nat (stride * 2 ^ j) < Z.of_nat R \/ mx < Z.of_nat R)%Z /\ (Z.of_nat (stride * 2 ^ j) <= mx -> Z.of_nat (stride * 2 ^ j) < Z.of_nat R)%Z) ->
  (forall p, p < 2 * R -> cong (nth p s 0%Z) (rsum s0 p (2 ^ i) stride)) ->
  exists c' s', doubling R t (seq i n) stride cnt c gk mx = Some c' /\ cctx c' = cctx c /\ has c' k s' /\
    forall p, p < 2 * R -> cong (nth p s' 0%Z) (rsum s0 p (2 ^ (i + n)) stride).
Proof.
  intros Hg Hm Hst. induction n as [|n IH]; intros i c s0 s H Hb Hs Hinv.
  - exists c, s. cbn [seq doubling]. rewrite Nat.add_0_r. auto.
  - cbn [seq doubling]. cbv zeta.
    assert (2 ^ i < cnt) as Hi by (apply Hb; lia).
    assert (cnt * stride <=? stride * 2 ^ i = false) as ->.
    { apply Nat.leb_gt. rewrite Nat.mul_comm. apply Nat.mul_lt_mono_pos_r; lia. }
    destruct (Hs i) as [D1 D2]; [lia|].
    destruct (safe_rotate_has c k s (Z.of_nat (stride * 2 ^ i)) gk mx H Hg Hm) as (c1 & s1 & E1 & X1 & H1 & N1);
      [rewrite Z.abs_eq by lia; exact D1|rewrite Z.abs_eq by lia; exact D2|].
    rewrite E1. cbn [bind]. destruct (add_has c c1 k s s1 H H1) as (c2 & s2 & E2 & X2 & H2 & N2). rewrite E2. cbn [bind].
    destruct (IH (S i) c2 s0 s2 H2) as (c3 & s3 & E3 & X3 & H3 & N3).
    + intros j Hj. apply Hb. lia.
    + intros j Hj. apply Hs. lia.
    + intros p Hp. eapply eq_trans; [apply N2, Hp|]. rewrite N1 by exact Hp.
      eapply eq_trans; [apply cong_add; [apply Hinv, Hp|apply Hinv, rpos_lt, Hp]|].
      unfold rsum. rewrite Nat.pow_succ_r'. replace (2 * 2 ^ i) with (2 ^ i + 2 ^ i) by lia. rewrite zsum_add.
      apply f_equal2; [|reflexivity]. f_equal. apply zsum_ext. intros m _. rewrite rpos_rpos. f_equal. f_equal. lia.
    + exists c3, s3. split; [exact E3|]. split; [congruence|]. split; [exact H3|]. intros p Hp. eapply eq_trans; [apply N3, Hp|].
      replace (S i + n) with (i + S n) by lia. reflexivity.
Qed.

Lemma log2_up_lt k j : 1 < k -> j < Nat.log2_up k -> 2 ^ j < k.
Proof.
  intros Hk Hj. destruct (Nat.log2_up_spec k Hk) as [L _].
  assert (2 ^ j <= 2 ^ Nat.pred (Nat.log2_up k)) by (apply Nat.pow_le_mono_r; lia). lia.
Qed.

Lemma loop_has c k s gk mx stride cnt : has c k s -> public_part gk = Some k -> (1 <= mx)%Z -> 0 < stride -> 1 < cnt ->
  (forall d, d < cnt * stride -> (Z.of_nat d < Z.of_nat R \/ mx < Z.of_nat R)%Z /\ (Z.of_nat d <= mx -> Z.of_nat d < Z.of_nat R)%Z) ->
  exists c' s', doubling R t (seq 0 (Nat.log2_up cnt)) stride cnt c gk mx = Some c' /\ cctx c' = cctx c /\ has c' k s' /\
    forall p, p < 2 * R -> cong (nth p s' 0%Z) (rsum s p (2 ^ Nat.log2_up cnt) stride).
Proof.
  intros H Hg Hm Hst Hc Hd.
  apply (doubling_has gk k mx stride cnt Hg Hm Hst (Nat.log2_up cnt) 0 c s s H).
  - intros j Hj. apply log2_up_lt; assumption.
  - intros j Hj. apply Hd. pose proof (log2_up_lt cnt j Hc Hj) as L. rewrite Nat.mul_comm. apply Nat.mul_lt_mono_pos_r; lia.
  - intros p Hp. unfold rsum. cbn [Nat.pow zsum]. rewrite Z.add_0_l, Nat.mul_0_l, rpos_0. reflexivity.
Qed.

Lemma row_has c k s gk cnt : has c k s -> public_part gk = Some k -> 0 < cnt <= R ->
  exists c' s', rotate_and_sum_row R t c cnt gk 1024 = Some c' /\ cctx c' = cctx c /\ has c' k s' /\
    forall p, p < 2 * R -> cong (nth p s' 0%Z) (rsum s p (2 ^ Nat.log2_up cnt) 1).
Proof.
  intros H Hg Hc. unfold rotate_and_sum_row. destruct (Nat.leb_spec cnt 1) as [L|L].
  - assert (cnt = 1) as -> by lia. exists c, s. repeat split; auto. intros p Hp. unfold rsum.
    change (2 ^ Nat.log2_up 1) with 1. cbn [zsum]. rewrite Z.add_0_l, Nat.mul_0_l, rpos_0. reflexivity.
  - apply loop_has; try assumption; try lia.
Qed.

(** how many slots of a row are really added up *)
Lemma cover_le e cnt : R = 2 ^ e -> 0 < cnt <= R -> 2 ^ Nat.log2_up cnt <= R.
Proof.
  intros -> Hc. apply Nat.pow_le_mono_r; [discriminate|].
  rewrite <- (Nat.log2_up_pow2 e) by lia. apply Nat.log2_up_le_mono. lia.
Qed.
Lemma rsum_row s r n : n <= R -> rsum s (r * R) n 1 = zsum n (fun m => nth (r * R + m) s 0%Z).
Proof.
  intros Hn. unfold rsum. apply zsum_ext. intros m Hm. rewrite Nat.mul_1_r.
  rewrite <- (Nat.add_0_r (r * R)) at 1. rewrite rpos_row by lia. f_equal.
Qed.

Definition covered (cnt : nat) : nat :=
  if cnt <=? R then 2 ^ Nat.log2_up cnt else R + 2 ^ Nat.log2_up (cnt - R).

Lemma rotate_and_sum_has e c k s gk cnt : R = 2 ^ e -> has c k s -> public_part gk = Some k -> 0 < cnt <= 2 * R ->
  exists c' s', rotate_and_sum R t c cnt gk (2 * R) = Some c' /\ cctx c' = cctx c /\ has c' k s' /\
    cong (nth 0 s' 0%Z) (zsum (covered cnt) (fun m => nth m s 0%Z)).
Proof.
  intros He H Hg Hc. unfold rotate_and_sum, covered. cbv zeta.
  replace (2 * R / 2) with R by (rewrite Nat.mul_comm, Nat.div_mul; lia).
  destruct (Nat.leb_spec cnt R) as [L|L].
  - destruct (row_has c k s gk cnt H Hg) as (c1 & s1 & E1 & X1 & H1 & N1); [lia|].
    exists c1, s1. split; [exact E1|]. split; [exact X1|]. split; [exact H1|]. eapply eq_trans; [apply N1; lia|].
    rewrite (rsum_row s 0) by (apply (cover_le e); [exact He|lia]). reflexivity.
  - destruct (row_has c k s gk R H Hg) as (c1 & s1 & E1 & X1 & H1 & N1); [lia|].
    rewrite E1. cbn [bind]. unfold rotate_columns. rewrite H, Hg, Nat.eqb_refl. cbn [bind].
    set (c2 := Cipher _ _). assert (has c2 k (swap_rows R s)) as H2 by reflexivity.
    destruct (row_has c2 k _ gk (cnt - R) H2 Hg) as (c3 & s3 & E3 & X3 & H3 & N3); [lia|].
    rewrite E3. cbn [bind]. destruct (add_has c1 c3 k s1 s3 H1 H3) as (c4 & s4 & E4 & X4 & H4 & N4).
    exists c4, s4. split; [exact E4|]. split; [congruence|]. split; [exact H4|]. eapply eq_trans; [apply N4; lia|].
    rewrite zsum_add. apply cong_add.
    + eapply eq_trans; [apply N1; lia|]. rewrite (rsum_row s 0) by (apply (cover_le e); [exact He|lia]).
      rewrite He at 1. rewrite Nat.log2_up_pow2 by lia. rewrite <- He. reflexivity.
    + eapply eq_trans; [apply N3; lia|]. assert (2 ^ Nat.log2_up (cnt - R) <= R) as Cv by (apply (cover_le e); [exact He|lia]).
      rewrite (rsum_row _ 0) by exact Cv. apply zsum_cong; [lia|]. intros m Hm.
      unfold swap_rows. rewrite Nat.mul_0_l, Nat.add_0_l, tab_nth by lia. rewrite (proj2 (Nat.ltb_lt m R)) by lia.
      f_equal. f_equal. lia.
Qed.

(* ---------------------------------------------------------------- group-by *)

Lemma fits_encodable vec : fits t vec -> forallb (encodable t) vec = true.
Proof. intros H. apply forallb_forall. intros v Hv. apply Z.leb_le, H, Hv. Qed.
Lemma encode_nth vec : length vec <= 2 * R -> fits t vec -> exists e, encode R t vec = Some e /\ length e = 2 * R /\
  forall p, nth p e 0%Z = (nth p vec 0 mod t)%Z.
Proof.
  intros L FT. unfold encode. rewrite (proj2 (Nat.leb_le _ _) L), (fits_encodable vec FT). cbn [andb]. eexists. split; [reflexivity|]. split.
  - rewrite map_length, app_length, repeat_length. lia.
  - intros p. destruct (lt_dec p (2 * R)) as [H|H].
    + rewrite (nth_indep _ 0%Z (0 mod t)%Z) by (rewrite map_length, app_length, repeat_length; lia).
      rewrite (map_nth (fun v => v mod t)%Z). f_equal.
      destruct (lt_dec p (length vec)) as [H'|H']; [rewrite app_nth1 by lia; reflexivity|].
      rewrite app_nth2, nth_repeat by lia. symmetry. apply nth_overflow. lia.
    + rewrite !nth_overflow; [rewrite Z.mod_0_l; lia|lia|rewrite map_length, app_length, repeat_length; lia].
Qed.

Definition all_zero_mask (e : list Z) : bool := forallb (Z.eqb 0) e.
Lemma mul_has c k s w : has c k s -> length w <= 2 * R -> fits t w ->
  (public_part (cctx c) = Some k \/ exists p, p < length w /\ (nth p w 0 mod t <> 0)%Z) ->
  exists c' r, mul_plain R t c w = Some c' /\ cctx c' = cctx c /\ has c' k r /\
    forall p, p < 2 * R -> cong (nth p r 0%Z) (nth p s 0 * nth p w 0)%Z.
Proof.
  intros H L FT Hx. destruct (encode_nth w L FT) as (e & Ee & Le & Ne). unfold mul_plain. rewrite Ee.
  destruct (forallb (Z.eqb 0) e) eqn:Z0.
  - assert (forall p, nth p e 0%Z = 0%Z) as Ez.
    { intros p. destruct (nth_in_or_default p e 0%Z) as [Hin|Hd]; [|exact Hd].
      apply (proj1 (forallb_forall _ _) Z0) in Hin. apply Z.eqb_eq in Hin. congruence. }
    destruct Hx as [Hx|(p & Hp & Np)]; [|exfalso; apply Np; rewrite <- Ne; apply Ez].
    rewrite Hx. eexists _, _. split; [reflexivity|]. split; [reflexivity|]. split; [reflexivity|].
    intros p Hp. rewrite nth_repeat. unfold cong. rewrite Z.mul_mod, <- Ne, Ez, Z.mul_0_r by lia. reflexivity.
  - rewrite H. eexists _, _. split; [reflexivity|]. split; [reflexivity|]. split; [reflexivity|].
    intros p Hp. unfold slotwise. rewrite tab_nth by exact Hp. rewrite Ne. eapply eq_trans; [apply cong_mod|].
    apply cong_mul; [reflexivity|apply cong_mod].
Qed.

Lemma chunk_nth B data i p : p < B -> nth p (data_chunk B data i) 0%Z = nth (i * B + p) data 0%Z.
Proof.
  intros Hp. unfold data_chunk. cbv zeta. set (s := i * B). set (e := Nat.min ((i + 1) * B) (length data)).
  destruct (lt_dec p (e - s)) as [L|L].
  - rewrite app_nth1 by (rewrite firstn_length, skipn_length; unfold e in *; lia).
    rewrite <- (firstn_skipn s data) at 2. rewrite app_nth2; rewrite firstn_length; [|lia].
    replace (s + p - Nat.min s (length data)) with p by (unfold e in L; lia).
    rewrite <- (firstn_skipn (e - s) (skipn s data)) at 2. rewrite app_nth1; [reflexivity|]. rewrite firstn_length, skipn_length. unfold e in *; lia.
  - rewrite app_nth2 by (rewrite firstn_length; lia). rewrite nth_repeat. symmetry. apply nth_overflow. unfold s, e in *. lia.
Qed.
Lemma chunk_length B data i : length (data_chunk B data i) = B.
Proof.
  unfold data_chunk. cbv zeta. rewrite app_length, repeat_length, firstn_length, skipn_length. lia.
Qed.
Lemma mask_length B bins i k : length (bin_mask B bins i k) = B.
Proof.
  unfold bin_mask. cbv zeta. rewrite map_length, app_length, repeat_length, firstn_length, skipn_length. lia.
Qed.
Lemma mask_nth B bins i k p : (0 <= k)%Z -> p < B ->
  nth p (bin_mask B bins i k) 0%Z = if (nth (i * B + p) bins (-1) =? k)%Z then 1%Z else 0%Z.
Proof.
  intros Hk Hp. unfold bin_mask. cbv zeta. set (s := i * B). set (e := Nat.min ((i + 1) * B) (length bins)).
  set (f := fun b => if (b =? k)%Z then 1%Z else 0%Z).
  rewrite (nth_indep _ 0%Z (f (-1)%Z)) by (rewrite map_length, app_length, repeat_length, firstn_length, skipn_length; unfold s, e; lia).
  rewrite map_nth. transitivity (f (nth (s + p) bins (-1)%Z)); [f_equal|reflexivity].
  destruct (lt_dec p (e - s)) as [L|L].
  - rewrite app_nth1 by (rewrite firstn_length, skipn_length; unfold e in *; lia).
    rewrite <- (firstn_skipn s bins) at 2. rewrite app_nth2; rewrite firstn_length; [|lia].
    replace (s + p - Nat.min s (length bins)) with p by (unfold e in L; lia).
    rewrite <- (firstn_skipn (e - s) (skipn s bins)) at 2. rewrite app_nth1; [reflexivity|]. rewrite firstn_length, skipn_length. unfold e in *; lia.
  - rewrite app_nth2 by (rewrite firstn_length; lia). rewrite nth_repeat. symmetry. apply nth_overflow. unfold s, e in *. lia.
Qed.

Lemma data_chunk_fits B data i : fits t data -> fits t (data_chunk B data i).
Proof.
  intros H v Hv. unfold data_chunk in Hv. cbv zeta in Hv. apply in_app_or in Hv. destruct Hv as [Hv|Hv].
  - apply H. rewrite <- (firstn_skipn (i * B) data). apply in_or_app. right.
    rewrite <- (firstn_skipn (Nat.min ((i + 1) * B) (length data) - i * B) (skipn (i * B) data)). apply in_or_app. left. exact Hv.
  - apply repeat_spec in Hv. subst v. cbn. lia.
Qed.
Lemma bits_fit w : (1 < t)%Z -> (forall v, In v w -> v = 0%Z \/ v = 1%Z) -> fits t w.
Proof. intros H1 H v Hv. destruct (H v Hv) as [-> | ->]; cbn; lia. Qed.
Lemma bin_mask_fits B bins i g : (1 < t)%Z -> fits t (bin_mask B bins i g).
Proof.
  intros H1. apply bits_fit; [exact H1|]. intros v Hv. unfold bin_mask in Hv. cbv zeta in Hv. apply in_map_iff in Hv.
  destruct Hv as (b & <- & _). destruct (b =? g)%Z; auto.
Qed.
Lemma zeros_fit n : fits t (repeat 0%Z n).
Proof. intros v Hv. apply repeat_spec in Hv. subst v. cbn. lia. Qed.

Lemma group_sum_zsum data : forall bins g, length bins = length data -> 
  group_sum data bins g = zsum (length data) (fun j => if (nth j bins (-1) =? g)%Z then nth j data 0 else 0)%Z.
Proof.
  induction data as [|d data IH]; intros bins g L; [reflexivity|]. destruct bins as [|b bins]; [discriminate L|].
  cbn [group_sum length]. rewrite IH by (cbn in L; lia). change (S (length data)) with (1 + length data). rewrite zsum_add.
  cbn [zsum nth Nat.add]. lia.
Qed.

Lemma chunk_cover B n : 0 < B -> n <= num_chunks B n * B.
Proof.
  intros HB. unfold num_chunks. pose proof (Nat.div_mod (n + B - 1) B). pose proof (Nat.mod_upper_bound (n + B - 1) B). lia.
Qed.

(** the masked products summed over all chunks and slots are the group sum *)
Lemma masked_total B data bins g : 0 < B -> length bins = length data -> (0 <= g)%Z ->
  zsum B (fun p => zsum (num_chunks B (length data)) (fun i => nth p (data_chunk B data i) 0 * nth p (bin_mask B bins i g) 0)%Z)
  = group_sum data bins g.
Proof.
  intros HB L Hg. rewrite zsum_swap, group_sum_zsum by exact L.
  set (f := fun j => if (nth j bins (-1) =? g)%Z then nth j data 0%Z else 0%Z).
  assert (zsum (num_chunks B (length data) * B) f = zsum (length data) f) as <-.
  { pose proof (chunk_cover B (length data) HB) as C.
    replace (num_chunks B (length data) * B) with (length data + (num_chunks B (length data) * B - length data)) by lia.
    rewrite zsum_add. assert (zsum (num_chunks B (length data) * B - length data) (fun i => f (length data + i)) = 0%Z) as ->; [|lia].
    rewrite <- (zsum_0 (num_chunks B (length data) * B - length data)). apply zsum_ext. intros i _. unfold f.
    rewrite (nth_overflow bins) by lia. destruct (Z.eqb_spec (-1) g); [lia|reflexivity]. }
  rewrite zsum_mul. apply zsum_ext. intros i _. apply zsum_ext. intros p Hp.
  rewrite chunk_nth, mask_nth by assumption. unfold f. destruct (_ =? _)%Z; lia.
Qed.

Lemma masked_sum_has B bins g rk k : (1 < t)%Z -> B <= 2 * R -> forall (is_ : list nat) (cts : list cipher) (ds : nat -> list Z) current s,
  has current k s ->
  Forall2 (fun i ct => exists si, has ct k si /\ (forall p, p < 2 * R -> cong (nth p si 0%Z) (nth p (ds i) 0%Z)) /\
     (public_part (cctx ct) = Some k \/ exists p, p < B /\ (nth p (bin_mask B bins i g) 0 mod t <> 0)%Z)) is_ cts ->
  exists c' s', masked_sum R t B bins g rk (combine is_ cts) current = Some c' /\ cctx c' = cctx current /\ has c' k s' /\
    forall p, p < 2 * R -> cong (nth p s' 0%Z)
      (nth p s 0 + fold_right Z.add 0 (map (fun i => nth p (ds i) 0 * nth p (bin_mask B bins i g) 0) is_))%Z.
Proof.
  intros Ht1 HB is_ cts ds current s H F. revert current s H. induction F as [|i ct is_ cts (si & Hi & Ni & Xi) F IH]; intros current s H.
  - exists current, s. cbn [combine masked_sum map fold_right]. repeat split; auto. intros p _. rewrite Z.add_0_r. reflexivity.
  - cbn [combine masked_sum].
    destruct (mul_has ct k si (bin_mask B bins i g) Hi) as (c1 & s1 & E1 & X1 & H1 & N1); [rewrite mask_length; exact HB|apply bin_mask_fits, Ht1| |].
    { destruct Xi as [Xi|(p & Hp & Np)]; [left; exact Xi|right; exists p; rewrite mask_length; auto]. }
    rewrite E1. cbn [bind relinearize]. destruct (add_has current c1 k s s1 H H1) as (c2 & s2 & E2 & X2 & H2 & N2).
    unfold relinearize. cbn [bind]. rewrite E2. cbn [bind]. destruct (IH c2 s2 H2) as (c3 & s3 & E3 & X3 & H3 & N3).
    exists c3, s3. split; [exact E3|]. split; [congruence|]. split; [exact H3|]. intros p Hp. eapply eq_trans; [apply N3, Hp|].
    cbn [map fold_right]. rewrite Z.add_assoc. apply cong_add; [|reflexivity]. eapply eq_trans; [apply N2, Hp|].
    apply cong_add; [reflexivity|]. eapply eq_trans; [apply N1, Hp|]. apply cong_mul; [apply Ni, Hp|reflexivity].
Qed.

Lemma fold_right_zsum n (f : nat -> Z) : fold_right Z.add 0%Z (map f (seq 0 n)) = zsum n f.
Proof.
  induction n as [|n IH]; [reflexivity|]. rewrite seq_S, map_app, fold_right_app. cbn [map fold_right zsum Nat.add]. rewrite <- IH.
  generalize (map f (seq 0 n)). intros l. induction l as [|a l IHl]; cbn [fold_right]; lia.
Qed.

Lemma mapM_total {A B} (f : A -> option B) (g : A -> B) l : (forall a, In a l -> f a = Some (g a)) -> mapM f l = Some (map g l).
Proof.
  induction l as [|a l IH]; intros H; [reflexivity|]. cbn [mapM map]. rewrite H by (left; reflexivity).
  rewrite IH by (intros; apply H; right; assumption). reflexivity.
Qed.
Lemma mapM_fails {A B} (f : A -> option B) l a : In a l -> f a = None -> mapM f l = None.
Proof.
  induction l as [|b l IH]; intros Hin Hf; [destruct Hin|]. cbn [mapM]. destruct Hin as [->|Hin]; [rewrite Hf; reflexivity|].
  destruct (f b); [|reflexivity]. rewrite IH by assumption. reflexivity.
Qed.
Lemma mapM_exists {A B} (f : A -> option B) l : (forall a, In a l -> exists b, f a = Some b) ->
  exists bs, mapM f l = Some bs /\ Forall2 (fun a b => f a = Some b) l bs.
Proof.
  induction l as [|a l IH]; intros H; [exists []; split; [reflexivity|constructor]|].
  destruct (H a (or_introl eq_refl)) as (b & E). destruct IH as (bs & Eb & F); [intros; apply H; right; assumption|].
  exists (b :: bs). cbn [mapM]. rewrite E, Eb. split; [reflexivity|constructor; assumption].
Qed.

Lemma encrypt_has vec pk k : public_part pk = Some k -> length vec <= 2 * R -> fits t vec ->
  exists s, encrypt R t vec pk = Some (Cipher (Some (k, s)) pk) /\ forall p, cong (nth p s 0%Z) (nth p vec 0%Z).
Proof.
  intros Hk L FT. unfold encrypt. rewrite Hk. destruct (encode_nth vec L FT) as (e & -> & _ & Ne). exists e. split; [reflexivity|].
  intros p. rewrite Ne. apply cong_mod.
Qed.

Lemma centred_cong v w : cong v w -> centred t v = centred t w.
Proof. unfold centred, cong. intros ->. reflexivity. Qed.
Lemma centred_spec v : is_centred t v (centred t v).
Proof.
  unfold is_centred, centred. pose proof (Z.mod_pos_bound v t Ht). destruct (Z.ltb_spec (t / 2) (v mod t)).
  - split; [rewrite <- (Z_mod_plus_full (v mod t - t) 1 t); rewrite Z.mul_1_l, Z.sub_add; apply Z.mod_mod; lia|].
    pose proof (Z.div_mod t 2). pose proof (Z.mod_pos_bound t 2).
    assert (- (t - 1) / 2 <= v mod t - t)%Z; [|lia].
    apply Z.div_le_upper_bound; lia.
  - split; [apply Z.mod_mod; lia|]. assert (- (t - 1) / 2 <= 0)%Z by (apply Z.div_le_upper_bound; lia). lia.
Qed.

(** the chunks at the receiver *)
Lemma chunks_ok (data : list Z) key : fits t data -> let B := R in
  exists chunks, mapM (fun i => encrypt R t (data_chunk B data i) (PublicCtx key)) (seq 0 (num_chunks B (length data))) = Some chunks /\
    Forall2 (fun i ct => cctx ct = PublicCtx key /\ exists si, has ct key si /\ forall p, cong (nth p si 0%Z) (nth p (data_chunk B data i) 0%Z))
      (seq 0 (num_chunks B (length data))) chunks.
Proof.
  intros FT. cbv zeta.
  destruct (mapM_exists (fun i => encrypt R t (data_chunk R data i) (PublicCtx key)) (seq 0 (num_chunks R (length data)))) as (bs & E & F).
  { intros i _. destruct (encrypt_has (data_chunk R data i) (PublicCtx key) key eq_refl) as (s & Es & _); [rewrite chunk_length; lia|apply data_chunk_fits, FT|]. eauto. }
  exists bs. split; [exact E|]. clear E. induction F as [|i ct l l' Ei F IH]; [constructor|]. constructor; [|exact IH].
  destruct (encrypt_has (data_chunk R data i) (PublicCtx key) key eq_refl) as (s & Es & Ns); [rewrite chunk_length; lia|apply data_chunk_fits, FT|].
  rewrite Es in Ei. injection Ei as <-. split; [reflexivity|]. exists s. split; [reflexivity|exact Ns].
Qed.

Lemma Forall2_map_r {A B C} (P : A -> C -> Prop) (f : B -> C) l l' : Forall2 (fun a b => P a (f b)) l l' -> Forall2 P l (map f l').
Proof. induction 1; cbn [map]; constructor; auto. Qed.
Lemma Forall2_impl {A B} (P Q : A -> B -> Prop) l l' : (forall a b, In a l -> P a b -> Q a b) -> Forall2 P l l' -> Forall2 Q l l'.
Proof. intros H F. induction F as [|a b l l' Hab F IH]; constructor; [apply H; [left; reflexivity|exact Hab]|apply IH; intros; apply H; [right; assumption|assumption]]. Qed.
Lemma Forall2_length {A B} (P : A -> B -> Prop) l l' : Forall2 P l l' -> length l = length l'.
Proof. induction 1; cbn [length]; congruence. Qed.

(** bin g occurs in chunk i *)
Definition bin_in_chunk (bins : list Z) (i : nat) (g : Z) : Prop :=
  exists j, i * R <= j < (i + 1) * R /\ j < length bins /\ nth j bins (-1)%Z = g.

Lemma groupby_ok e networked key data bins K : R = 2 ^ e -> (1 < t)%Z -> fits t data -> length bins = length data ->
  (networked = true -> forall i g, i < num_chunks R (length data) -> g < K -> bin_in_chunk bins i (Z.of_nat g)) ->
  snd (groupby_bfv R t networked key data bins K) = Some (map (fun g => centred t (group_sum data bins (Z.of_nat g))) (seq 0 K)).
Proof.
  intros He Ht1 FT L Hnet. unfold groupby_bfv. cbv zeta. replace (2 * R / 2) with R by (rewrite Nat.mul_comm, Nat.div_mul; lia).
  destruct (chunks_ok data key FT) as (chunks & Ec & Fc). cbv zeta in Ec, Fc. rewrite Ec. cbn [snd fst v_pk v_rk v_gk v_chunks].
  unfold send_context, make_relin_keys, make_galois_keys.
  destruct (encrypt_has (repeat 0%Z R) (PublicCtx key) key eq_refl) as (z & Ez & Nz); [rewrite repeat_length; lia|apply zeros_fit|].
  rewrite Ez. cbn [bind]. set (ct0 := Cipher (Some (key, z)) (PublicCtx key)).
  pose proof (Forall2_length _ _ _ Fc) as Lc. rewrite seq_length in Lc. rewrite <- Lc.
  assert (forall g, g < K -> exists c', (do s <- masked_sum R t R bins (Z.of_nat g) (SecretCtx key) (combine (seq 0 (num_chunks R (length data))) (map (move networked) chunks)) ct0;
      rotate_and_sum R t s R (SecretCtx key) (2 * R)) = Some c' /\ exists s', has c' key s' /\ cong (nth 0 s' 0%Z) (group_sum data bins (Z.of_nat g))) as K1.
  { intros g Hg.
    destruct (masked_sum_has R bins (Z.of_nat g) (SecretCtx key) key Ht1 ltac:(lia) (seq 0 (num_chunks R (length data))) (map (move networked) chunks)
       (fun i => data_chunk R data i) ct0 z eq_refl) as (c1 & s1 & E1 & X1 & H1 & N1).
    { apply Forall2_map_r. eapply Forall2_impl; [|exact Fc]. intros i ct Hin (Xc & si & Hi & Ni). apply in_seq in Hin. exists si. unfold move. split.
      - destruct networked; exact Hi.
      - split; [intros p _; apply Ni|]. destruct networked; [right|left; rewrite Xc; reflexivity].
        destruct (Hnet eq_refl i g ltac:(lia) Hg) as (j & Hj & Hlen & Ej). exists (j - i * R). split; [lia|].
        rewrite mask_nth by lia. replace (i * R + (j - i * R)) with j by lia. rewrite Ej, Z.eqb_refl. rewrite Z.mod_1_l by lia. discriminate. }
    rewrite E1. cbn [bind].
    destruct (rotate_and_sum_has e c1 key s1 (SecretCtx key) R He H1 eq_refl) as (c2 & s2 & E2 & _ & H2 & N2); [lia|].
    exists c2. split; [exact E2|]. exists s2. split; [exact H2|]. eapply eq_trans; [apply N2|]. unfold covered. rewrite Nat.leb_refl.
    rewrite He at 1. rewrite Nat.log2_up_pow2 by lia. rewrite <- He.
    rewrite <- (masked_total R data bins (Z.of_nat g)) by (try exact L; lia).
    apply zsum_cong; [lia|]. intros p Hp. eapply eq_trans; [apply N1; lia|]. rewrite fold_right_zsum.
    assert (cong (nth p z 0%Z) 0) as Cz by (eapply eq_trans; [apply Nz|]; rewrite nth_repeat; reflexivity).
    eapply eq_trans; [apply cong_add; [exact Cz|apply cong_refl]|]. rewrite Z.add_0_l. reflexivity. }
  destruct (mapM_exists (fun g => do s <- masked_sum R t R bins (Z.of_nat g) (SecretCtx key) (combine (seq 0 (num_chunks R (length data))) (map (move networked) chunks)) ct0;
      rotate_and_sum R t s R (SecretCtx key) (2 * R)) (seq 0 K)) as (sums & Es & Fs).
  { intros g Hg. apply in_seq in Hg. destruct (K1 g ltac:(lia)) as (c' & E & _). eauto. }
  rewrite Es. cbn [bind]. clear Es.
  assert (forall l, (forall g, In g l -> g < K) -> forall sums, Forall2 (fun a b => (do s <- masked_sum R t R bins (Z.of_nat a) (SecretCtx key) (combine (seq 0 (num_chunks R (length data))) (map (move networked) chunks)) ct0;
      rotate_and_sum R t s R (SecretCtx key) (2 * R)) = Some b) l sums ->
    mapM (fun ct => do slots <- decrypt (move networked ct) (SecretCtx key); Some (nth 0 (decode t slots) 0%Z)) sums
    = Some (map (fun g => centred t (group_sum data bins (Z.of_nat g))) l)) as K2.
  { clear sums Fs. intros l Hl sums F. induction F as [|g ct l sums Eg F IH]; [reflexivity|]. cbn [mapM map].
    destruct (K1 g (Hl g (or_introl eq_refl))) as (c' & E & s' & Hs & Cs). cbv beta in Eg. rewrite E in Eg. injection Eg as <-.
    assert (payload (move networked c') = Some (key, s')) as Hm by (destruct networked; exact Hs).
    unfold decrypt at 1. cbn [secret_part]. rewrite Hm, Nat.eqb_refl. cbn [bind].
    rewrite IH by (intros; apply Hl; right; assumption). f_equal. f_equal. change (nth 0 (map (centred t) s') 0%Z = centred t (group_sum data bins (Z.of_nat g))).
    assert (nth 0 (map (centred t) s') 0%Z = centred t (nth 0 s' 0%Z)) as ->.
    { destruct s' as [|x s']; [|reflexivity]. cbn. unfold centred. rewrite Z.mod_0_l by lia.
      destruct (Z.ltb_spec (t / 2) 0); [pose proof (Z.div_pos t 2); lia|reflexivity]. }
    apply centred_cong, Cs. }
  apply K2; [intros g Hg; apply in_seq in Hg; lia|exact Fs].
Qed.

Lemma masked_sum_fails B bins g rk : forall is_ cts current i ct, In (i, ct) (combine is_ cts) ->
  mul_plain R t ct (bin_mask B bins i g) = None -> masked_sum R t B bins g rk (combine is_ cts) current = None.
Proof.
  intros is_ cts. generalize (combine is_ cts). induction l as [|[j cj] l IH]; intros current i ct Hin Hf; [destruct Hin|].
  cbn [masked_sum]. destruct Hin as [E|Hin].
  - injection E as -> ->. rewrite Hf. reflexivity.
  - destruct (mul_plain R t cj (bin_mask B bins j g)); [|reflexivity]. cbn [bind relinearize]. unfold relinearize. cbn [bind].
    destruct (add R t current c); [|reflexivity]. cbn [bind]. apply (IH _ i ct Hin Hf).
Qed.

Lemma groupby_network_fails key data bins K i g : (1 < t)%Z -> fits t data -> length bins = length data ->
  i < num_chunks R (length data) -> g < K -> ~ bin_in_chunk bins i (Z.of_nat g) ->
  snd (groupby_bfv R t true key data bins K) = None.
Proof.
  intros Ht1 FT L Hi Hg Hno. unfold groupby_bfv. cbv zeta. replace (2 * R / 2) with R by (rewrite Nat.mul_comm, Nat.div_mul; lia).
  destruct (chunks_ok data key FT) as (chunks & Ec & Fc). cbv zeta in Ec, Fc. rewrite Ec. cbn [snd fst v_pk v_rk v_gk v_chunks].
  destruct (encrypt R t (repeat 0%Z R) (send_context (PublicCtx key))) as [ct0|]; [|reflexivity]. cbn [bind].
  pose proof (Forall2_length _ _ _ Fc) as Lc. rewrite seq_length in Lc. rewrite <- Lc.
  rewrite (mapM_fails _ (seq 0 K) g); [reflexivity|apply in_seq; lia|].
  assert (exists ct, In (i, ct) (combine (seq 0 (num_chunks R (length data))) (map (move true) chunks)) /\ cctx ct = ParamCtx) as (ct & Hin & Hx).
  { exists (nth i (map (move true) chunks) (Cipher None ParamCtx)). split.
    - assert (nth i (combine (seq 0 (num_chunks R (length data))) (map (move true) chunks)) (0, Cipher None ParamCtx) = (i, nth i (map (move true) chunks) (Cipher None ParamCtx))) as <-.
      { rewrite combine_nth by (rewrite seq_length, map_length; exact Lc). rewrite seq_nth by exact Hi. reflexivity. }
      apply nth_In. rewrite combine_length, seq_length, map_length. lia.
    - destruct (nth_in_or_default i (map (move true) chunks) (Cipher None ParamCtx)) as [Hn| ->]; [|reflexivity].
      apply in_map_iff in Hn. destruct Hn as (x & <- & _). reflexivity. }
  rewrite (masked_sum_fails R bins (Z.of_nat g) _ _ _ ct0 i ct Hin); [reflexivity|].
  unfold mul_plain. destruct (encode_nth (bin_mask R bins i (Z.of_nat g))) as (e & -> & Le & Ne); [rewrite mask_length; lia|apply bin_mask_fits, Ht1|].
  assert (forallb (Z.eqb 0) e = true) as ->; [|rewrite Hx; reflexivity].
  apply forallb_forall. intros x Hx'. apply (In_nth _ _ 0%Z) in Hx'. destruct Hx' as (p & Hp & <-). rewrite Ne.
  destruct (lt_dec p R) as [Lp|Lp].
  - rewrite mask_nth by lia. destruct (Z.eqb_spec (nth (i * R + p) bins (-1)%Z) (Z.of_nat g)) as [E|E].
    + exfalso. apply Hno. exists (i * R + p). split; [lia|]. split; [|exact E].
      destruct (lt_dec (i * R + p) (length bins)) as [H|H]; [exact H|]. rewrite nth_overflow in E by lia. lia.
    + rewrite Z.mod_0_l by lia. reflexivity.
  - rewrite nth_overflow by (rewrite mask_length; lia). rewrite Z.mod_0_l by lia. reflexivity.
Qed.
End Ops.
