From Coq Require Import List NArith ZArith Bool Lia.
From Verif Require Import MPCBase OTModel OTSpec.
Import ListNotations.
Local Open Scope nat_scope.

Section Grp.
Variable E : ecgroup.
Hypothesis OK : group_ok E.
Notation "p +g q" := (padd E p q) (at level 50, left associativity).
Notation O_ := (pzero E).

Lemma add_0_r p : p +g O_ = p.
Proof. rewrite (g_comm E OK). apply (g_zero E OK). Qed.
Lemma nmul_S n p : nmul E (S n) p = p +g nmul E n p.
Proof. reflexivity. Qed.
Lemma nmul_add a b p : nmul E (a + b) p = nmul E a p +g nmul E b p.
Proof.
  induction a as [|a IH]; cbn [Nat.add].
  - symmetry. apply (g_zero E OK).
  - rewrite !nmul_S, IH. apply (g_assoc E OK).
Qed.
Lemma nmul_0 n : nmul E n O_ = O_.
Proof. induction n; [reflexivity|]. rewrite nmul_S, IHn. apply (g_zero E OK). Qed.
Lemma nmul_mul a b p : nmul E (a * b) p = nmul E a (nmul E b p).
Proof.
  induction a as [|a IH]; [reflexivity|]. cbn [Nat.mul]. rewrite nmul_add, nmul_S, IH. reflexivity.
Qed.
Lemma nmul_dist n p q : nmul E n (p +g q) = nmul E n p +g nmul E n q.
Proof.
  induction n as [|n IH]; [symmetry; apply (g_zero E OK)|]. rewrite !nmul_S, IH.
  rewrite !(g_assoc E OK). f_equal. rewrite <- !(g_assoc E OK). f_equal. apply (g_comm E OK).
Qed.
Lemma nmul_mod n p : nmul E n p = nmul E (n mod Z.to_nat (ord E)) p.
Proof.
  pose proof (g_ordp E OK) as Hp. set (o := Z.to_nat (ord E)).
  rewrite (Nat.div_mod n o) at 1 by (unfold o; lia). rewrite nmul_add, Nat.mul_comm, nmul_mul.
  unfold o. rewrite (g_kill E OK), nmul_0. apply (g_zero E OK).
Qed.
Lemma ec_mul_nat n p : ec_mul E p (Z.of_nat n) = nmul E n p.
Proof.
  unfold ec_mul. rewrite (nmul_mod n). f_equal. pose proof (g_ordp E OK).
  rewrite Z2Nat.inj_mod by lia. rewrite Nat2Z.id. reflexivity.
Qed.
Lemma ec_mul_mod s p : ec_mul E p (s mod ord E) = ec_mul E p s.
Proof. unfold ec_mul. rewrite Z.mod_mod; [reflexivity|]. pose proof (g_ordp E OK). lia. Qed.
Lemma ec_mul_as_nat s p : exists n, ec_mul E p s = nmul E n p /\ (s mod ord E = Z.of_nat n)%Z.
Proof.
  exists (Z.to_nat (s mod ord E)). split; [reflexivity|]. rewrite Z2Nat.id; [reflexivity|].
  apply Z.mod_pos_bound, (g_ordp E OK).
Qed.
Lemma ec_mul_add a b p : ec_mul E p (a + b) = ec_mul E p a +g ec_mul E p b.
Proof.
  pose proof (g_ordp E OK).
  rewrite <- ec_mul_mod, Z.add_mod, ec_mul_mod by lia.
  destruct (ec_mul_as_nat a p) as (x & -> & ->). destruct (ec_mul_as_nat b p) as (y & -> & ->).
  rewrite <- Nat2Z.inj_add, ec_mul_nat. apply nmul_add.
Qed.
Lemma ec_mul_mul a b p : ec_mul E (ec_mul E p a) b = ec_mul E p (a * b).
Proof.
  pose proof (g_ordp E OK).
  rewrite <- (ec_mul_mod (a * b)), Z.mul_mod, ec_mul_mod by lia.
  destruct (ec_mul_as_nat a p) as (x & -> & ->).
  destruct (ec_mul_as_nat b (nmul E x p)) as (y & -> & ->).
  rewrite <- Nat2Z.inj_mul, ec_mul_nat, Nat.mul_comm, nmul_mul. reflexivity.
Qed.
Lemma ec_mul_dist s p q : ec_mul E (p +g q) s = ec_mul E p s +g ec_mul E q s.
Proof. apply nmul_dist. Qed.
Lemma ec_mul_0 p : ec_mul E p 0 = O_.
Proof. change 0%Z with (Z.of_nat 0). rewrite ec_mul_nat. reflexivity. Qed.
Lemma ec_mul_1 p : ec_mul E p 1 = p.
Proof. change 1%Z with (Z.of_nat 1). rewrite ec_mul_nat. cbn. apply add_0_r. Qed.
Lemma ec_mul_O s : ec_mul E O_ s = O_.
Proof. apply nmul_0. Qed.
Lemma ec_mul_2 p : ec_mul E p 2 = p +g p.
Proof. change 2%Z with (1 + 1)%Z. rewrite ec_mul_add, ec_mul_1. reflexivity. Qed.
Lemma cancel_l p q r : p +g q = p +g r -> q = r.
Proof.
  intros H. apply (f_equal (fun x => padd E (popp E p) x)) in H. rewrite !(g_assoc E OK) in H.
  rewrite (g_comm E OK (popp E p) p), (g_opp E OK), !(g_zero E OK) in H. exact H.
Qed.
Lemma ec_mul_neg1 p : p +g ec_mul E p (ord E - 1) = O_.
Proof.
  rewrite <- (ec_mul_1 p) at 1. rewrite <- ec_mul_add. replace (1 + (ord E - 1))%Z with (ord E) by lia.
  rewrite <- ec_mul_mod, Z.mod_same by (pose proof (g_ordp E OK); lia). apply ec_mul_0.
Qed.
Lemma opp_mul p : popp E p = ec_mul E p (ord E - 1).
Proof. apply (cancel_l p). rewrite ec_mul_neg1. apply (g_opp E OK). Qed.

Lemma ec_add_ok p q r : ec_add E p q = Some r -> r = p +g q.
Proof.
  unfold ec_add. destruct (pis0 E p) eqn:P.
  - apply (g_is0 E OK) in P. subst p. intros [= <-]. symmetry. apply (g_zero E OK).
  - destruct (pis0 E q) eqn:Q.
    + apply (g_is0 E OK) in Q. subst q. intros [= <-]. symmetry. apply add_0_r.
    + destruct (pis0 E (p +g q)); [discriminate|]. intros [= <-]. reflexivity.
Qed.
Lemma ec_sub_ok p q r : ec_sub E p q = Some r -> r +g q = p.
Proof.
  unfold ec_sub. destruct (pis0 E q) eqn:Q.
  - apply (g_is0 E OK) in Q. subst q. intros [= <-]. apply add_0_r.
  - destruct (pis0 E p) eqn:P.
    + apply (g_is0 E OK) in P. subst p. intros [= <-]. rewrite (g_comm E OK). apply ec_mul_neg1.
    + destruct (pis0 E (p +g ec_mul E q (ord E - 1))); [discriminate|]. intros [= <-].
      rewrite <- (g_assoc E OK), (g_comm E OK (ec_mul _ _ _)), ec_mul_neg1. apply add_0_r.
Qed.
Lemma is0_false p : p <> O_ -> pis0 E p = false.
Proof. intros H. destruct (pis0 E p) eqn:P; [|reflexivity]. apply (g_is0 E OK) in P. contradiction. Qed.
Lemma ec_add_total p q : p +g q <> O_ -> ec_add E p q = Some (p +g q).
Proof.
  intros H. unfold ec_add. destruct (pis0 E p) eqn:P.
  - apply (g_is0 E OK) in P. subst p. rewrite (g_zero E OK). reflexivity.
  - destruct (pis0 E q) eqn:Q.
    + apply (g_is0 E OK) in Q. subst q. rewrite add_0_r. reflexivity.
    + rewrite (is0_false _ H). reflexivity.
Qed.
Lemma ec_sub_total p q : p <> q -> exists r, ec_sub E p q = Some r.
Proof.
  intros H. unfold ec_sub. destruct (pis0 E q); [eauto|]. destruct (pis0 E p); [eauto|].
  destruct (pis0 E (p +g ec_mul E q (ord E - 1))) eqn:Z; [|eauto]. exfalso. apply H.
  apply (g_is0 E OK) in Z. apply (cancel_l (ec_mul E q (ord E - 1))).
  rewrite (g_comm E OK), Z, (g_comm E OK), ec_mul_neg1. reflexivity.
Qed.

Hypothesis EX : gen_exact E.
Lemma gen_inj a b : ec_mul E (pgen E) a = ec_mul E (pgen E) b -> ((a - b) mod ord E = 0)%Z.
Proof.
  intros H. apply EX. replace (a - b)%Z with (a + (-1) * b)%Z by lia. rewrite ec_mul_add, H, <- ec_mul_add.
  replace (b + -1 * b)%Z with 0%Z by lia. apply ec_mul_0.
Qed.
End Grp.

(* ------------------------------------------------------------ base OT *)
Section OT.
Variable X : cenv.
Hypothesis OKX : env_ok X.
Notation EE := (grp X).
Let OK : group_ok EE := e_grp X OKX.

Lemma keygen_value C b k PK0 : bitZ b -> receiver_keygen X C b k = Some PK0 ->
  PK0 = (if Z.eqb b 0 then ec_mul EE (pgen EE) k else PK0) /\
  (b = 1%Z -> padd EE PK0 (ec_mul EE (pgen EE) k) = C).
Proof.
  intros Hb H. unfold receiver_keygen in H. apply bind_Some in H. destruct H as (diff & Hd & Ha).
  apply (ec_sub_ok EE OK) in Hd. apply (ec_add_ok EE OK) in Ha. destruct Hb as [-> | ->].
  - rewrite (ec_mul_0 EE OK), (add_0_r EE OK) in Ha. cbn [Z.eqb]. split; [exact Ha|]. intros; lia.
  - split; [reflexivity|]. intros _. rewrite (ec_mul_1 EE OK) in Ha. subst PK0.
    rewrite <- Hd, (ec_mul_2 EE OK). set (P := ec_mul EE (pgen EE) k).
    rewrite (g_comm EE OK P diff), <- (g_assoc EE OK). reflexivity.
Qed.

Lemma shared_key C b k r0 r1 PK0 u0 k0 u1 k1 kpt :
  bitZ b ->
  receiver_keygen X C b k = Some PK0 ->
  sender_derive_keys X C PK0 r0 r1 = Some (u0, k0, u1, k1) ->
  receiver_derive_key X u0 u1 k b = Some kpt ->
  kpt = if Z.eqb b 0 then k0 else k1.
Proof.
  intros Hb HK HS HR. destruct (keygen_value _ _ _ _ Hb HK) as [K0v K1v].
  unfold sender_derive_keys in HS. apply bind_Some in HS. destruct HS as (PK1 & HP & HS).
  injection HS as <- <- <- <-. apply (ec_sub_ok EE OK) in HP.
  unfold receiver_derive_key in HR. apply bind_Some in HR. destruct HR as (d & Hd & HR).
  apply bind_Some in HR. destruct HR as (U & HU & HR). injection HR as <-.
  apply (ec_sub_ok EE OK) in Hd. apply (ec_add_ok EE OK) in HU. destruct Hb as [-> | ->]; cbn [Z.eqb].
  - rewrite (ec_mul_0 EE OK), (add_0_r EE OK) in HU. subst U. cbn [Z.eqb] in K0v. rewrite K0v.
    rewrite !(ec_mul_mul EE OK). f_equal. lia.
  - rewrite (ec_mul_1 EE OK), (g_comm EE OK), Hd in HU. subst U.
    assert (PK1 = ec_mul EE (pgen EE) k) as ->.
    { apply (cancel_l EE OK PK0). rewrite (K1v eq_refl), (g_comm EE OK). exact HP. }
    rewrite !(ec_mul_mul EE OK). f_equal. lia.
Qed.

Section T.
Variables (M CT : Type) (enc : list N -> list N -> M -> CT) (dec : list N -> CT -> option M).
Hypothesis SYM : forall key nonce m, dec key (enc key nonce m) = Some m.

Lemma transfer_correct rC rnd ms0 ms1 bs d out :
  Forall bitZ bs ->
  transfer X M CT enc dec rC rnd ms0 ms1 bs d = Some out ->
  length out = length bs /\
  forall i, i < length bs ->
    nth i out d = chosen (Z.eqb (nth i bs 0%Z) 1) (nth i ms0 d) (nth i ms1 d).
Proof.
  intros Hb H. unfold transfer in H.
  destruct (negb (Nat.eqb (length ms0) (length bs) && Nat.eqb (length ms1) (length bs))); [discriminate|].
  apply bind_Some in H. destruct H as (PK0s & HP & H).
  apply bind_Some in H. destruct H as (cts & HC & H).
  apply tabM_Some in HP. destruct HP as [LP HP].
  apply tabM_Some in HC. destruct HC as [LC HC].
  apply tabM_Some in H. destruct H as [LO HO].
  split; [exact LO|]. intros i Hi. specialize (HP i (pzero EE) Hi).
  specialize (HO i d Hi). cbv beta in HO, HP.
  destruct (nth_error cts i) as [ct|] eqn:Ei; [|discriminate].
  specialize (HC i ct Hi). cbv beta in HC. rewrite (nth_error_nth _ _ ct Ei) in HC.
  apply bind_Some in HC. destruct HC as ([[[u0 k0] u1] k1] & HS & HC).
  injection HC as <-. cbv beta iota in HO.
  apply bind_Some in HO. destruct HO as (kpt & HR & HD).
  assert (bitZ (nth i bs 0%Z)) as Hbi.
  { rewrite Forall_forall in Hb. apply Hb, nth_In, Hi. }
  rewrite (shared_key _ _ _ _ _ _ _ _ _ _ _ Hbi HP HS HR) in HD.
  destruct Hbi as [Eb | Eb]; rewrite Eb in HD |- *; cbn [Z.eqb] in HD |- *; rewrite SYM in HD;
    injection HD as <-; reflexivity.
Qed.

Lemma transfer_succeeds rC rnd ms0 ms1 bs d :
  gen_exact EE -> Forall bitZ bs -> length ms0 = length bs -> length ms1 = length bs ->
  (forall i, i < length bs ->
     let o := ord EE in let k := rk (rnd i) in let r0 := rr0 (rnd i) in let r1 := rr1 (rnd i) in
     (k mod o <> 0 /\ (rC - k) mod o <> 0 /\ (rC - 2 * k) mod o <> 0 /\
     r1 mod o <> 0 /\ (r1 - r0) mod o <> 0)%Z) ->
  exists out, transfer X M CT enc dec rC rnd ms0 ms1 bs d = Some out.
Proof.
  intros EX Hb L0 L1 HR. unfold transfer. rewrite L0, L1, Nat.eqb_refl. cbn [negb andb].
  set (C := ec_mul EE (pgen EE) rC).
  assert (forall a, (a mod ord EE <> 0)%Z -> ec_mul EE (pgen EE) a <> pzero EE) as NZ.
  { intros a Ha E0. apply Ha, EX, E0. }
  assert (forall a b, ((a - b) mod ord EE <> 0)%Z -> ec_mul EE (pgen EE) a <> ec_mul EE (pgen EE) b) as NE.
  { intros a b Ha E0. apply Ha, (gen_inj EE OK EX), E0. }
  assert (forall i, i < length bs -> exists PK, receiver_keygen X C (nth i bs 0%Z) (rk (rnd i)) = Some PK) as KG.
  { intros i Hi. destruct (HR i Hi) as (H1 & H2 & H3 & H4 & H5).
    assert (bitZ (nth i bs 0%Z)) as Hbi by (rewrite Forall_forall in Hb; apply Hb, nth_In, Hi).
    unfold receiver_keygen. set (P := ec_mul EE (pgen EE) (rk (rnd i))).
    destruct (ec_sub_total EE OK C (ec_mul EE P 2)) as [df Hdf].
    { unfold C, P. rewrite (ec_mul_mul EE OK). apply NE. replace (rC - rk (rnd i) * 2)%Z with (rC - 2 * rk (rnd i))%Z by lia. exact H3. }
    rewrite Hdf. cbn [bind]. pose proof (ec_sub_ok EE OK _ _ _ Hdf) as Hs.
    destruct Hbi as [-> | ->].
    - rewrite (ec_mul_0 EE OK). exists P. rewrite (ec_add_total EE OK); rewrite (add_0_r EE OK); [reflexivity|].
      apply NZ, H1.
    - rewrite (ec_mul_1 EE OK). exists (padd EE P df). apply (ec_add_total EE OK). intros Z0.
      apply (NE rC (rk (rnd i)) H2). change (C = P). rewrite <- Hs, (ec_mul_2 EE OK), (g_assoc EE OK).
      rewrite (g_comm EE OK df P), Z0. apply (g_zero EE OK). }
  destruct (tabM_total _ _ KG) as [PK0s HP]. rewrite HP. cbn [bind].
  apply tabM_Some in HP. destruct HP as [LP HP].
  assert (forall i, i < length bs -> exists q, sender_derive_keys X C (nth i PK0s (pzero EE)) (rr0 (rnd i)) (rr1 (rnd i)) = Some q) as SD.
  { intros i Hi. specialize (HP i (pzero EE) Hi). cbv beta in HP. destruct (HR i Hi) as (H1 & H2 & H3 & H4 & H5).
    assert (bitZ (nth i bs 0%Z)) as Hbi by (rewrite Forall_forall in Hb; apply Hb, nth_In, Hi).
    destruct (keygen_value _ _ _ _ Hbi HP) as [K0 K1]. unfold sender_derive_keys.
    destruct (ec_sub_total EE OK C (nth i PK0s (pzero EE))) as [P1 ->]; [|cbn [bind]; eauto].
    intros EC. destruct Hbi as [Eb | Eb]; rewrite Eb in *.
    - cbn [Z.eqb] in K0. rewrite K0 in EC. exact (NE _ _ H2 EC).
    - specialize (K1 eq_refl). rewrite <- EC in K1. apply (NZ _ H1).
      apply (cancel_l EE OK C). rewrite K1, (add_0_r EE OK). reflexivity. }
  match goal with |- exists out, bind (tabM ?n ?f) _ = _ => destruct (tabM_total n f) as [cts HC] end.
  { intros i Hi. destruct (SD i Hi) as [[[[u0 k0] u1] k1] ->]. cbn [bind]. eauto. }
  rewrite HC. cbn [bind]. apply tabM_Some in HC. destruct HC as [LC HC].
  apply tabM_total. intros i Hi.
  destruct (nth_error cts i) as [ct|] eqn:Ei; [|apply nth_error_None in Ei; lia].
  specialize (HC i ct Hi). cbv beta in HC. rewrite (nth_error_nth _ _ ct Ei) in HC.
  destruct (SD i Hi) as [[[[u0 k0] u1] k1] HS]. rewrite HS in HC. cbn [bind] in HC. injection HC as <-.
  assert (bitZ (nth i bs 0%Z)) as Hbi by (rewrite Forall_forall in Hb; apply Hb, nth_In, Hi).
  destruct (HR i Hi) as (H1 & H2 & H3 & H4 & H5). specialize (HP i (pzero EE) Hi). cbv beta in HP.
  assert (u0 = ec_mul EE (pgen EE) (rr0 (rnd i)) /\ u1 = ec_mul EE (pgen EE) (rr1 (rnd i))) as [U0 U1].
  { unfold sender_derive_keys in HS. apply bind_Some in HS. destruct HS as (? & _ & HS).
    injection HS as <- _ <- _. split; reflexivity. }
  assert (exists kp, receiver_derive_key X u0 u1 (rk (rnd i)) (nth i bs 0%Z) = Some kp) as [kp HK].
  { unfold receiver_derive_key. destruct (ec_sub_total EE OK u1 u0) as [dU HdU].
    { rewrite U0, U1. apply NE, H5. }
    rewrite HdU. cbn [bind]. apply (ec_sub_ok EE OK) in HdU.
    destruct Hbi as [-> | ->].
    - rewrite (ec_mul_0 EE OK). unfold ec_add.
      assert (pis0 EE (pzero EE) = true) as -> by (apply (g_is0 EE OK); reflexivity).
      destruct (pis0 EE u0); cbn [bind]; eauto.
    - rewrite (ec_mul_1 EE OK), (ec_add_total EE OK); [cbn [bind]; eauto|].
      rewrite (g_comm EE OK), HdU, U1. apply NZ, H4. }
  rewrite HK. cbn [bind]. rewrite (shared_key _ _ _ _ _ _ _ _ _ _ _ Hbi HP HS HK).
  destruct Hbi as [-> | ->]; cbn [Z.eqb]; rewrite SYM; eauto.
Qed.
End T.

(** What the receiver sends does not depend on its choice: swapping k for rC - k turns the
    message for choice 1 into the message for choice 0. *)
Lemma keygen_hides_choice rC k PK PK' :
  receiver_keygen X (ec_mul EE (pgen EE) rC) 0 k = Some PK ->
  receiver_keygen X (ec_mul EE (pgen EE) rC) 1 (rC - k) = Some PK' -> PK = PK'.
Proof.
  intros H0 H1. destruct (keygen_value _ _ _ _ (or_introl eq_refl) H0) as [E0 _]. cbn [Z.eqb] in E0.
  destruct (keygen_value _ _ _ _ (or_intror eq_refl) H1) as [_ E1]. specialize (E1 eq_refl).
  apply (cancel_l EE OK (ec_mul EE (pgen EE) (rC - k))). rewrite (g_comm EE OK _ PK'), E1, E0.
  rewrite <- (ec_mul_add EE OK). f_equal. lia.
Qed.

Lemma keygen_hides_choice_mod rC k PK PK' :
  receiver_keygen X (ec_mul EE (pgen EE) rC) 0 k = Some PK ->
  receiver_keygen X (ec_mul EE (pgen EE) rC) 1 ((rC - k) mod ord EE) = Some PK' -> PK = PK'.
Proof.
  intros H0 H1. apply (keygen_hides_choice rC k PK PK' H0). unfold receiver_keygen in *.
  rewrite (ec_mul_mod EE OK) in H1. exact H1.
Qed.
End OT.
