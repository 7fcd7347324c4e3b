(** Ring theory of GF(2)[x] represented in [N] (lemmas about [GF128Spec.pmul]). *)
From Coq Require Import NArith Lia Ring Ring_theory Bool.
From Verif Require Import GF128Spec.
Local Open Scope N_scope.

Lemma double_shiftl x : N.double x = N.shiftl x 1.
Proof. rewrite N.shiftl_mul_pow2. rewrite N.double_spec. rewrite N.mul_comm. reflexivity. Qed.

Lemma double_lxor a b : N.double (N.lxor a b) = N.lxor (N.double a) (N.double b).
Proof. rewrite !double_shiftl. apply N.shiftl_lxor. Qed.

Lemma pmul_0_l b : pmul 0 b = 0.
Proof. reflexivity. Qed.

Lemma pmul_1_l b : pmul 1 b = b.
Proof. reflexivity. Qed.

Lemma pmul_double_l a b : pmul (N.double a) b = N.double (pmul a b).
Proof. destruct a; reflexivity. Qed.

Lemma pmul_sdouble_l a b : pmul (N.succ_double a) b = N.lxor b (N.double (pmul a b)).
Proof. destruct a as [|p]; cbn; [|reflexivity]. rewrite N.lxor_0_r. reflexivity. Qed.

(** binary induction *)
Lemma bin_ind (P : N -> Prop) :
  P 0 -> (forall a, P a -> P (N.double a)) -> (forall a, P a -> P (N.succ_double a)) ->
  forall a, P a.
Proof.
  intros H0 Hd Hs a. destruct a as [|p]; [exact H0|].
  induction p as [p IH|p IH|].
  - apply (Hs (N.pos p)), IH.
  - apply (Hd (N.pos p)), IH.
  - apply (Hs 0), H0.
Qed.

Lemma sdouble_lxor a : N.succ_double a = N.lxor 1 (N.double a).
Proof. destruct a as [|p]; reflexivity. Qed.

Lemma pmul_0_r a : pmul a 0 = 0.
Proof.
  induction a as [|a IH|a IH] using bin_ind.
  - reflexivity.
  - rewrite pmul_double_l, IH. reflexivity.
  - rewrite pmul_sdouble_l, IH. reflexivity.
Qed.

Lemma lxor4 a b c d : N.lxor (N.lxor a b) (N.lxor c d) = N.lxor (N.lxor a c) (N.lxor b d).
Proof.
  rewrite !N.lxor_assoc. f_equal. rewrite <- !N.lxor_assoc. f_equal. apply N.lxor_comm.
Qed.

Lemma pmul_lxor_r a b c : pmul a (N.lxor b c) = N.lxor (pmul a b) (pmul a c).
Proof.
  induction a as [|a IH|a IH] using bin_ind.
  - reflexivity.
  - rewrite !pmul_double_l, IH. apply double_lxor.
  - rewrite !pmul_sdouble_l, IH, double_lxor. apply lxor4.
Qed.

Lemma pmul_double_r a b : pmul a (N.double b) = N.double (pmul a b).
Proof.
  induction a as [|a IH|a IH] using bin_ind.
  - reflexivity.
  - rewrite !pmul_double_l, IH. reflexivity.
  - rewrite !pmul_sdouble_l, IH, double_lxor. reflexivity.
Qed.

Lemma pmul_1_r a : pmul a 1 = a.
Proof.
  induction a as [|a IH|a IH] using bin_ind.
  - reflexivity.
  - rewrite pmul_double_l, IH. reflexivity.
  - rewrite pmul_sdouble_l, IH. rewrite sdouble_lxor. reflexivity.
Qed.

Lemma pmul_comm a b : pmul a b = pmul b a.
Proof.
  induction a as [|a IH|a IH] using bin_ind.
  - rewrite pmul_0_r. reflexivity.
  - rewrite pmul_double_l, pmul_double_r, IH. reflexivity.
  - rewrite pmul_sdouble_l, sdouble_lxor, pmul_lxor_r, pmul_1_r, pmul_double_r, IH.
    reflexivity.
Qed.

Lemma pmul_lxor_l a b c : pmul (N.lxor a b) c = N.lxor (pmul a c) (pmul b c).
Proof. rewrite !(pmul_comm _ c). apply pmul_lxor_r. Qed.

Lemma pmul_assoc a b c : pmul a (pmul b c) = pmul (pmul a b) c.
Proof.
  induction a as [|a IH|a IH] using bin_ind.
  - reflexivity.
  - rewrite !pmul_double_l, IH. reflexivity.
  - rewrite !pmul_sdouble_l, IH. rewrite pmul_lxor_l, pmul_double_l. reflexivity.
Qed.

(** (N, xor, pmul) is a commutative ring of characteristic 2; coefficients in bool. *)
Lemma poly_ring_theory : ring_theory 0 1 N.lxor pmul N.lxor (fun x => x) eq.
Proof.
  constructor.
  - apply N.lxor_0_l.
  - apply N.lxor_comm.
  - intros x y z. symmetry. apply N.lxor_assoc.
  - apply pmul_1_l.
  - apply pmul_comm.
  - apply pmul_assoc.
  - apply pmul_lxor_l.
  - reflexivity.
  - apply N.lxor_nilpotent.
Qed.

Definition bphi (b : bool) : N := if b then 1 else 0.
Lemma poly_morph :
  ring_morph 0 1 N.lxor pmul N.lxor (fun x => x) eq
             false true xorb andb xorb (fun x => x) Bool.eqb bphi.
Proof.
  constructor; try reflexivity;
    try (intros [] []; reflexivity).
  intros x y H. apply Bool.eqb_prop in H. subst. reflexivity.
Qed.

Ltac poly_cst t :=
  match t with
  | 0 => constr:(false)
  | 1 => constr:(true)
  | _ => constr:(InitialRing.NotConstant)
  end.
Add Ring poly_ring : poly_ring_theory (morphism poly_morph, constants [poly_cst]).

(** shifts are multiplications by a power of x *)
Lemma pmul_pow2_l n a : pmul (2 ^ n) a = N.shiftl a n.
Proof.
  induction n as [|n IH] using N.peano_ind.
  - rewrite N.shiftl_0_r. reflexivity.
  - rewrite N.pow_succ_r'. rewrite <- N.double_spec, pmul_double_l, IH.
    rewrite double_shiftl, N.shiftl_shiftl. f_equal. lia.
Qed.

Lemma shiftl_pmul a n : N.shiftl a n = pmul (2 ^ n) a.
Proof. symmetry. apply pmul_pow2_l. Qed.

(** degrees *)
Lemma double_eq0 a : N.double a = 0 -> a = 0.
Proof. destruct a; cbn; intros H; [reflexivity|discriminate]. Qed.

Lemma log2_double a : a <> 0 -> N.log2 (N.double a) = N.succ (N.log2 a).
Proof. intros H. rewrite N.double_spec. apply N.log2_double. lia. Qed.

Lemma testbit_high a n : N.log2 a < n -> N.testbit a n = false.
Proof. apply N.bits_above_log2. Qed.

Lemma log2_lxor_lt a b : b <> 0 -> N.log2 a < N.log2 b -> N.log2 (N.lxor a b) = N.log2 b.
Proof.
  intros Hb Hlt. apply N.log2_bits_unique.
  - rewrite N.lxor_spec, testbit_high by exact Hlt. rewrite N.bit_log2 by exact Hb. reflexivity.
  - intros m Hm. rewrite N.lxor_spec, !testbit_high by lia. reflexivity.
Qed.

Lemma pmul_deg a b : a <> 0 -> b <> 0 ->
  pmul a b <> 0 /\ N.log2 (pmul a b) = N.log2 a + N.log2 b.
Proof.
  intros Ha Hb. revert Ha.
  induction a as [|a IH|a IH] using bin_ind; intros Ha.
  - congruence.
  - assert (Ha' : a <> 0) by (intros ->; apply Ha; reflexivity).
    destruct (IH Ha') as [H1 H2]. rewrite pmul_double_l. split.
    + intros H; apply H1, double_eq0, H.
    + rewrite !log2_double by assumption. lia.
  - rewrite pmul_sdouble_l.
    destruct (N.eq_dec a 0) as [->|Ha'].
    + rewrite pmul_0_l. cbn [N.double N.succ_double]. rewrite N.lxor_0_r. split; [exact Hb|].
      change (N.log2 1) with 0. lia.
    + destruct (IH Ha') as [H1 H2].
      assert (Hd : N.double (pmul a b) <> 0) by (intros H; apply H1, double_eq0, H).
      assert (Hl : N.log2 (N.double (pmul a b)) = N.succ (N.log2 a + N.log2 b))
        by (rewrite log2_double by assumption; rewrite H2; reflexivity).
      assert (Hlt : N.log2 b < N.log2 (N.double (pmul a b))) by (rewrite Hl; lia).
      split.
      * intros H. apply N.lxor_eq in H. rewrite H in Hlt at 1. lia.
      * rewrite log2_lxor_lt by assumption. rewrite Hl.
        rewrite N.succ_double_spec. rewrite N.log2_succ_double by lia. lia.
Qed.

Lemma pmul_eq0 a b : pmul a b = 0 -> a = 0 \/ b = 0.
Proof.
  intros H. destruct (N.eq_dec a 0) as [|Ha]; [left; assumption|].
  destruct (N.eq_dec b 0) as [|Hb]; [right; assumption|].
  destruct (pmul_deg a b Ha Hb) as [H1 _]. contradiction.
Qed.

Lemma lt_pow2_log2 a n : a <> 0 -> (a < 2 ^ n <-> N.log2 a < n).
Proof. intros H. apply N.log2_lt_pow2. lia. Qed.

Lemma lxor_lt_pow2 a b n : a < 2 ^ n -> b < 2 ^ n -> N.lxor a b < 2 ^ n.
Proof.
  intros Ha Hb.
  destruct (N.eq_dec (N.lxor a b) 0) as [->|Hx]; [apply N.neq_0_lt_0, N.pow_nonzero; lia|].
  apply lt_pow2_log2; [exact Hx|].
  destruct (N.eq_dec a 0) as [->|Ha0].
  { rewrite N.lxor_0_l in *. apply lt_pow2_log2 in Hb; assumption. }
  destruct (N.eq_dec b 0) as [->|Hb0].
  { rewrite N.lxor_0_r in *. apply lt_pow2_log2 in Ha; assumption. }
  apply lt_pow2_log2 in Ha; [|exact Ha0]. apply lt_pow2_log2 in Hb; [|exact Hb0].
  pose proof (N.log2_lxor a b). lia.
Qed.

Lemma gf_poly_log2 : N.log2 gf_poly = 128.
Proof. vm_compute. reflexivity. Qed.
Lemma gf_poly_neq0 : gf_poly <> 0.
Proof. vm_compute. discriminate. Qed.

(** A multiple of the modulus of degree < 128 is zero. *)
Lemma multiple_small q : pmul q gf_poly < 2 ^ 128 -> q = 0.
Proof.
  intros H. destruct (N.eq_dec q 0) as [->|Hq]; [reflexivity|exfalso].
  destruct (pmul_deg q gf_poly Hq gf_poly_neq0) as [H1 H2].
  apply lt_pow2_log2 in H; [|exact H1]. rewrite H2, gf_poly_log2 in H. lia.
Qed.

Lemma is_product_unique a b r1 r2 : is_product a b r1 -> is_product a b r2 -> r1 = r2.
Proof.
  intros [L1 [q1 E1]] [L2 [q2 E2]].
  assert (E : N.lxor r1 r2 = pmul (N.lxor q1 q2) gf_poly).
  { rewrite pmul_lxor_l, <- E1, <- E2. ring. }
  pose proof (lxor_lt_pow2 r1 r2 128 L1 L2) as L. rewrite E in L.
  apply multiple_small in L. rewrite L, pmul_0_l in E. apply N.lxor_eq. exact E.
Qed.
