From Coq Require Import List ZArith QArith Qabs Qround Bool String Lia Lqa Qfield.
From Verif Require Import PHEModel PHESpec.
Import ListNotations.
Open Scope Z_scope.

Lemma round53_id : forall v, Z.abs v <= 2 ^ 53 -> round53 v = v.
Proof.
  intros v H. destruct (Z.eq_dec (Z.abs v) (2 ^ 53)) as [E|E].
  - assert (C : v = 2 ^ 53 \/ v = - 2 ^ 53) by lia.
    destruct C; subst; reflexivity.
  - unfold round53. destruct (Z.ltb_spec (Z.abs v) (2 ^ 53)); [reflexivity|lia].
Qed.

Lemma float_id : forall v, Z.abs v <= 2 ^ 53 -> float_of_int v = Some v.
Proof.
  intros v H. unfold float_of_int. rewrite round53_id by exact H.
  assert (2 ^ 53 < 2 ^ 1024) by (apply Z.pow_lt_mono_r; lia).
  destruct (Z.ltb_spec (Z.abs v) (2 ^ 1024)); [reflexivity|lia].
Qed.

Lemma round53_big : forall v, 2 ^ 1024 <= v -> 2 ^ 1024 <= round53 v.
Proof.
  intros v H. unfold round53.
  assert (P0 : 0 < 2 ^ 1024) by (apply Z.pow_pos_nonneg; lia).
  assert (P53 : 2 ^ 53 < 2 ^ 1024) by (apply Z.pow_lt_mono_r; lia).
  rewrite (Z.abs_eq v) by lia.
  destruct (Z.ltb_spec v (2 ^ 53)) as [C|C]; [lia|].
  assert (Lg : 1024 <= Z.log2 v) by (apply Z.log2_le_pow2; lia).
  set (e := Z.log2 v - 52).
  assert (Pe : 0 < 2 ^ e) by (apply Z.pow_pos_nonneg; unfold e; lia).
  assert (Q : 2 ^ 52 <= v / 2 ^ e).
  { apply Z.div_le_lower_bound; [exact Pe|].
    rewrite <- Z.pow_add_r by (unfold e; lia).
    replace (e + 52) with (Z.log2 v) by (unfold e; lia).
    apply Z.log2_spec. lia. }
  rewrite (Z.sgn_pos v) by lia. rewrite Z.mul_1_l.
  set (q' := if (_ || _)%bool then _ else _).
  assert (Q' : 2 ^ 52 <= q').
  { unfold q'. destruct (_ || _)%bool; lia. }
  clearbody q'.
  apply Z.le_trans with (2 ^ 52 * 2 ^ e).
  - rewrite <- Z.pow_add_r by (unfold e; lia).
    apply Z.pow_le_mono_r; unfold e; lia.
  - apply Z.mul_le_mono_nonneg_r; lia.
Qed.

Lemma float_big : forall v, 2 ^ 1024 <= v -> float_of_int v = None.
Proof.
  intros v H. unfold float_of_int. pose proof (round53_big v H).
  destruct (Z.ltb_spec (Z.abs (round53 v)) (2 ^ 1024)); [lia|reflexivity].
Qed.

(** trunc is the specification's rounding towards zero *)
Lemma trunc_spec : forall y,
  trunc y = if Qle_bool 0 y then Qfloor y else Qceiling y.
Proof.
  intros [a b]. unfold trunc, Qceiling, Qfloor, Qle_bool. cbn [Qnum Qden Qopp].
  destruct (Z.leb_spec (0 * Zpos b) (a * 1)) as [C|C].
  - apply Z.quot_div_nonneg; lia.
  - rewrite <- (Z.opp_involutive a) at 1. rewrite Z.quot_opp_l by lia.
    rewrite Z.quot_div_nonneg by lia. reflexivity.
Qed.

Lemma trunc_fixed : forall f v,
  trunc (real v * inject_Z (2 ^ Z.of_nat f)) = fixed f v.
Proof. intros. apply trunc_spec. Qed.

Lemma scale_up_ok : forall (q : Q) f,
  (Qabs (q * inject_Z (2 ^ Z.of_nat f)) < inject_Z (2 ^ 1024))%Q ->
  scale_up q f = Some (q * inject_Z (2 ^ Z.of_nat f))%Q.
Proof.
  intros q f H. unfold scale_up.
  set (y := (q * inject_Z (2 ^ Z.of_nat f))%Q) in *.
  destruct (Z.ltb_spec (Z.abs (Qnum y)) (2 ^ 1024 * Zpos (Qden y))) as [C|C]; [reflexivity|].
  exfalso. revert H. clearbody y. destruct y as [a b]. cbn [Qnum Qden] in C.
  unfold Qlt, inject_Z, Qabs; cbn [Qnum Qden]. lia.
Qed.

Lemma encode_ok : forall L f v, encodable f v ->
  phe_encode L (num_obj L v) (enc_obj L f) = Some (TyPT, OInt (fixed f v)).
Proof.
  intros L f v [H1 H2]. destruct v as [q|z]; cbn [num_obj].
  - unfold phe_encode, bind2. cbn [fst snd is_tens enc_obj encode_ae is_scalar encode_impl].
    rewrite scale_up_ok by exact H1. rewrite <- (trunc_fixed f (NFloat q)). reflexivity.
  - unfold phe_encode, bind2. cbn [fst snd is_tens enc_obj encode_ae is_scalar encode_impl].
    rewrite float_id by exact H2.
    rewrite scale_up_ok by exact H1. rewrite <- (trunc_fixed f (NInt z)). reflexivity.
Qed.

Section Run.
Variable L : phe_lib.
Variable n : nat -> Z.
Hypothesis LL : lib_laws L n.
Variable f k : nat.
Variable s : string.

Lemma add_ct_ct : forall r x y,
  phe_add L r (TyCT s, OCt x k) (TyCT s, OCt y k) = Some (TyCT s, OCt (L_add L x y) k).
Proof.
  intros. cbn. unfold apply_binary, bind2, add_cc_ae. cbn.
  rewrite String.eqb_refl. reflexivity.
Qed.

Lemma run_ok : forall e, inputs_ok (encodable f) e ->
  exists c, run_px L f k s e = Some (TyCT s, OCt c k) /\ under L k c /\
            L_dec L k c = int_of f e mod n k.
Proof.
  destruct LL as [Ln Le La Lm].
  induction e as [v r|a IHa b IHb|a IHa v r|v a IHa r|a IHa v|v a IHa];
    cbn [inputs_ok]; intros H.
  - exists (L_enc L k (fixed f v) r). cbn [run_px]. unfold phe_encrypt_auto.
    rewrite encode_ok by exact H. split; [reflexivity|]. split; [constructor|].
    cbn [int_of]. apply Le.
  - destruct H as [Ha Hb]. destruct (IHa Ha) as (x & Ex & Ux & Dx).
    destruct (IHb Hb) as (y & Ey & Uy & Dy).
    exists (L_add L x y). cbn [run_px]. rewrite Ex, Ey, add_ct_ct.
    split; [reflexivity|]. split; [constructor; assumption|].
    rewrite La, Dx, Dy by assumption. cbn [int_of]. symmetry. apply Zplus_mod.
  - destruct H as [Ha Hv]. destruct (IHa Ha) as (x & Ex & Ux & Dx).
    exists (L_add L x (L_enc L k (fixed f v) r)). cbn [run_px].
    rewrite Ex, encode_ok by exact Hv.
    split; [reflexivity|]. split; [constructor; [assumption|constructor]|].
    rewrite La, Dx, Le by (assumption || constructor). cbn [int_of]. symmetry. apply Zplus_mod.
  - destruct H as [Ha Hv]. destruct (IHa Ha) as (x & Ex & Ux & Dx).
    exists (L_add L x (L_enc L k (fixed f v) r)). cbn [run_px].
    rewrite Ex, encode_ok by exact Hv.
    split; [reflexivity|]. split; [constructor; [assumption|constructor]|].
    rewrite La, Dx, Le by (assumption || constructor). cbn [int_of]. symmetry. apply Zplus_mod.
  - destruct H as [Ha Hv]. destruct (IHa Ha) as (x & Ex & Ux & Dx).
    exists (L_mul L x (fixed f v)). cbn [run_px].
    rewrite Ex, encode_ok by exact Hv.
    split; [reflexivity|]. split; [constructor; assumption|].
    rewrite Lm, Dx by assumption. cbn [int_of]. apply Zmult_mod_idemp_l.
  - destruct H as [Ha Hv]. destruct (IHa Ha) as (x & Ex & Ux & Dx).
    exists (L_mul L x (fixed f v)). cbn [run_px].
    rewrite Ex, encode_ok by exact Hv.
    split; [reflexivity|]. split; [constructor; assumption|].
    rewrite Lm, Dx by assumption. cbn [int_of]. apply Zmult_mod_idemp_l.
Qed.

Lemma decrypt_ok : forall e, inputs_ok (encodable f) e ->
  exists c, run_px L f k s e = Some c /\
    phe_decrypt L c (sk_obj L k s) = Some (TyPT, OInt (int_of f e mod n k)).
Proof.
  intros e H. destruct (run_ok e H) as (c & E & _ & D).
  exists (TyCT s, OCt c k). split; [exact E|].
  unfold phe_decrypt, bind2. cbn. rewrite D. reflexivity.
Qed.

Definition decoded (w : Z) : Q := (inject_Z w / inject_Z (2 ^ Z.of_nat f))%Q.

Lemma result_ok : forall e, inputs_ok (encodable f) e ->
  result_px L f k s e =
    match float_of_int (int_of f e mod n k) with
    | Some w => Some (TyNum f64, OFloat (decoded w))
    | None => None
    end.
Proof.
  intros e H. destruct (decrypt_ok e H) as (c & E & D).
  unfold result_px. rewrite E. unfold phe_decrypt_auto. rewrite D.
  unfold phe_decode, bind2. cbn. destruct (float_of_int _); reflexivity.
Qed.
End Run.

(** ** Error of fixed-point additions *)
Lemma pow_pos : forall f, (0 < inject_Z (2 ^ Z.of_nat f))%Q.
Proof.
  intros. change 0%Q with (inject_Z 0). rewrite <- Zlt_Qlt.
  apply Z.pow_pos_nonneg; lia.
Qed.

Lemma fixed_err : forall f v,
  (Qabs (inject_Z (fixed f v) - real v * inject_Z (2 ^ Z.of_nat f)) < 1)%Q.
Proof.
  intros. unfold fixed. set (y := (real v * inject_Z (2 ^ Z.of_nat f))%Q).
  clearbody y. destruct (Qle_bool 0 y).
  - pose proof (Qfloor_le y). pose proof (Qlt_floor y) as H0.
    rewrite inject_Z_plus in H0. apply Qabs_Qlt_condition.
    change (inject_Z 1) with 1%Q in H0. split; lra.
  - pose proof (Qle_ceiling y). pose proof (Qceiling_lt y) as H0.
    rewrite inject_Z_plus in H0 || (unfold Z.sub in H0; rewrite inject_Z_plus in H0).
    change (inject_Z (-(1)))%Z with (-(1))%Q in H0. apply Qabs_Qlt_condition. split; lra.
Qed.

Lemma sum_err : forall f e, additive e ->
  (Qabs (inject_Z (int_of f e) - real_of e * inject_Z (2 ^ Z.of_nat f)) < inject_Z (leaves e))%Q.
Proof.
  intros f. induction e as [v r|a IHa b IHb|a IHa v r|v a IHa r|a IHa v|v a IHa];
    cbn [additive int_of real_of leaves]; intros H; try tauto.
  - apply fixed_err.
  - destruct H as [Ha Hb]. specialize (IHa Ha). specialize (IHb Hb).
    rewrite !inject_Z_plus. rewrite Qabs_Qlt_condition in *.
    destruct IHa, IHb. split; lra.
  - specialize (IHa H). pose proof (fixed_err f v) as F.
    rewrite !inject_Z_plus. change (inject_Z 1) with 1%Q.
    rewrite Qabs_Qlt_condition in *. destruct IHa, F. split; lra.
  - specialize (IHa H). pose proof (fixed_err f v) as F.
    rewrite !inject_Z_plus. change (inject_Z 1) with 1%Q.
    rewrite Qabs_Qlt_condition in *. destruct IHa, F. split; lra.
Qed.

Lemma fixed_grid : forall f v, on_grid f v ->
  (inject_Z (fixed f v) == real v * inject_Z (2 ^ Z.of_nat f))%Q.
Proof.
  intros f v [m E]. unfold fixed. set (y := (real v * inject_Z (2 ^ Z.of_nat f))%Q) in *.
  clearbody y. destruct (Qle_bool 0 y).
  - rewrite (Qfloor_comp _ _ E), Qfloor_Z. symmetry; exact E.
  - rewrite (Qceiling_comp _ _ E), Qceiling_Z. symmetry; exact E.
Qed.

Lemma sum_grid : forall f e, additive e -> inputs_ok (on_grid f) e ->
  (inject_Z (int_of f e) == real_of e * inject_Z (2 ^ Z.of_nat f))%Q.
Proof.
  intros f. induction e as [v r|a IHa b IHb|a IHa v r|v a IHa r|a IHa v|v a IHa];
    cbn [additive inputs_ok int_of real_of]; intros H G; try tauto.
  - apply fixed_grid; exact G.
  - destruct H, G. rewrite inject_Z_plus, IHa, IHb by assumption. ring.
  - destruct G as [G1 G2]. rewrite inject_Z_plus, IHa, (fixed_grid f v) by assumption. ring.
  - destruct G as [G1 G2]. rewrite inject_Z_plus, IHa, (fixed_grid f v) by assumption. ring.
Qed.

(** ** Tensors *)
Lemma all_some_hd : forall A (l : list (option A)) x, all_some (None :: l) = Some x -> False.
Proof. discriminate. Qed.

Definition no_tens {CT} (impl : pobj CT -> pobj CT -> option (pobj CT)) : Prop :=
  forall a b, (exists s l, a = OTens s l) \/ (exists s l, b = OTens s l) -> impl a b = None.

Section Tens.
Variable L : phe_lib.
Notation obj := (pobj (L_ct L)).

Lemma nt_encode : no_tens (encode_impl L).
Proof. intros a b [(s & l & ->)|(s & l & ->)]; [destruct b|]; reflexivity. Qed.
Lemma nt_decode : no_tens (decode_impl L).
Proof. intros a b [(s & l & ->)|(s & l & ->)]; [destruct b|]; reflexivity. Qed.
Lemma nt_encrypt : forall r, no_tens (encrypt_impl L r).
Proof. intros r a b [(s & l & ->)|(s & l & ->)]; [|destruct a]; reflexivity. Qed.
Lemma nt_decrypt : no_tens (decrypt_impl L).
Proof. intros a b [(s & l & ->)|(s & l & ->)]; [|destruct a]; reflexivity. Qed.
Lemma nt_add_cc : no_tens (add_cc_impl L).
Proof. intros a b [(s & l & ->)|(s & l & ->)]; [|destruct a]; reflexivity. Qed.
Lemma nt_add_cp : forall r, no_tens (add_cp_impl L r).
Proof. intros r a b [(s & l & ->)|(s & l & ->)]; [|destruct a]; reflexivity. Qed.
Lemma nt_mul_cp : no_tens (mul_cp_impl L).
Proof. intros a b [(s & l & ->)|(s & l & ->)]; [|destruct a]; reflexivity. Qed.

Lemma wrap_tens : forall x : obj, exists s l, wrap_value L x = OTens s l.
Proof. intros []; cbn; eauto. Qed.

Lemma ew_none : forall impl ta tb (a b : obj), no_tens impl ->
  nonempty (ta, a) -> nonempty (tb, b) ->
  (exists s l, a = OTens s l) \/ (exists s l, b = OTens s l) ->
  elementwise_impl L impl ta tb a b = None.
Proof.
  intros impl ta tb a b NT Na Nb T. unfold elementwise_impl.
  destruct (run_shape L ta tb a b) as [|d ds] eqn:R; [apply NT; exact T|].
  assert (NZ : size_of (d :: ds) <> 0%nat).
  { unfold run_shape in R. destruct (iterated ta).
    - destruct a; try discriminate. cbn in Na. subst. exact Na.
    - destruct (iterated tb); [|discriminate].
      destruct b; try discriminate. cbn in Nb. subst. exact Nb. }
  destruct (size_of (d :: ds)) as [|m]; [tauto|]. cbn [seq map all_some].
  assert (Z0 : match arg_at L ta a 0 with
       | Some x => match arg_at L tb b 0 with Some y => impl x y | None => None end
       | None => None end = None).
  { destruct (arg_at L ta a 0) as [x|] eqn:Ea; [|reflexivity].
    destruct (arg_at L tb b 0) as [y|] eqn:Eb; [|reflexivity].
    apply NT. left. unfold arg_at in Ea. destruct (iterated ta).
    - destruct a; try discriminate. destruct (nth_error elts 0); inversion Ea; subst.
      apply wrap_tens.
    - inversion Ea; subst. apply wrap_tens. }
  rewrite Z0. reflexivity.
Qed.

Lemma lift2_none : forall ae impl x y, no_tens impl -> nonempty x -> nonempty y ->
  is_tensor x \/ is_tensor y -> lift2 L ae impl x y = None.
Proof.
  intros ae impl [ta a] [tb b] NT Nx Ny T. unfold lift2, bind2. cbn [fst snd].
  destruct (elementwise_ae ae ta tb); [|reflexivity].
  rewrite ew_none; auto.
  destruct T as [(e & sh & rs & l & E)|(e & sh & rs & l & E)]; inversion E; subst; eauto.
Qed.

Lemma apply_none : forall ae impl x y, no_tens impl -> nonempty x -> nonempty y ->
  is_tensor x \/ is_tensor y -> apply_binary L ae impl x y = None.
Proof.
  intros ae impl x y NT Nx Ny T. unfold apply_binary.
  assert (C : is_tens (fst x) || is_tens (fst y) = true).
  { destruct T as [(e & sh & rs & l & ->)|(e & sh & rs & l & ->)]; cbn;
      [reflexivity|apply orb_true_r]. }
  rewrite C. apply lift2_none; assumption.
Qed.

Lemma tensor_none : forall r (x y : pty * obj), is_tensor x -> nonempty x -> nonempty y ->
  phe_encode L x y = None /\ phe_decode L x y = None /\
  phe_encrypt L r x y = None /\ phe_decrypt L x y = None /\
  phe_add L r x y = None /\ phe_add L r y x = None /\
  phe_mul_plain L x y = None /\ phe_mul_plain L y x = None.
Proof.
  intros r x y T Nx Ny.
  assert (IT : is_tens (fst x) = true) by (destruct T as (? & ? & ? & ? & ->); reflexivity).
  unfold phe_encode, phe_decode, phe_encrypt, phe_decrypt. rewrite IT.
  repeat split.
  - apply lift2_none; auto using nt_encode.
  - apply lift2_none; auto using nt_decode.
  - apply lift2_none; auto using nt_encrypt.
  - apply lift2_none; auto using nt_decrypt.
  - unfold phe_add. destruct (inspect (fst x)) as [[|]|]; auto;
      destruct (inspect (fst y)) as [[|]|]; auto; cbn [orb negb andb];
      apply apply_none; auto using nt_add_cc, nt_add_cp.
  - unfold phe_add. destruct (inspect (fst x)) as [[|]|]; auto;
      destruct (inspect (fst y)) as [[|]|]; auto; cbn [orb negb andb];
      apply apply_none; auto using nt_add_cc, nt_add_cp.
  - unfold phe_mul_plain. destruct (inspect (fst x)) as [[|]|]; auto;
      destruct (inspect (fst y)) as [[|]|]; auto; cbn [orb negb andb]; auto;
      apply apply_none; auto using nt_mul_cp.
  - unfold phe_mul_plain. destruct (inspect (fst x)) as [[|]|]; auto;
      destruct (inspect (fst y)) as [[|]|]; auto; cbn [orb negb andb]; auto;
      apply apply_none; auto using nt_mul_cp.
Qed.
End Tens.

Lemma toy_laws : forall n, 1 < n -> lib_laws (toy n) (fun _ => n).
Proof.
  intros n H. constructor; cbn; intros.
  - exact H.
  - apply Z.mod_mod; lia.
  - rewrite Z.mod_mod by lia. apply Zplus_mod.
  - rewrite Z.mod_mod by lia. rewrite Zmult_mod_idemp_l. reflexivity.
Qed.

(** ** The three ways a result is read back *)
Lemma decoded_additive : forall L n f k s e, lib_laws L n ->
  inputs_ok (encodable f) e -> additive e ->
  0 <= int_of f e <= 2 ^ 53 -> int_of f e < n k ->
  exists q, result_px L f k s e = Some (TyNum f64, OFloat q) /\
    (Qabs (q - real_of e) < inject_Z (leaves e) / inject_Z (2 ^ Z.of_nat f))%Q /\
    (inputs_ok (on_grid f) e -> (q == real_of e)%Q).
Proof.
  intros L n f k s e LL OK AD R N. rewrite (result_ok L n LL f k s e OK).
  rewrite Z.mod_small by lia. rewrite float_id by lia.
  pose proof (pow_pos f) as P. set (p := inject_Z (2 ^ Z.of_nat f)) in *.
  assert (NZ : ~ (p == 0)%Q) by (intro C; rewrite C in P; revert P; apply Qlt_irrefl).
  exists (decoded f (int_of f e)). split; [reflexivity|]. unfold decoded. fold p. split.
  - pose proof (sum_err f e AD) as S. fold p in S.
    assert (E : (inject_Z (int_of f e) / p - real_of e ==
                 (inject_Z (int_of f e) - real_of e * p) / p)%Q) by (field; exact NZ).
    rewrite E. apply Qlt_shift_div_l; [exact P|].
    set (X := (inject_Z (int_of f e) - real_of e * p)%Q) in *.
    assert (E' : (Qabs (X / p) * p == Qabs X)%Q).
    { transitivity (Qabs (X / p) * Qabs p)%Q.
      - rewrite (Qabs_pos p) by (apply Qlt_le_weak; exact P). reflexivity.
      - rewrite <- Qabs_Qmult. apply Qabs_wd. field. exact NZ. }
    rewrite E'. exact S.
  - intros G. rewrite (sum_grid f e AD G). fold p. field. exact NZ.
Qed.

Lemma negative_raises : forall L n f k s e, lib_laws L n ->
  inputs_ok (encodable f) e -> int_of f e < 0 -> 2 ^ 1024 <= n k + int_of f e ->
  result_px L f k s e = None.
Proof.
  intros L n f k s e LL OK NEG BIG. rewrite (result_ok L n LL f k s e OK).
  assert (0 < 2 ^ 1024) by (apply Z.pow_pos_nonneg; lia).
  replace (int_of f e mod n k) with (n k + int_of f e).
  - rewrite float_big by exact BIG. reflexivity.
  - apply Z.mod_unique with (-1); lia.
Qed.

Lemma product_scaled : forall L n f k s x y r, lib_laws L n ->
  encodable f x -> encodable f y -> on_grid f x -> on_grid f y ->
  0 <= fixed f x * fixed f y <= 2 ^ 53 -> fixed f x * fixed f y < n k ->
  exists q, result_px L f k s (XMulP (XIn x r) y) = Some (TyNum f64, OFloat q) /\
    (q == real x * real y * inject_Z (2 ^ Z.of_nat f))%Q.
Proof.
  intros L n f k s x y r LL Ex Ey Gx Gy R N.
  rewrite (result_ok L n LL f k s (XMulP (XIn x r) y)) by (split; assumption).
  cbn [int_of]. rewrite Z.mod_small by lia. rewrite float_id by lia.
  eexists. split; [reflexivity|]. unfold decoded.
  rewrite inject_Z_mult, (fixed_grid f x Gx), (fixed_grid f y Gy).
  pose proof (pow_pos f) as P. set (p := inject_Z (2 ^ Z.of_nat f)) in *.
  field. intro C; rewrite C in P; revert P; apply Qlt_irrefl.
Qed.
