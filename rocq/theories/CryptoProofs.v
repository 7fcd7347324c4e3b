From Coq Require Import List NArith ZArith String Ascii Bool Lia.
From Verif Require Import MPCBase OTModel OTSpec OTProofs Base64Model CtxModel SerdeModel SerdeSpec SerdeValue
  JsonText JsonTextProofs JsonTextOk CryptoModel CryptoSpec.
Import ListNotations.

Section EC.
Variable X : cenv.
Hypothesis XO : env_ok X.
Hypothesis GE : gen_exact (grp X).
Notation E := (grp X).
Let G : group_ok E := e_grp X XO.
Notation pw e := (ec_mul E (pgen E) (multiple e)).
Notation n := (OTModel.ord E).

Lemma zero_mult : forall z, ec_mul E (pgen E) z = pzero E <-> (z mod n = 0)%Z.
Proof.
  intros z. split; [apply GE|]. intros H. rewrite <- (ec_mul_mod E G). rewrite H. apply (ec_mul_0 E G).
Qed.

Lemma is0_mult : forall z, pis0 E (ec_mul E (pgen E) z) = true <-> (z mod n = 0)%Z.
Proof. intros z. rewrite (g_is0 E G). apply zero_mult. Qed.

Lemma mul_mult : forall z s, ec_mul E (ec_mul E (pgen E) z) s = ec_mul E (pgen E) (s * z).
Proof. intros. rewrite (ec_mul_mul E G). f_equal. lia. Qed.

Lemma add_mult : forall a b, padd E (ec_mul E (pgen E) a) (ec_mul E (pgen E) b) = ec_mul E (pgen E) (a + b).
Proof. intros. symmetry. apply (ec_mul_add E G). Qed.

Lemma sub_mult : forall a b, padd E (ec_mul E (pgen E) a) (ec_mul E (ec_mul E (pgen E) b) (n - 1)) = ec_mul E (pgen E) (a - b).
Proof.
  intros. rewrite mul_mult, add_mult. rewrite <- (ec_mul_mod E G (a - b)), <- (ec_mul_mod E G (a + _)). f_equal.
  pose proof (g_ordp E G). replace (a + (n - 1) * b)%Z with ((a - b) + b * n)%Z by lia.
  rewrite Z.mod_add; lia.
Qed.

Lemma mod_add0 : forall a b, (a mod n = 0 -> b mod n = 0 -> (a + b) mod n = 0)%Z.
Proof. intros a b A B. pose proof (g_ordp E G). rewrite Z.add_mod, A, B by lia. simpl. apply Z.mod_0_l. lia. Qed.
Lemma mod_sub0 : forall a b, (a mod n = 0 -> b mod n = 0 -> (a - b) mod n = 0)%Z.
Proof. intros a b A B. pose proof (g_ordp E G). rewrite Zminus_mod, A, B. simpl. apply Z.mod_0_l. lia. Qed.

(** what a run-time point may be for a given multiple *)
Definition fits (z : Z) (p : rpt X) : Prop :=
  match p with RPt q => q = ec_mul E (pgen E) z | RBad => (z mod n = 0)%Z end.

Lemma pgen1 : pgen E = ec_mul E (pgen E) 1.
Proof. symmetry. apply (ec_mul_1 E G). Qed.

Lemma r_mul_fits : forall z p s r, fits z p -> r_mul X p s = Some r -> fits (s * z) r.
Proof.
  intros z p s r F H. unfold r_mul in H. destruct (Z.eqb_spec (s mod n) 0) as [S0|S0].
  - inversion H; subst. simpl. symmetry. apply zero_mult. rewrite <- Zmult_mod_idemp_l, S0. apply Z.mod_0_l.
    pose proof (g_ordp E G). lia.
  - destruct p as [q|]; inversion H; subst. simpl in *. subst q. apply mul_mult.
Qed.

Lemma r_add_fits : forall a b p q r, fits a p -> fits b q -> r_add X p q = Some r -> fits (a + b) r.
Proof.
  intros a b p q r A B H. destruct p as [p|], q as [q|]; simpl in *; try discriminate.
  - destruct (ec_add E p q) as [v|] eqn:V; inversion H; subst r. apply (ec_add_ok E G) in V. subst. simpl. apply add_mult.
  - destruct (pis0 E p) eqn:I; inversion H; subst r. subst p. apply is0_mult in I. apply mod_add0; auto.
  - destruct (pis0 E q) eqn:I; inversion H; subst r. subst q. apply is0_mult in I. apply mod_add0; auto.
Qed.

Lemma ec_sub_val : forall a b r, ec_sub E (ec_mul E (pgen E) a) (ec_mul E (pgen E) b) = Some r ->
  r = ec_mul E (pgen E) (a - b).
Proof.
  intros a b r H. unfold ec_sub in H. destruct (pis0 E (ec_mul E (pgen E) b)) eqn:Ib.
  - inversion H; subst. apply is0_mult in Ib. rewrite <- (ec_mul_mod E G), <- (ec_mul_mod E G (a - b)). f_equal.
    rewrite Zminus_mod, Ib, Z.sub_0_r, Z.mod_mod; auto. pose proof (g_ordp E G). lia.
  - cbv zeta in H. destruct (pis0 E (ec_mul E (pgen E) a)) eqn:Ia.
    + inversion H; subst. rewrite <- sub_mult. apply (g_is0 E G) in Ia. rewrite Ia. symmetry. apply (g_zero E G).
    + rewrite sub_mult in H. destruct (pis0 E (ec_mul E (pgen E) (a - b))); inversion H; auto.
Qed.

Lemma r_sub_fits : forall a b p q r, fits a p -> fits b q -> r_sub X p q = Some r -> fits (a - b) r.
Proof.
  intros a b p q r A B H. destruct p as [p|], q as [q|]; simpl in *; try discriminate.
  - destruct (ec_sub E p q) as [v|] eqn:V; inversion H; subst r. subst p q. apply ec_sub_val in V. exact V.
  - destruct (pis0 E q) eqn:I; inversion H; subst r. subst q. apply is0_mult in I. apply mod_sub0; auto.
Qed.

Lemma r_bytes_fits : forall a p r, fits a p -> r_bytes X p = Some r -> fits a r.
Proof.
  intros a p r A H. destruct p as [p|]; simpl in *; [|discriminate]. unfold pt_bytes in H.
  destruct (pis0 E p) eqn:I.
  - rewrite (e_zero X XO) in H. inversion H; subst. apply is0_mult in I. exact I.
  - rewrite (e_codec X XO p I) in H. inversion H; subst. reflexivity.
Qed.

Lemma run_fits : forall e r, ec_run X e = Some r -> fits (multiple e) r.
Proof.
  induction e; simpl; intros r H.
  - inversion H; subst. simpl. apply pgen1.
  - destruct (ec_run X e); [|discriminate]. eapply r_mul_fits; eauto.
  - destruct (ec_run X e1), (ec_run X e2); try discriminate. eapply r_add_fits; eauto.
  - destruct (ec_run X e1), (ec_run X e2); try discriminate. eapply r_sub_fits; eauto.
  - destruct (ec_run X e); [|discriminate]. eapply r_bytes_fits; eauto.
Qed.

Lemma run_clean : forall e, no_cancel n e -> ec_run X e = Some (RPt (pw e)).
Proof.
  pose proof (g_ordp E G) as NP.
  induction e as [|e IH s|a IHa b IHb|a IHa b IHb|e IH]; intros C.
  - simpl. rewrite <- pgen1. reflexivity.
  - simpl in *. rewrite (IH C). unfold r_mul. destruct (Z.eqb_spec (s mod n) 0) as [S0|S0].
    + f_equal. f_equal. symmetry. apply zero_mult. rewrite <- Zmult_mod_idemp_l, S0. apply Z.mod_0_l. lia.
    + rewrite mul_mult. reflexivity.
  - destruct C as (Ca & Cb & N). simpl. rewrite (IHa Ca), (IHb Cb). simpl. unfold ec_add.
    destruct (pis0 E (pw a)) eqn:Ia.
    + simpl. f_equal. f_equal. rewrite <- add_mult. apply (g_is0 E G) in Ia. rewrite Ia. symmetry. apply (g_zero E G).
    + destruct (pis0 E (pw b)) eqn:Ib.
      * simpl. f_equal. f_equal. rewrite <- add_mult. apply (g_is0 E G) in Ib. rewrite Ib, (g_comm E G). symmetry. apply (g_zero E G).
      * cbv zeta. rewrite add_mult. change (multiple a + multiple b)%Z with (multiple (EAdd a b)).
        replace (pis0 E (pw (EAdd a b))) with false; [reflexivity|]. symmetry. apply not_true_iff_false.
        rewrite is0_mult. apply N; rewrite <- is0_mult; congruence.
  - destruct C as (Ca & Cb & N). simpl. rewrite (IHa Ca), (IHb Cb). simpl. unfold ec_sub.
    destruct (pis0 E (pw b)) eqn:Ib.
    + simpl. f_equal. f_equal. apply is0_mult in Ib. rewrite <- (ec_mul_mod E G), <- (ec_mul_mod E G (_ - _)). f_equal.
      rewrite Zminus_mod, Ib, Z.sub_0_r, Z.mod_mod; auto. lia.
    + cbv zeta. destruct (pis0 E (pw a)) eqn:Ia.
      * simpl. f_equal. f_equal. rewrite <- sub_mult. apply (g_is0 E G) in Ia. rewrite Ia. symmetry. apply (g_zero E G).
      * rewrite sub_mult. change (multiple a - multiple b)%Z with (multiple (ESub a b)).
        replace (pis0 E (pw (ESub a b))) with false; [reflexivity|]. symmetry. apply not_true_iff_false.
        rewrite is0_mult. apply N; rewrite <- is0_mult; congruence.
  - destruct C as (C & N). simpl. rewrite (IH C). simpl. unfold pt_bytes.
    replace (pis0 E (pw e)) with false.
    2:{ symmetry. apply not_true_iff_false. rewrite is0_mult. exact N. }
    rewrite (e_codec X XO); auto. apply not_true_iff_false. rewrite is0_mult. exact N.
Qed.

Lemma cancel_add : forall a b, no_cancel n a -> no_cancel n b ->
  (multiple a mod n <> 0)%Z -> (multiple b mod n <> 0)%Z -> (multiple (EAdd a b) mod n = 0)%Z ->
  ec_run X (EAdd a b) = None.
Proof.
  intros a b Ca Cb Na Nb S. simpl. rewrite (run_clean a Ca), (run_clean b Cb). simpl. unfold ec_add.
  rewrite <- is0_mult in Na, Nb, S. apply not_true_iff_false in Na, Nb. rewrite Na, Nb. cbv zeta.
  rewrite add_mult. simpl multiple in S. rewrite S. reflexivity.
Qed.
Lemma cancel_sub : forall a b, no_cancel n a -> no_cancel n b ->
  (multiple a mod n <> 0)%Z -> (multiple b mod n <> 0)%Z -> (multiple (ESub a b) mod n = 0)%Z ->
  ec_run X (ESub a b) = None.
Proof.
  intros a b Ca Cb Na Nb S. simpl. rewrite (run_clean a Ca), (run_clean b Cb). simpl. unfold ec_sub.
  rewrite <- is0_mult in Na, Nb, S. apply not_true_iff_false in Na, Nb. rewrite Na, Nb. cbv zeta.
  rewrite sub_mult. simpl multiple in S. rewrite S. reflexivity.
Qed.
Lemma bytes_inf : forall a, no_cancel n a -> (multiple a mod n = 0)%Z -> ec_run X (EBytes a) = Some RBad.
Proof.
  intros a C S. simpl. rewrite (run_clean a C). simpl. unfold pt_bytes. rewrite <- is0_mult in S. rewrite S.
  rewrite (e_zero X XO). reflexivity.
Qed.
End EC.

(** ** strings *)
Lemma take_app : forall a b : string, take (String.length a) (a ++ b) = a.
Proof. intros. unfold take. induction a; simpl; [destruct b; reflexivity|]. now rewrite IHa. Qed.
Lemma substring_all : forall b : string, substring 0 (String.length b) b = b.
Proof. induction b; simpl; auto. now rewrite IHb. Qed.
Lemma app_len : forall a b : string, String.length (a ++ b) = String.length a + String.length b.
Proof. induction a; simpl; auto. Qed.
Lemma drop_app : forall a b : string, drop (String.length a) (a ++ b) = b.
Proof.
  intros. unfold drop. rewrite app_len.
  replace (String.length a + String.length b - String.length a) with (String.length b) by lia.
  induction a; simpl; [apply substring_all|]. auto.
Qed.
Lemma take_drop : forall k (s : string), (take k s ++ drop k s)%string = s.
Proof.
  unfold take, drop. induction k; intros s.
  - rewrite Nat.sub_0_r, substring_all. destruct s; reflexivity.
  - destruct s; simpl; [reflexivity|]. now rewrite IHk.
Qed.

(** ** symmetric encryption *)
Lemma sloads_dumps : forall C x, codec_ok C -> sendable C x -> cloads C (cdumps C x) = Ok (norm x).
Proof.
  intros C x (F & Gz) (W & T). unfold cloads, cdumps, loads, dumps. rewrite Gz.
  rewrite (loads_bytes_dumps _ _ _ (good_compact true) F _ (ok_pv _ _ x W T)). now apply value_roundtrip.
Qed.

Lemma enc_dec : forall P C k k' b nonce x t, aead_ok P -> codec_ok C -> sendable C x ->
  key_bytes k = Some b -> key_bytes k' = Some b -> aes_ok P b = true -> String.length nonce = 12 ->
  exists ct, sym_encrypt P C "aes-gcm" k nonce x = Ok ct /\ sym_decrypt P C "aes-gcm" k' ct t = Ok (norm x).
Proof.
  intros P C k k' b nonce x t A CO S K K' KO L. unfold sym_encrypt, sym_decrypt. rewrite K, K', KO. simpl.
  eexists. split; [reflexivity|]. rewrite <- L, take_app, drop_app, (a_dec P A) by auto. now apply sloads_dumps.
Qed.

Lemma dec_sound : forall P C k algo ct t v, aead_ok P -> sym_decrypt P C algo k ct t = Ok v ->
  exists b pt, key_bytes k = Some b /\ ct = (take 12 ct ++ aes_enc P b (take 12 ct) pt)%string /\ cloads C pt = Ok v.
Proof.
  intros P C k algo ct t v A H. unfold sym_decrypt in H. destruct (algo_ok algo); [|discriminate].
  destruct (key_bytes k) as [b|]; [|discriminate]. destruct (aes_ok P b); [|discriminate].
  destruct (aes_dec P b (take 12 ct) (drop 12 ct)) as [pt|] eqn:D; [|discriminate].
  exists b, pt. split; auto. split; auto. apply (a_sound P A) in D. rewrite <- D. symmetry. apply take_drop.
Qed.

(** ** sessions *)
Lemma session : forall P a b, dh_ok P -> String.length a = 32 -> String.length b = 32 ->
  exists k, tee_session P a b = Some (k, k) /\ String.length (kbytes k) = 32 /\ suite k = "hkdf-sha256"%string.
Proof.
  intros P a b D A B. destruct (d_agree P D b a B A) as (s & S1 & S2).
  unfold tee_session, kem_keygen, kem_derive, quote_gen, attest. cbn [suite kbytes q_suite q_pk].
  cbn [String.eqb Ascii.eqb Bool.eqb]. rewrite S1, S2. simpl. eexists. split; [reflexivity|].
  cbn [kbytes suite]. split; [apply (d_hkdf P D)|reflexivity].
Qed.

(** ** quotes *)
Lemma get_app0 : forall c r, String.get 0 (String c r) = Some c. Proof. reflexivity. Qed.
Lemma get_app : forall (a b : string) i, String.get (String.length a + i) (a ++ b) = String.get i b.
Proof. induction a; simpl; auto. Qed.
Lemma drop_plus : forall (a b : string) k, drop (String.length a + k) (a ++ b) = drop k b.
Proof.
  intros. unfold drop. rewrite app_len.
  replace (String.length a + String.length b - (String.length a + k)) with (String.length b - k) by lia.
  induction a; simpl; auto.
Qed.

Lemma nat_ascii_id : forall k, k < 256 -> nat_of_ascii (ascii_of_nat k) = k.
Proof. intros. apply nat_ascii_embedding. auto. Qed.

Lemma take_pre : forall (a b : string) k, String.length a = k -> take k (a ++ b) = a.
Proof. intros a b k <-. apply take_app. Qed.

Lemma sapp_assoc' : forall a b c : string, ((a ++ b) ++ c = a ++ (b ++ c))%string.
Proof. induction a; simpl; intros; auto. now rewrite IHa. Qed.

Lemma quote_roundtrip : forall q, String.length (q_platform q) < 256 -> String.length (q_suite q) < 256 ->
  exists d, q_to_bytes q = Some d /\
    q_from_bytes d = Some (Quote (q_platform q) (take 32 (q_pk q)) (q_suite q)).
Proof.
  intros [pf pk su] Hp Hs. cbn [q_platform q_suite q_pk] in *. unfold q_to_bytes, byte1. cbn [q_platform q_suite q_pk].
  rewrite (proj2 (Nat.ltb_lt _ _) Hp), (proj2 (Nat.ltb_lt _ _) Hs). eexists. split; [reflexivity|].
  set (A := String (ascii_of_nat (String.length pf)) ""). set (B := String (ascii_of_nat (String.length su)) "").
  unfold q_from_bytes. change (String.get 0 (A ++ pf ++ B ++ su ++ pk)) with (Some (ascii_of_nat (String.length pf))).
  cbv zeta iota. rewrite nat_ascii_id by auto.
  assert (E1 : String.get (1 + String.length pf) (A ++ pf ++ B ++ su ++ pk) = Some (ascii_of_nat (String.length su))).
  { change (1 + String.length pf) with (String.length A + (String.length pf)). rewrite get_app.
    rewrite <- (Nat.add_0_r (String.length pf)), get_app. reflexivity. }
  rewrite E1. rewrite nat_ascii_id by auto. f_equal. f_equal.
  - change 1 with (String.length A). rewrite drop_app, take_app. reflexivity.
  - replace (2 + String.length pf + String.length su) with (String.length A + (String.length pf + (String.length B + (String.length su + 0)))) by (simpl; lia).
    rewrite !drop_plus. f_equal. unfold drop. rewrite Nat.sub_0_r. apply substring_all.
  - replace (2 + String.length pf) with (String.length A + (String.length pf + (String.length B + 0))) by (simpl; lia).
    rewrite !drop_plus. unfold drop. rewrite Nat.sub_0_r, substring_all. apply take_app.
Qed.

(** ** hashing *)
Lemma rows_length : forall k d l, List.length (rows k d l) = k.
Proof. induction k; simpl; auto. Qed.
Lemma skipn_skipn : forall {A} a b (l : list A), skipn a (skipn b l) = skipn (b + a) l.
Proof. intros A a b. induction b; intros l; simpl; auto. destruct l; auto. now rewrite skipn_nil. Qed.
Lemma rows_nth : forall k d l i, i < k -> nth_error (rows k d l) i = Some (nth_row d i l).
Proof.
  induction k; intros d l i H; [lia|]. destruct i; simpl; [unfold nth_row; reflexivity|].
  rewrite IHk by lia. unfold nth_row. rewrite skipn_skipn. reflexivity.
Qed.
