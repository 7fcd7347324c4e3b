(** Properties C80 and C81: the PHE dialect. *)
From Coq Require Import List ZArith QArith Qabs Bool String Lia.
From Verif Require Import PHEModel PHESpec PHEProofs.
Import ListNotations.
Open Scope Z_scope.
Open Scope string_scope.

(** ** C80: homomorphic arithmetic on encoded numbers *)

(** For every expression built from encrypt_auto, add and mul_plain (plaintext
    operand on either side), running it under key [k] succeeds and decrypting the
    result gives the integer computed on the fixed-point representations, modulo
    the key's modulus. *)
Theorem C80_homomorphic_mod_n : forall L n f k s e, lib_laws L n ->
  inputs_ok (encodable f) e ->
  exists c, run_px L f k s e = Some c /\
    phe_decrypt L c (sk_obj L k s) = Some (TyPT, OInt (int_of f e mod n k)).
Proof. intros. apply decrypt_ok; assumption. Qed.
Print Assumptions C80_homomorphic_mod_n.

(** Sums whose scaled value lies in [0, 2^53] (and below the modulus) decode to
    the real sum, within one unit of 2^-f per input, exactly when the inputs are
    multiples of 2^-f.  Missing: negative results and products, see below. *)
Theorem C133_additive_partial : forall L n f k s e, lib_laws L n ->
  inputs_ok (encodable f) e -> additive e ->
  0 <= int_of f e <= 2 ^ 53 -> int_of f e < n k ->
  exists q, result_px L f k s e = Some (TyNum f64, OFloat q) /\
    (Qabs (q - real_of e) < inject_Z (leaves e) / inject_Z (2 ^ Z.of_nat f))%Q /\
    (inputs_ok (on_grid f) e -> (q == real_of e)%Q).
Proof. apply decoded_additive. Qed.
Print Assumptions C133_additive_partial.

(** Negative results are not read back: with a modulus above 2^1024 (the default
    key has 2048 bits) decoding any negative result raises OverflowError; in
    particular a negative input does not survive encrypt_auto / decrypt_auto. *)
Theorem C133_negative_refuted : forall L n f k s e, lib_laws L n ->
  inputs_ok (encodable f) e -> int_of f e < 0 -> 2 ^ 1024 <= n k + int_of f e ->
  result_px L f k s e = None.
Proof. apply negative_raises. Qed.
Print Assumptions C133_negative_refuted.

(** The product of two encoded numbers decodes to x * y * 2^f, not to x * y. *)
Theorem C133_product_scaled_refuted : forall L n f k s x y r, lib_laws L n ->
  encodable f x -> encodable f y -> on_grid f x -> on_grid f y ->
  0 <= fixed f x * fixed f y <= 2 ^ 53 -> fixed f x * fixed f y < n k ->
  exists q, result_px L f k s (XMulP (XIn x r) y) = Some (TyNum f64, OFloat q) /\
    (q == real x * real y * inject_Z (2 ^ Z.of_nat f))%Q.
Proof. apply product_scaled. Qed.
Print Assumptions C133_product_scaled_refuted.

(** The documented overflow check and the dtype are ignored: encoders that differ
    only in them are the same object, and decoding always gives an f64. *)
Theorem C133_encoder_options_refuted : forall L f t t' m m',
  is_scalar t = true -> is_scalar t' = true ->
  phe_create_encoder L t f m = phe_create_encoder L t' f m'.
Proof. intros L f t t' m m' H H'. unfold phe_create_encoder. rewrite H, H'. reflexivity. Qed.
Print Assumptions C133_encoder_options_refuted.

Theorem C133_decoded_type_refuted : forall L x enc t v,
  is_tens (fst x) = false -> phe_decode L x enc = Some (t, v) -> t = TyNum f64.
Proof.
  intros L x enc t v NT H. unfold phe_decode in H. rewrite NT in H. unfold bind2, decode_ae in H.
  destruct (fst enc); try discriminate. destruct (fst x); try discriminate.
  destruct (decode_impl L (snd x) (snd enc)); inversion H; reflexivity.
Qed.
Print Assumptions C133_decoded_type_refuted.

(** Although every function is documented for tensors, each of them raises at run
    time on every tensor operand with at least one element. *)
Theorem C133_tensors_refuted : forall L r (x y : pty * pobj (L_ct L)),
  is_tensor x -> nonempty x -> nonempty y ->
  phe_encode L x y = None /\ phe_decode L x y = None /\
  phe_encrypt L r x y = None /\ phe_decrypt L x y = None /\
  phe_add L r x y = None /\ phe_add L r y x = None /\
  phe_mul_plain L x y = None /\ phe_mul_plain L y x = None.
Proof. exact tensor_none. Qed.
Print Assumptions C133_tensors_refuted.

(** Ill-formed operations are rejected: two plaintexts, two ciphertexts
    multiplied, an operand that was not encoded. *)
Theorem C80_operands_checked : forall L r (x y : pty * pobj (L_ct L)) s s' t,
  (fst x = TyPT -> fst y = TyPT -> phe_add L r x y = None /\ phe_mul_plain L x y = None) /\
  (fst x = TyCT s -> fst y = TyCT s' -> phe_mul_plain L x y = None) /\
  (fst x = TyCT s -> fst y = TyCT s' -> s <> s' -> phe_add L r x y = None) /\
  (fst x = TyCT s -> fst y = TyNum t -> phe_add L r x y = None /\ phe_add L r y x = None /\
     phe_mul_plain L x y = None /\ phe_mul_plain L y x = None).
Proof.
  intros L r [tx x] [ty y] s s' t. cbn [fst]. repeat split; intros; subst; try reflexivity.
  unfold phe_add, apply_binary, bind2. cbn.
  destruct (String.eqb_spec s s'); [contradiction|reflexivity].
Qed.
Print Assumptions C80_operands_checked.

(** A concrete case: 1.5 + (-0.25) + 3 with 4 fractional bits. *)
Definition ex_e : px :=
  XPAdd (NInt 3) (XAdd (XIn (NFloat (3 # 2)) 7) (XIn (NFloat (-1 # 4)) 8)) 9.
Example C80_example :
  inputs_ok (encodable 4) ex_e /\ additive ex_e /\ inputs_ok (on_grid 4) ex_e /\
  int_of 4 ex_e = 68 /\ lib_laws (toy 1000003) (fun _ => 1000003) /\
  (exists q, result_px (toy 1000003) 4 0 "paillier" ex_e = Some (TyNum f64, OFloat q) /\
             (q == 17 # 4)%Q).
Proof.
  assert (G : inputs_ok (on_grid 4) ex_e).
  { repeat split; [exists 24|exists (-4)|exists 48]; reflexivity. }
  split; [|split; [|split; [|split; [|split]]]].
  - cbn [ex_e inputs_ok]. unfold encodable. cbn [real].
    repeat split; try (vm_compute; reflexivity); try lia.
  - cbn. tauto.
  - exact G.
  - vm_compute; reflexivity.
  - apply toy_laws. lia.
  - eexists. split; [vm_compute; reflexivity|vm_compute; reflexivity].
Qed.

(** -1.0 under a 2048-bit modulus: decryption succeeds, decoding raises. *)
Example C80_negative_example :
  let n := 2 ^ 2047 + 1 in
  encodable 16 (NFloat (-1 # 1)) /\ fixed 16 (NFloat (-1 # 1)) = -65536 /\
  2 ^ 1024 <= n + fixed 16 (NFloat (-1 # 1)) /\ lib_laws (toy n) (fun _ => n) /\
  result_px (toy n) 16 0 "paillier" (XIn (NFloat (-1 # 1)) 0) = None.
Proof.
  cbv zeta. split; [|split; [|split; [|split]]].
  - split; [vm_compute; reflexivity|exact I].
  - vm_compute; reflexivity.
  - vm_compute; discriminate.
  - apply toy_laws. vm_compute; reflexivity.
  - vm_compute; reflexivity.
Qed.

(** 1.5 * 2.5 with 4 fractional bits decodes to 60 = 3.75 * 16. *)
Example C80_product_example :
  exists q, result_px (toy 1000003) 4 0 "paillier"
      (XMulP (XIn (NFloat (3 # 2)) 5) (NFloat (5 # 2))) = Some (TyNum f64, OFloat q) /\
    (q == 60 # 1)%Q.
Proof. eexists. split; [vm_compute; reflexivity|vm_compute; reflexivity]. Qed.

(** ** C81: keys *)

(** Type level: decrypting needs an object typed as the private key, encrypting
    one typed as the public key. *)
Theorem C81_key_types : forall L r x (y : pty * pobj (L_ct L)) s,
  (fst y = TyKey s true -> phe_decrypt L x y = None) /\
  (fst y = TyKey s false -> phe_encrypt L r x y = None).
Proof.
  intros L r [tx x] [ty y] s. cbn [fst].
  split; intros ->; unfold phe_decrypt, phe_encrypt; cbn [fst];
    (destruct (is_tens tx); [unfold lift2|]; unfold bind2; cbn [fst snd]); try reflexivity;
    unfold elementwise_ae; reflexivity.
Qed.
Print Assumptions C81_key_types.

(** Value level: the public key that is handed out IS the private key object, and
    each ciphertext carries it; whoever receives either can decrypt everything
    encrypted under the pair. *)
Theorem C81_public_key_decrypts_refuted : forall L n known ctx s pk sk, lib_laws L n ->
  phe_keygen L known ctx s = Some (pk, sk) ->
  snd pk = snd sk /\
  (forall m r, 0 <= m < n ctx ->
     exists ct, phe_encrypt L r (TyPT, OInt m) pk = Some (TyCT s, OCt ct ctx) /\
       decrypt_impl L (OCt ct ctx) (snd pk) = Some (OInt m) /\
       decrypt_impl L (OCt ct ctx) (OKey ctx) = Some (OInt m)).
Proof.
  intros L n known ctx s pk sk LL H. unfold phe_keygen in H.
  destruct (existsb _ known); [|discriminate]. inversion H; subst. cbn [snd].
  split; [reflexivity|]. intros m r R. exists (L_enc L ctx m r). cbn.
  rewrite (law_enc L n LL), Z.mod_small by exact R. auto.
Qed.
Print Assumptions C81_public_key_decrypts_refuted.

(** Ciphertexts made under two different key pairs of the same scheme are added
    without any error; the result is labelled with the first key. *)
Theorem C81_mixed_keys_refuted : forall L r s c1 c2 k1 k2,
  phe_add L r (TyCT s, OCt c1 k1) (TyCT s, OCt c2 k2) =
    Some (TyCT s, OCt (L_add L c1 c2) k1).
Proof.
  intros. cbn. unfold apply_binary, bind2, add_cc_ae. cbn.
  rewrite String.eqb_refl. reflexivity.
Qed.
Print Assumptions C81_mixed_keys_refuted.

(** The names LightPHE accepts (lightphe.models.Algorithm). *)
Definition lightphe_names : list string :=
  ["RSA"; "ElGamal"; "Exponential-ElGamal"; "EllipticCurve-ElGamal"; "Paillier";
   "Damgard-Jurik"; "Okamoto-Uchiyama"; "Benaloh"; "Naccache-Stern";
   "Goldwasser-Micali"].

(** Of the three documented schemes only "paillier" can be generated: the name is
    capitalised, which changes the others into names the library rejects. *)
Theorem C81_schemes_refuted : forall L ctx,
  (exists p, phe_keygen L lightphe_names ctx "paillier" = Some p) /\
  phe_keygen L lightphe_names ctx "elgamal" = None /\
  phe_keygen L lightphe_names ctx "ElGamal" = None /\
  phe_keygen L lightphe_names ctx "okamoto-uchiyama" = None.
Proof. intros. split; [eexists; reflexivity|]. repeat split. Qed.
Print Assumptions C81_schemes_refuted.

Example C81_example :
  exists pk sk, phe_keygen (toy 1000003) lightphe_names 3 "paillier" = Some (pk, sk) /\
    snd pk = snd sk /\ fst pk <> fst sk.
Proof. do 2 eexists. split; [reflexivity|]. split; [reflexivity|discriminate]. Qed.
