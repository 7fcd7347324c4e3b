(** C76-C79: elliptic-curve operations, authenticated encryption, hashing, key exchange. *)
From Coq Require Import List NArith ZArith String Ascii Bool Lia.
From Verif Require Import MPCBase OTModel OTSpec OTExample Base64Model CtxModel SerdeModel SerdeSpec
  JsonText JsonTextOk CryptoModel CryptoSpec CryptoProofs.
Import ListNotations.
Local Open Scope string_scope.

(** ** C76 *)
(** Whatever finite point an expression built from the generator evaluates to, it is the
    right multiple of the generator; and every expression in which no two finite points
    cancel and only finite points are turned into bytes does evaluate to it. *)
Theorem C76_ec_value : forall (X : cenv) (e : ecx),
  env_ok X -> gen_exact (grp X) ->
  (forall p, ec_run X e = Some (RPt p) -> p = ec_mul (grp X) (pgen (grp X)) (multiple e)) /\
  (no_cancel (OTModel.ord (grp X)) e ->
     ec_run X e = Some (RPt (ec_mul (grp X) (pgen (grp X)) (multiple e)))).
Proof.
  intros X e O GE. split.
  - intros p H. exact (run_fits X O GE e _ H).
  - apply (run_clean X O GE).
Qed.
Print Assumptions C76_ec_value.

(** REFUTED where points cancel: for all such operands P and Q with P + Q = 0 (or P = Q),
    ec_add (ec_sub) raises instead of returning the point at infinity, although the
    dialect represents it (ec_mul by 0 returns it). *)
Theorem C155_cancellation_refuted : forall (X : cenv) (a b : ecx),
  env_ok X -> gen_exact (grp X) ->
  let n := OTModel.ord (grp X) in
  no_cancel n a -> no_cancel n b ->
  (multiple a mod n <> 0)%Z -> (multiple b mod n <> 0)%Z ->
  ((multiple a + multiple b) mod n = 0 -> ec_run X (EAdd a b) = None)%Z /\
  ((multiple a - multiple b) mod n = 0 -> ec_run X (ESub a b) = None)%Z /\
  ec_run X (EMul a 0) = Some (RPt (pzero (grp X))).
Proof.
  intros X a b O GE n Ca Cb Na Nb. split; [|split].
  - intros S. apply cancel_add; auto.
  - intros S. apply cancel_sub; auto.
  - simpl. rewrite (run_clean X O GE a Ca). unfold r_mul. rewrite Z.mod_0_l; [reflexivity|].
    pose proof (g_ordp _ (e_grp X O)). lia.
Qed.
Print Assumptions C155_cancellation_refuted.

(** REFUTED for the bytes round trip of the point at infinity: it comes back as an
    object that is no point, and adding it to any finite point raises. *)
Theorem C155_infinity_bytes_refuted : forall (X : cenv) (a b : ecx),
  env_ok X -> gen_exact (grp X) ->
  let n := OTModel.ord (grp X) in
  no_cancel n a -> no_cancel n b -> (multiple a mod n = 0)%Z -> (multiple b mod n <> 0)%Z ->
  ec_run X (EBytes a) = Some RBad /\
  ec_run X (EAdd a b) = ec_run X b /\ ec_run X (EAdd (EBytes a) b) = None.
Proof.
  intros X a b O GE n Ca Cb Na Nb. pose proof (bytes_inf X O GE a Ca Na) as B. split; [exact B|].
  pose proof (run_clean X O GE a Ca) as Ra. pose proof (run_clean X O GE b Cb) as Rb.
  pose proof (proj2 (is0_mult X O GE (multiple a)) Na) as Ia.
  assert (Ib : pis0 (grp X) (ec_mul (grp X) (pgen (grp X)) (multiple b)) = false).
  { apply not_true_iff_false. rewrite (is0_mult X O GE). exact Nb. }
  split.
  - simpl. rewrite Ra, Rb. simpl. unfold ec_add. rewrite Ia. reflexivity.
  - cbn [ec_run] in *. rewrite B, Rb. simpl. rewrite Ib. reflexivity.
Qed.
Print Assumptions C155_infinity_bytes_refuted.

(** 3G + bytes(5G - 2G) in a group of order 11, and the cancelling 4G - 4G *)
Example C76_example :
  no_cancel 11 (EAdd (EMul EGen 3) (EBytes (ESub (EMul EGen 5) (EMul EGen 2)))) /\
  ec_run env11 (EAdd (EMul EGen 3) (EBytes (ESub (EMul EGen 5) (EMul EGen 2)))) = Some (RPt (X:=env11) (mk 6)) /\
  no_cancel 11 (EMul EGen 4) /\
  ec_run env11 (ESub (EMul EGen 4) (EMul EGen 4)) = None /\
  ec_run env11 (EBytes (EMul EGen 11)) = Some RBad.
Proof.
  split; [cbn; repeat split; intros; discriminate|].
  split; [vm_compute; do 2 f_equal; apply Z11_eq; reflexivity|].
  split; [exact I|]. split; vm_compute; reflexivity.
Qed.

(** ** C77 *)
(** Every sendable value encrypted with a key of an accepted length, given as a key, as
    bytes or as a tensor, is recovered (in its canonical form, C20) by decrypting with
    the same key bytes in any of these forms; and a ciphertext is only ever accepted if
    it is an encryption, under that key, of a serialisation of the value returned. *)
Theorem C77_encrypt_decrypt : forall (P : prims) (C : codec) (k k' : keyarg) (b nonce : string) (x : pv) (t : ty),
  aead_ok P -> codec_ok C -> sendable C x ->
  key_bytes k = Some b -> key_bytes k' = Some b -> aes_ok P b = true -> String.length nonce = 12 ->
  exists ct, sym_encrypt P C "aes-gcm" k nonce x = Ok ct /\ sym_decrypt P C "aes-gcm" k' ct t = Ok (norm x).
Proof. intros. eapply enc_dec; eauto. Qed.
Print Assumptions C77_encrypt_decrypt.

Theorem C77_only_encryptions_accepted : forall (P : prims) (C : codec) (k : keyarg) (algo ct : string) (t : ty) (v : pv),
  aead_ok P -> sym_decrypt P C algo k ct t = Ok v ->
  exists b pt nonce, key_bytes k = Some b /\ cloads C pt = Ok v /\ ct = nonce ++ aes_enc P b nonce pt.
Proof.
  intros P C k algo ct t v A H. destruct (dec_sound P C k algo ct t v A H) as (b & pt & K & E & L).
  exists b, pt, (take 12 ct). auto.
Qed.
Print Assumptions C77_only_encryptions_accepted.

(** REFUTED: the value has the type announced by target_type. The announced type is the
    static type of the result, and any type whatever is accepted for any value. *)
Theorem C130_target_type_refuted : forall (P : prims) (C : codec) (k : keyarg) (b nonce : string) (x : pv),
  aead_ok P -> codec_ok C -> sendable C x -> key_bytes k = Some b -> aes_ok P b = true -> String.length nonce = 12 ->
  exists ct, sym_encrypt P C "aes-gcm" k nonce x = Ok ct /\
    forall t : ty, sym_decrypt P C "aes-gcm" k ct t = Ok (norm x).
Proof.
  intros P C k b nonce x A CO S K KO L.
  destruct (enc_dec P C k k b nonce x TQuote A CO S K K KO L) as (ct & E & D).
  exists ct. split; auto.
Qed.
Print Assumptions C130_target_type_refuted.

(** ** a transparent instance of the primitives *)
Fixpoint strip (p s : string) : option string :=
  match p, s with
  | "", s => Some s
  | String a p', String b s' => if Ascii.eqb a b then strip p' s' else None
  | _, _ => None
  end.
Lemma strip_app : forall p s, strip p (p ++ s) = Some s.
Proof. induction p; simpl; intros; auto. now rewrite Ascii.eqb_refl. Qed.
Lemma strip_sound : forall p s r, strip p s = Some r -> s = p ++ r.
Proof.
  induction p; simpl; intros s r H; [congruence|]. destruct s; [discriminate|].
  destruct (Ascii.eqb_spec a a0); [|discriminate]. subst. f_equal. auto.
Qed.
Fixpoint zeros (n : nat) : string := match n with O => "" | S n' => String "0" (zeros n') end.
Definition toy : prims :=
  Prims (fun k => Nat.eqb (String.length k) 32)
        (fun k n m => k ++ n ++ m)
        (fun k n c => match strip k c with Some r => strip n r | None => None end)
        (fun a => a)
        (fun a b => option_map string_of_list_ascii (xor_bytes (list_ascii_of_string a) (list_ascii_of_string b)))
        (fun ikm info => take 32 (zeros 32 ++ ikm ++ info))
        (fun s => s).

Lemma xor_comm : forall a b, xor_bytes a b = xor_bytes b a.
Proof. induction a; destruct b; simpl; auto. rewrite IHa, N.lxor_comm. reflexivity. Qed.
Lemma xor_total : forall a b, List.length a = List.length b -> exists r, xor_bytes a b = Some r.
Proof.
  induction a; destruct b; simpl; intros H; try discriminate; eauto.
  destruct (IHa b) as (r & ->); [lia|]. eauto.
Qed.
Lemma ascii_len : forall s, List.length (list_ascii_of_string s) = String.length s.
Proof. induction s; simpl; auto. Qed.

Lemma toy_aead : aead_ok toy.
Proof.
  split; cbn [aes_dec aes_enc toy].
  - intros k n m _ _. now rewrite strip_app, strip_app.
  - intros k n c m H. destruct (strip k c) as [r|] eqn:K; [|discriminate].
    apply strip_sound in K, H. subst. reflexivity.
Qed.
Lemma toy_dh : dh_ok toy.
Proof.
  split.
  - intros a A. exact A.
  - intros a b A B. cbn [toy x_exch x_pub]. destruct (xor_total (list_ascii_of_string a) (list_ascii_of_string b)) as (r & R).
    { rewrite !ascii_len. lia. }
    exists (string_of_list_ascii r). rewrite R, (xor_comm (list_ascii_of_string b)), R. auto.
  - intros ikm info. cbn [toy hkdf256]. replace 32 with (String.length (zeros 32)) at 1 by reflexivity.
    rewrite take_app. reflexivity.
  - intros k Hk. cbn [toy aes_ok]. rewrite Hk. reflexivity.
Qed.

Definition toy_codec : codec :=
  Codec (fun _ => None) (fun _ => None) fprint_ex fparse_ex (fun s => s) (fun s => Some s).
Lemma toy_codec_ok : codec_ok toy_codec.
Proof. split; [exact float_text_ex|reflexivity]. Qed.

Definition key32 : string := "0123456789abcdef0123456789ABCDEF".
Example C77_example :
  sendable toy_codec (PList [PInt 7; PBytes "abc"]) /\
  match sym_encrypt toy toy_codec "aes-gcm" (KBytes key32) "nonce_nonce_" (PList [PInt 7; PBytes "abc"]) with
  | Ok ct => sym_decrypt toy toy_codec "aes-gcm" (KSym "x" key32) ct TQuote = Ok (PList [PInt 7; PBytes "abc"])
             /\ sym_decrypt toy toy_codec "aes-gcm" (KSym "x" key32) ("X" ++ ct) TQuote = ValueErr
  | _ => False
  end.
Proof.
  split; [split; cbn; tauto|]. vm_compute. split; reflexivity.
Qed.

(** ** C78 *)
(** The digest of a numeric tensor depends on its content alone, and (with a hash without
    collisions on the inputs at hand) tells apart any two tensors whose bytes differ. *)
Theorem C78_hash_of_content : forall (sha : string -> string) (s s' : list nat) (a b : list string),
  (a = b -> hash_impl sha (TNum s a) = hash_impl sha (TNum s' b)) /\
  ((forall u v, sha u = sha v -> u = v) -> cat a <> cat b ->
     hash_impl sha (TNum s a) <> hash_impl sha (TNum s' b)).
Proof.
  intros sha s s' a b. split; [intros ->; reflexivity|]. intros I N H. apply N. apply I. exact H.
Qed.
Print Assumptions C78_hash_of_content.

(** hash_batch: row number i of the output is the digest of row number i of the input,
    for every number of batch dimensions, and the shape is the announced one. *)
Theorem C78_hash_batch_rows : forall (sha : string -> string) (st : list Z) (batch : list nat) (d : nat) (a : list string),
  batch <> [] -> shape_conf st (batch ++ [d])%list ->
  let '(shape, digests) := hash_batch_impl sha (TNum (batch ++ [d])%list a) in
  shape_conf (hash_batch_ae st) shape /\
  List.length digests = fold_right Nat.mul 1%nat batch /\
  forall i, (i < fold_right Nat.mul 1%nat batch)%nat -> nth_error digests i = Some (sha (cat (nth_row d i a))).
Proof.
  intros sha st batch d a B C. unfold hash_batch_impl. cbn [tshape tbuf].
  remember (batch ++ [d])%list as s eqn:Es.
  assert (L2 : (2 <= List.length s)%nat).
  { subst s. rewrite app_length. destruct batch; [congruence|]. simpl. lia. }
  destruct s as [|x [|y r]]; [simpl in L2; lia|simpl in L2; lia|]. rewrite Es in *.
  rewrite removelast_last, last_last. split; [|split].
  - unfold hash_batch_ae. unfold shape_conf in *.
    assert (L : forall (l : list Z) (m : list nat) R, Forall2 R l m -> List.length l = List.length m)
      by (induction 1; simpl; auto).
    apply L in C as L'. clear L. rename L' into L. rewrite app_length in L. simpl in L.
    rewrite app_length in L2. simpl in L2.
    destruct (Nat.ltb_spec (List.length st) 2); [lia|].
    destruct (exists_last (l := st)) as (st' & z & ->). { intros ->. simpl in L. lia. }
    rewrite removelast_last. apply Forall2_app_inv_r in C. destruct C as (p & q & C1 & C2 & E).
    inversion C2 as [|? ? ? ? ? C3]; subst. inversion C3; subst.
    apply app_inj_tail in E. destruct E as (-> & _). apply Forall2_app; auto.
  - rewrite map_length, rows_length. reflexivity.
  - intros i H. rewrite nth_error_map, rows_nth by auto. reflexivity.
Qed.
Print Assumptions C78_hash_batch_rows.

Example C78_example :
  hash_batch_impl (fun s => s) (TNum [2; 2; 3] ["a";"b";"c";"d";"e";"f";"g";"h";"i";"j";"k";"l"]) =
    ([2; 2; 32], ["abc"; "def"; "ghi"; "jkl"]) /\
  shape_conf (hash_batch_ae [2; -1; 3]%Z) [2; 2; 32].
Proof. split; [reflexivity|]. constructor; [right; reflexivity|]. constructor; [left; reflexivity|]. constructor; [right; reflexivity|]. constructor. Qed.

(** REFUTED for tensors of dtype object, which is what tensor.elementwise returns: their
    buffer holds addresses. Two such tensors with equal content hash differently as
    soon as one element's object lies elsewhere; so the parties of a program that hash
    equal tensors do not get equal digests. *)
Theorem C131_object_tensors_refuted : forall (sha : string -> string) (s : list nat) (items items' : list (pv * string)),
  (forall u v, sha u = sha v -> u = v) ->
  map fst items = map fst items' -> cat (map snd items) <> cat (map snd items') ->
  tcontent (TObj s items) = tcontent (TObj s items') /\
  hash_impl sha (TObj s items) <> hash_impl sha (TObj s items').
Proof.
  intros sha s items items' I E N. split; [simpl; congruence|]. intros H. apply N. apply I. exact H.
Qed.
Print Assumptions C131_object_tensors_refuted.

Example C78_object_example :
  let t := TObj [2] [(PInt 1, "addr0001"); (PInt 2, "addr0002")] in
  let u := TObj [2] [(PInt 1, "addr9001"); (PInt 2, "addr9002")] in
  tcontent t = tcontent u /\ hash_impl (fun s => s) t <> hash_impl (fun s => s) u.
Proof. split; [reflexivity|discriminate]. Qed.

(** ** C79 *)
(** The session set-up between a sender and a TEE ends with both holding one key, and
    whatever either of them encrypts with it the other decrypts, in both directions. *)
Theorem C79_session_agrees : forall (P : prims) (C : codec) (tee_rnd frm_rnd : string),
  dh_ok P -> aead_ok P -> codec_ok C ->
  String.length tee_rnd = 32 -> String.length frm_rnd = 32 ->
  exists kf kt, tee_session P tee_rnd frm_rnd = Some (kf, kt) /\ kf = kt /\
    forall (nonce : string) (x : pv) (t : ty), String.length nonce = 12 -> sendable C x ->
      (exists ct, sym_encrypt P C "aes-gcm" (as_key kf) nonce x = Ok ct /\
                  sym_decrypt P C "aes-gcm" (as_key kt) ct t = Ok (norm x)) /\
      (exists ct, sym_encrypt P C "aes-gcm" (as_key kt) nonce x = Ok ct /\
                  sym_decrypt P C "aes-gcm" (as_key kf) ct t = Ok (norm x)).
Proof.
  intros P C a b D A CO La Lb. destruct (session P a b D La Lb) as (k & S & L & _).
  exists k, k. split; [auto|]. split; [auto|]. intros nonce x t Ln Sx.
  assert (K : aes_ok P (kbytes k) = true) by (apply (d_key P D); auto).
  split; eapply enc_dec; eauto; reflexivity.
Qed.
Print Assumptions C79_session_agrees.

Example C79_example : exists k, tee_session toy key32 (zeros 32) = Some (k, k) /\ suite k = "hkdf-sha256".
Proof. eexists. split; vm_compute; reflexivity. Qed.

(** The quote survives its byte encoding, for names shorter than 256 bytes and 32-byte keys. *)
Theorem C79_quote_roundtrip : forall q : quote,
  (String.length (q_platform q) < 256)%nat -> (String.length (q_suite q) < 256)%nat ->
  String.length (q_pk q) = 32 ->
  exists d, q_to_bytes q = Some d /\ q_from_bytes d = Some q /\
    forall q', q_from_bytes d = Some q' -> attest q' = Key (q_suite q) (q_pk q).
Proof.
  intros q Hp Hs Hk. destruct (quote_roundtrip q Hp Hs) as (d & E & F). exists d.
  assert (T : take 32 (q_pk q) = q_pk q).
  { unfold take. rewrite <- Hk. apply substring_all. }
  rewrite T in F. destruct q as [pf pk su]. cbn [q_platform q_suite q_pk] in *.
  split; [auto|]. split; [auto|]. intros q' H. rewrite F in H. inversion H; subst. reflexivity.
Qed.
Print Assumptions C79_quote_roundtrip.

Example C79_quote_example :
  let q := Quote "mock" key32 "x25519" in
  match q_to_bytes q with Some d => q_from_bytes d = Some q /\ String.length d = 44 | None => False end.
Proof. vm_compute. split; reflexivity. Qed.

(** REFUTED: a received ciphertext comes from the other side. The two directions share
    one key and nothing else is authenticated, so a party accepts its own ciphertexts
    when they are sent back to it. *)
Theorem C132_reflection_refuted : forall (P : prims) (C : codec) (tee_rnd frm_rnd nonce : string) (x : pv) (t : ty),
  dh_ok P -> aead_ok P -> codec_ok C -> sendable C x ->
  String.length tee_rnd = 32 -> String.length frm_rnd = 32 -> String.length nonce = 12 ->
  exists kf kt ct, tee_session P tee_rnd frm_rnd = Some (kf, kt) /\
    sym_encrypt P C "aes-gcm" (as_key kf) nonce x = Ok ct /\
    sym_decrypt P C "aes-gcm" (as_key kf) ct t = Ok (norm x).
Proof.
  intros P C a b nonce x t D A CO Sx La Lb Ln. destruct (session P a b D La Lb) as (k & S & L & _).
  assert (K : aes_ok P (kbytes k) = true) by (apply (d_key P D); auto).
  destruct (enc_dec P C (as_key k) (as_key k) (kbytes k) nonce x t A CO Sx eq_refl eq_refl K Ln) as (ct & E1 & E2).
  exists k, k, ct. auto.
Qed.
Print Assumptions C132_reflection_refuted.

(** REFUTED: kem_keygen(suite) makes keys of that suite. The key values always say
    x25519, whatever suite their static types announce. *)
Theorem C132_suite_refuted : forall (P : prims) (requested rnd : string), requested <> "x25519" ->
  let '(ts, tp) := kem_keygen_types requested in
  let '(sk, pk) := kem_keygen P requested rnd in
  suite sk <> ts /\ suite pk <> tp.
Proof. intros P r rnd H. simpl. split; congruence. Qed.
Print Assumptions C132_suite_refuted.

Lemma lower_spec c : In (c, lower c) letters \/ (lower c = c /\ ~ In c (map fst letters)).
Proof. destruct c as [[] [] [] [] [] [] [] []]; vm_compute; ((left; tauto) || (right; split; [reflexivity|intuition discriminate])). Qed.
Lemma letters_lower c d : In (c, d) letters -> lower c = d /\ c <> "-"%char /\ c <> "_"%char.
Proof. intros H. cbn in H. repeat (destruct H as [H|H]; [injection H as <- <-; repeat split; discriminate|]). destruct H. Qed.
Lemma norm_spells algo : forall w, spells algo w <-> norm_algo algo = w.
Proof.
  induction algo as [|c s IH]; intros w.
  - split; [intros H; inversion H; reflexivity|intros <-; constructor].
  - cbn [norm_algo]. destruct (Ascii.eqb c "-" || Ascii.eqb c "_") eqn:M.
    + assert (Mc : In c ["-"; "_"]%char) by (apply orb_prop in M; destruct M as [M|M]; apply Ascii.eqb_eq in M; subst; cbn; auto).
      rewrite <- IH. split; [|intros H; apply sp_mark; auto]. intros H. inversion H; subst; auto; [|contradiction].
      destruct (letters_lower _ _ H2) as (_ & A & B). destruct Mc as [<-|[<-|[]]]; congruence.
    + apply orb_false_elim in M. destruct M as [M1 M2]. apply Ascii.eqb_neq in M1, M2. assert (Mc : ~ In c ["-"; "_"]%char) by (cbn; intuition congruence). split.
      * intros H. inversion H; subst; [contradiction| |].
        -- destruct (letters_lower _ _ H2) as (-> & _). f_equal. now apply IH.
        -- destruct (lower_spec c) as [L|[L _]]; [apply (in_map fst) in L; contradiction|]. rewrite L. f_equal. now apply IH.
      * intros <-. destruct (lower_spec c) as [L|[L L']]; [apply sp_upper; auto; now apply IH|]. rewrite L. apply sp_other; auto. now apply IH.
Qed.

(** hkdf derives keys for every spelling of sha256, at the suite its type announces. *)
Theorem C79_hkdf_spellings : forall (P : prims) (info algo b : string), info <> "" -> spells algo "sha256" ->
  hkdf_ae info algo = Some "hkdf-sha256" /\ hkdf P info algo (KTensor b) = Some (Key "hkdf-sha256" (hkdf256 P b info)).
Proof.
  intros P info algo b I A. apply norm_spells in A. unfold hkdf_ae, hkdf. destruct (String.eqb_spec info ""); [congruence|].
  destruct (String.eqb_spec algo ""); [subst; discriminate A|]. rewrite A. split; reflexivity.
Qed.
Print Assumptions C79_hkdf_spellings.

(** REFUTED: every hash algorithm hkdf accepts when the program is built can be run: all
    but sha256 (in any spelling) fail at run time. *)
Theorem C132_hkdf_algorithms_refuted : forall (P : prims) (info algo : string) (secret : keyarg),
  info <> "" -> algo <> "" -> ~ spells algo "sha256" ->
  (exists s, hkdf_ae info algo = Some s) /\ hkdf P info algo secret = None.
Proof.
  intros P info algo secret I A N. rewrite norm_spells in N. unfold hkdf_ae, hkdf.
  destruct (String.eqb_spec info ""); [congruence|]. destruct (String.eqb_spec algo ""); [congruence|].
  split; [eauto|]. destruct (String.eqb_spec (norm_algo algo) "sha256"); [congruence|].
  destruct secret; reflexivity.
Qed.
Print Assumptions C132_hkdf_algorithms_refuted.

Example C79_hkdf_example :
  hkdf_ae "info" "SHA-512" = Some "hkdf-sha512" /\ hkdf toy "info" "SHA-512" (KTensor "s") = None /\
  option_map suite (hkdf toy "info" "SHA_256" (KTensor "s")) = Some "hkdf-sha256" /\
  spells "SHA_256" "sha256" /\ ~ spells "SHA-512" "sha256".
Proof. rewrite !norm_spells. vm_compute. repeat split; try reflexivity. discriminate. Qed.
