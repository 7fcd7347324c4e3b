(** C218: values of BFV, SPU and TEE between parties. *)
From Coq Require Import List ZArith String Ascii Bool.
From Verif Require Import Base64Model SerdeModel SerdeSpec JsonText JsonTextProofs JsonTextOk RtWireModel.
Import ListNotations.
Local Open Scope string_scope.

(** the text that is sent, and what is read from a text *)
Definition sent (fprint : Z -> string) (ser : tsctx -> string) (v : rtvalue) : string := json_dumps fprint (compact true) (value_json ser v).
Definition received (fparse : string -> option Z) (des : string -> option tsctx) (s : string) : option rtvalue :=
  match loads_bytes fparse s with Some j => read_value des j | None => None end.
(** the values the constructors make, with names that are text *)
Definition made (v : rtvalue) : Prop :=
  match v with Context k c => has_keys k c = true | BFV _ _ _ _ | Share _ _ => True | Quote p _ s => is_text p = true /\ is_text s = true end.
Definition bfv_libs (ser : tsctx -> string) (des : string -> option tsctx) : Prop := forall c, des (ser c) = Some c.

Lemma all_bytes_enc l : all_bytes (map b64 l) = Some l.
Proof. induction l as [|x l IH]; [reflexivity|]. cbn. now rewrite b64_roundtrip, IH. Qed.
Lemma saved_keys k c : has_keys k c = true -> has_keys k (saved k c) = true.
Proof. destruct k, c as [? [|] [|] [|] [|]]; cbn; auto. Qed.
Lemma read_context_json ser des k c : bfv_libs ser des -> has_keys k c = true -> read_context des (context_json ser k c) = Some (k, saved k c).
Proof.
  intros L H. pose proof (saved_keys k c H) as K. assert (N : kind_of (kind_name k) = Some k) by (destruct k; reflexivity).
  unfold read_context, context_json, tag, text_at, bytes_at, member. cbn [app find fst snd String.eqb Ascii.eqb Bool.eqb b64]. 
  unfold text_at, member. cbn [find fst snd String.eqb Ascii.eqb Bool.eqb]. rewrite N. cbn. rewrite b64_roundtrip, L, K. reflexivity.
Qed.
Lemma value_read ser des v : bfv_libs ser des -> made v ->
  read_value des (value_json ser v) = Some (match v with Context k c => Context k (saved k c) | BFV d _ c b => BFV d KParam (saved KParam c) b | _ => v end).
Proof.
  intros L M. destruct v as [k c|d k c b|m l|p pk s].
  - pose proof (read_context_json ser des k c L M) as R. unfold value_json, read_value. rewrite R. destruct k; reflexivity.
  - pose proof (read_context_json ser des KParam c L eq_refl) as R. unfold value_json, read_value, tag, text_at, bytes_at, member.
    cbn [app find fst snd String.eqb Ascii.eqb Bool.eqb b64]. rewrite R. unfold text_at, member. cbn [find fst snd String.eqb Ascii.eqb Bool.eqb b64]. rewrite b64_roundtrip. reflexivity.
  - unfold value_json, read_value, tag, text_at, bytes_at, member. cbn [app find fst snd String.eqb Ascii.eqb Bool.eqb b64].
    unfold text_at, member. cbn [find fst snd String.eqb Ascii.eqb Bool.eqb b64]. rewrite b64_roundtrip, all_bytes_enc. reflexivity.
  - unfold value_json, read_value, tag, text_at, bytes_at, member. cbn [app find fst snd String.eqb Ascii.eqb Bool.eqb b64].
    unfold text_at, member. cbn [find fst snd String.eqb Ascii.eqb Bool.eqb b64]. rewrite b64_roundtrip. reflexivity.
Qed.
Ltac distinct := cbn [map fst]; repeat (constructor; [cbn; intuition discriminate|]); constructor.
Lemma context_ok ser k c : json_ok (context_json ser k c).
Proof.
  unfold context_json, tag. cbn [app json_ok]. split; [distinct|]. cbn [all fst snd]. split; [split; [reflexivity|apply ok_b64]|]. split; [|exact I]. split; [reflexivity|destruct k; reflexivity].
Qed.
Lemma value_ok ser v : made v -> json_ok (value_json ser v).
Proof.
  intros M. destruct v as [k c|d k c b|m l|p pk s]; [apply context_ok| | |]; unfold value_json, tag; cbn [app].
  - split; [distinct|]. cbn [all fst snd]. split; [split; [reflexivity|apply ok_b64]|]. split; [split; [reflexivity|exact I]|]. split; [split; [reflexivity|apply context_ok]|]. split; [split; reflexivity|exact I].
  - split; [distinct|]. cbn [all fst snd]. split; [split; [reflexivity|apply ok_b64]|]. split; [split; [reflexivity|]|split; [split; reflexivity|exact I]].
    apply ok_arr. intros x Hx. apply in_map_iff in Hx. destruct Hx as (y & <- & _). apply ok_b64.
  - destruct M as (Mp & Ms). split; [distinct|]. cbn [all fst snd]. split; [split; [reflexivity|exact Mp]|]. split; [split; [reflexivity|apply ok_b64]|]. split; [split; [reflexivity|exact Ms]|]. split; [split; reflexivity|exact I].
Qed.
Lemma arrives fprint fparse ser des v : float_text fprint fparse -> bfv_libs ser des -> made v ->
  received fparse des (sent fprint ser v) = Some (match v with Context k c => Context k (saved k c) | BFV d _ c b => BFV d KParam (saved KParam c) b | _ => v end).
Proof.
  intros F L M. unfold received, sent. rewrite (loads_bytes_dumps fprint fparse (compact true) (good_compact true) F) by (apply value_ok, M). apply value_read; assumption.
Qed.

(** What arrives: shares and attestation quotes as they were; a secret context as it was; a public
    context without its secret key, if it had one; a ciphertext or plaintext with the same payload. *)
Theorem C218_values_arrive_partial :
  forall (fprint : Z -> string) (fparse : string -> option Z) (ser : tsctx -> string) (des : string -> option tsctx),
  float_text fprint fparse -> bfv_libs ser des ->
  (forall meta chunks, received fparse des (sent fprint ser (Share meta chunks)) = Some (Share meta chunks)) /\
  (forall platform pk suite, is_text platform = true -> is_text suite = true ->
     received fparse des (sent fprint ser (Quote platform pk suite)) = Some (Quote platform pk suite)) /\
  (forall p pk rk gk sk, received fparse des (sent fprint ser (Context KSecret (Ts p (Some pk) (Some rk) (Some gk) (Some sk))))
     = Some (Context KSecret (Ts p (Some pk) (Some rk) (Some gk) (Some sk)))) /\
  (forall p pk rk gk sk, received fparse des (sent fprint ser (Context KPublic (Ts p (Some pk) (Some rk) (Some gk) sk)))
     = Some (Context KPublic (Ts p (Some pk) (Some rk) (Some gk) None))) /\
  (forall data k c is_cipher, exists c', received fparse des (sent fprint ser (BFV data k c is_cipher)) = Some (BFV data KParam c' is_cipher) /\ params c' = params c).
Proof.
  intros fprint fparse ser des F L. split; [|split; [|split; [|split]]]; intros.
  - exact (arrives fprint fparse ser des (Share meta chunks) F L I).
  - exact (arrives fprint fparse ser des (Quote platform pk suite) F L (conj H H0)).
  - exact (arrives fprint fparse ser des (Context KSecret (Ts p (Some pk) (Some rk) (Some gk) (Some sk))) F L eq_refl).
  - exact (arrives fprint fparse ser des (Context KPublic (Ts p (Some pk) (Some rk) (Some gk) sk)) F L eq_refl).
  - eexists. split; [exact (arrives fprint fparse ser des (BFV data k c is_cipher) F L I)|reflexivity].
Qed.
Print Assumptions C218_values_arrive_partial.

(** What is sent as a public key does not depend on the secret key, and what is sent as a ciphertext or
    plaintext depends on none of the keys its holder has. *)
Theorem C218_keys_stay :
  forall (fprint : Z -> string) (ser : tsctx -> string) (c c' : tsctx), params c = params c' ->
  (forall data k k' is_cipher, sent fprint ser (BFV data k c is_cipher) = sent fprint ser (BFV data k' c' is_cipher)) /\
  (public_key c = public_key c' -> relin_keys c = relin_keys c' -> galois_keys c = galois_keys c' ->
     sent fprint ser (Context KPublic c) = sent fprint ser (Context KPublic c')).
Proof.
  intros fprint ser c c' P. split.
  - intros data k k' b. unfold sent, value_json, context_json, saved. now rewrite P.
  - intros A B G. unfold sent, value_json, context_json, saved. now rewrite P, A, B, G.
Qed.
Print Assumptions C218_keys_stay.

(** Sending a value on gives the text it came in. *)
Theorem C218_relayed_unchanged :
  forall (fprint : Z -> string) (fparse : string -> option Z) (ser : tsctx -> string) (des : string -> option tsctx) (v v' : rtvalue),
  float_text fprint fparse -> bfv_libs ser des -> made v -> received fparse des (sent fprint ser v) = Some v' ->
  made v' /\ sent fprint ser v' = sent fprint ser v.
Proof.
  intros fprint fparse ser des v v' F L M E. rewrite (arrives fprint fparse ser des v F L M) in E. injection E as <-. destruct v as [k c|d k c b|m l|p pk s]; cbn [made] in *; (split; [|]); auto.
  - apply saved_keys, M.
  - destruct k; reflexivity.
Qed.
Print Assumptions C218_relayed_unchanged.

(* ---------------------------------------------------------------- libraries as an example *)
(** each string is written with a mark before every character and one at its end *)
Fixpoint mark (s r : string) : string := match s with "" => String "."%char r | String c s' => String ","%char (String c (mark s' r)) end.
Fixpoint unmark (s : string) : option (string * string) :=
  match s with
  | String "."%char r => Some ("", r)
  | String ","%char (String c s') => match unmark s' with Some (x, r) => Some (String c x, r) | None => None end
  | _ => None
  end.
Definition mark_opt (x : option string) (r : string) : string := match x with None => String "n"%char r | Some s => String "s"%char (mark s r) end.
Definition unmark_opt (s : string) : option (option string * string) :=
  match s with String "n"%char r => Some (None, r) | String "s"%char r => match unmark r with Some (x, r') => Some (Some x, r') | None => None end | _ => None end.
Definition ser_ex (c : tsctx) : string := mark (params c) (mark_opt (public_key c) (mark_opt (relin_keys c) (mark_opt (galois_keys c) (mark_opt (secret_key c) "")))).
Definition des_ex (s : string) : option tsctx :=
  match unmark s with None => None | Some (p, s) =>
  match unmark_opt s with None => None | Some (pk, s) =>
  match unmark_opt s with None => None | Some (rk, s) =>
  match unmark_opt s with None => None | Some (gk, s) =>
  match unmark_opt s with None => None | Some (sk, _) => Some (Ts p pk rk gk sk) end end end end end.
Lemma unmark_mark s r : unmark (mark s r) = Some (s, r).
Proof. induction s as [|c s IH]; [reflexivity|]. cbn. now rewrite IH. Qed.
Lemma unmark_mark_opt x r : unmark_opt (mark_opt x r) = Some (x, r).
Proof. destruct x; [|reflexivity]. cbn. now rewrite unmark_mark. Qed.
Example libs_ex : bfv_libs ser_ex des_ex.
Proof. intros [p pk rk gk sk]. unfold ser_ex, des_ex. cbn [params public_key relin_keys galois_keys secret_key]. rewrite unmark_mark, !unmark_mark_opt. reflexivity. Qed.
Definition keys_ex : tsctx := Ts "n=4096" (Some "pk") (Some "rk") (Some "gk") (Some "sk").

(** A ciphertext does not arrive as it was: the public keys of its context are not sent with it. *)
Theorem C218_ciphertexts_unchanged_refuted :
  ~ (forall (fprint : Z -> string) (fparse : string -> option Z) (ser : tsctx -> string) (des : string -> option tsctx) (data : string) (c : tsctx),
     float_text fprint fparse -> bfv_libs ser des -> has_keys KPublic c = true ->
     received fparse des (sent fprint ser (BFV data KPublic c true)) = Some (BFV data KPublic c true)).
Proof.
  intros H. specialize (H fprint_ex fparse_ex ser_ex des_ex "ct" keys_ex float_text_ex libs_ex eq_refl).
  rewrite (arrives _ _ _ _ (BFV "ct" KPublic keys_ex true) float_text_ex libs_ex I) in H. discriminate H.
Qed.
Print Assumptions C218_ciphertexts_unchanged_refuted.

Example ex_public : received fparse_ex des_ex (sent fprint_ex ser_ex (Context KPublic keys_ex)) = Some (Context KPublic (Ts "n=4096" (Some "pk") (Some "rk") (Some "gk") None)).
Proof. vm_compute. reflexivity. Qed.
Example ex_share : received fparse_ex des_ex (sent fprint_ex ser_ex (Share "meta" ["chunk 1"; ""; "chunk 3"])) = Some (Share "meta" ["chunk 1"; ""; "chunk 3"]).
Proof. vm_compute. reflexivity. Qed.
Example ex_quote_text : sent fprint_ex ser_ex (Quote "tdx" "key" "x25519") = "{""platform"":""tdx"",""bound_pk"":""a2V5"",""suite"":""x25519"",""_kind"":""tee_impl.MockQuoteValue""}".
Proof. vm_compute. reflexivity. Qed.
(** a parameter context does not pass for a public one *)
Example ex_wrong_kind : read_value des_ex (tag "bfv_impl.BFVPublicContextValue" [("ctx_bytes", b64 (ser_ex (saved KParam keys_ex)))]) = None.
Proof. vm_compute. reflexivity. Qed.
