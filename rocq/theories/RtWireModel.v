(** Model of the to_json / from_json methods of the runtime values that are sent between parties:
    backends/bfv_impl.py:61-248 (contexts, plaintexts and ciphertexts), backends/spu_impl.py:54-94
    (shares), backends/tee_impl.py:49-85 (quotes), and of the class dispatch of edsl/serde.py:141-148,
    342-347.  A TenSEAL context is its parameters and the keys it has; [ser] is Context.serialize of what
    is to be saved, [des] is tenseal.context_from.  A ciphertext or plaintext of SEAL is the bytes that
    its save method writes.  An exception is [None]. *)
From Coq Require Import List ZArith String Bool.
From Verif Require Import Base64Model SerdeModel.
Import ListNotations.
Local Open Scope string_scope.

Record tsctx : Type := Ts { params : string; public_key : option string; relin_keys : option string; galois_keys : option string; secret_key : option string }.
Inductive kind : Type := KParam | KPublic | KSecret.

Inductive rtvalue : Type :=
| Context (k : kind) (c : tsctx)                                (* BFV{Param,Public,Secret}ContextValue *)
| BFV (data : string) (k : kind) (c : tsctx) (is_cipher : bool)  (* BFVValue: payload and its ctx *)
| Share (meta : string) (chunks : list string)                   (* SPUShareValue *)
| Quote (platform bound_pk suite : string).                      (* MockQuoteValue *)

Section Wire.
Variables (ser : tsctx -> string) (des : string -> option tsctx).

(** 85-93 save_*=False; 133-136 save_secret_key=False; 170-173 *)
Definition saved (k : kind) (c : tsctx) : tsctx :=
  match k with
  | KParam => Ts (params c) None None None None
  | KPublic => Ts (params c) (public_key c) (relin_keys c) (galois_keys c) None
  | KSecret => c
  end.
Definition kind_name (k : kind) : string :=
  match k with KParam => "bfv_impl.BFVParamContextValue" | KPublic => "bfv_impl.BFVPublicContextValue" | KSecret => "bfv_impl.BFVSecretContextValue" end.
Definition context_json (k : kind) (c : tsctx) : json := tag (kind_name k) [("ctx_bytes", b64 (ser (saved k c)))].
Definition value_json (v : rtvalue) : json :=
  match v with
  | Context k c => context_json k c
  (* 193-219: the context is wrapped anew as parameters only *)
  | BFV data _ c is_cipher => tag "bfv_impl.BFVValue" [("data_bytes", b64 data); ("is_cipher", JBool is_cipher); ("ctx", context_json KParam c)]
  | Share meta chunks => tag "spu_impl.SPUShareValue" [("meta", b64 meta); ("share_chunks", JArr (map b64 chunks))]
  | Quote platform pk suite => tag "tee_impl.MockQuoteValue" [("platform", JStr platform); ("bound_pk", b64 pk); ("suite", JStr suite)]
  end.

Definition member (name : string) (j : json) : option json :=
  match j with JObj l => match find (fun p => String.eqb (fst p) name) l with Some p => Some (snd p) | None => None end | _ => None end.
Definition text_at (name : string) (j : json) : option string := match member name j with Some (JStr s) => Some s | _ => None end.
Definition bytes_at (name : string) (j : json) : option string := match text_at name j with Some s => b64dec s | None => None end.
Fixpoint all_bytes (l : list json) : option (list string) :=
  match l with
  | [] => Some []
  | JStr s :: l' => match b64dec s, all_bytes l' with Some x, Some r => Some (x :: r) | _, _ => None end
  | _ => None
  end.
Definition kind_of (name : string) : option kind := find (fun k => String.eqb name (kind_name k)) [KParam; KPublic; KSecret].
(** the constructors read the keys they need (120-122, 156-160) *)
Definition has_keys (k : kind) (c : tsctx) : bool :=
  let is (x : option string) := match x with Some _ => true | None => false end in
  match k with KParam => true | KPublic => is (public_key c) && is (relin_keys c) && is (galois_keys c)
  | KSecret => is (public_key c) && is (relin_keys c) && is (galois_keys c) && is (secret_key c) end.
Definition read_context (j : json) : option (kind * tsctx) :=
  match text_at "_kind" j with
  | None => None
  | Some name => match kind_of name, bytes_at "ctx_bytes" j with
    | Some k, Some s => match des s with Some c => if has_keys k c then Some (k, c) else None | None => None end
    | _, _ => None end
  end.
Definition read_value (j : json) : option rtvalue :=
  match text_at "_kind" j with
  | None => None
  | Some name =>
      if String.eqb name "bfv_impl.BFVValue" then
        match member "ctx" j, bytes_at "data_bytes" j, member "is_cipher" j with
        | Some cj, Some data, Some (JBool b) => match read_context cj with Some (k, c) => Some (BFV data k c b) | None => None end
        | _, _, _ => None end
      else if String.eqb name "spu_impl.SPUShareValue" then
        match bytes_at "meta" j, member "share_chunks" j with
        | Some meta, Some (JArr l) => match all_bytes l with Some chunks => Some (Share meta chunks) | None => None end
        | _, _ => None end
      else if String.eqb name "tee_impl.MockQuoteValue" then
        match text_at "platform" j, bytes_at "bound_pk" j, text_at "suite" j with
        | Some p, Some pk, Some s => Some (Quote p pk s)
        | _, _, _ => None end
      else match read_context j with Some (k, c) => Some (Context k c) | None => None end
  end.
End Wire.
