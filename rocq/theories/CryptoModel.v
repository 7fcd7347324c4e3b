(** Model of the crypto dialect's run-time (mplang/backends/crypto_impl.py), of the mock
    TEE (mplang/backends/tee_impl.py) and of the session set-up of
    mplang/libs/device/api.py:385-468.  The curve, SHA-256, AES-GCM, X25519 and HKDF are
    parameters: their laws are hypotheses of the theorems (CryptoSpec.v). *)
From Coq Require Import List NArith ZArith String Ascii Bool.
From Verif Require Import MPCBase OTModel Base64Model CtxModel SerdeModel JsonText.
Import ListNotations.
Local Open Scope string_scope.

(** ** Elliptic-curve expressions *)

(** What a user can build with ec_generator, ec_mul, ec_add, ec_sub and the bytes
    round trip ec_bytes_to_point(ec_point_to_bytes(.)). *)
Inductive ecx : Type :=
| EGen
| EMul (e : ecx) (s : Z)
| EAdd (a b : ecx)
| ESub (a b : ecx)
| EBytes (e : ecx).

Section EC.
Variable X : cenv.
Notation E := (grp X).

(** Run-time points: None or an ECPointValue holding a valid encoding ([RPt], the
    identity of the group being Python None), or an ECPointValue holding bytes that are
    no point ([RBad]): ECPointValue does not validate (crypto_impl.py:89-96), the first
    use through coincurve_key (109-112) does. *)
Inductive rpt : Type := RPt (p : pt E) | RBad.

(** crypto_impl.py:135-171 mul_impl *)
Definition r_mul (p : rpt) (s : Z) : option rpt :=
  if Z.eqb (s mod OTModel.ord E)%Z 0 then Some (RPt (pzero E))
  else match p with RPt p => Some (RPt (ec_mul E p s)) | RBad => None end.

(** crypto_impl.py:174-186 add_impl *)
Definition r_add (p q : rpt) : option rpt :=
  match p, q with
  | RPt p, RPt q => option_map RPt (ec_add E p q)
  | RPt p, RBad => if pis0 E p then Some RBad else None
  | RBad, RPt q => if pis0 E q then Some RBad else None
  | RBad, RBad => None
  end.

(** crypto_impl.py:189-208 sub_impl *)
Definition r_sub (p q : rpt) : option rpt :=
  match p, q with
  | RPt p, RPt q => option_map RPt (ec_sub E p q)
  | RPt _, RBad => None
  | RBad, RPt q => if pis0 E q then Some RBad else None
  | RBad, RBad => None
  end.

(** crypto_impl.py:241-269 point_to_bytes_impl then bytes_to_point_impl; the zero bytes
    written for None are kept as they are *)
Definition r_bytes (p : rpt) : option rpt :=
  match p with
  | RBad => None
  | RPt p => match dec_pt X (pt_bytes X p) with
             | Some q => Some (RPt q)
             | None => Some RBad
             end
  end.

Definition bind2 (f : rpt -> rpt -> option rpt) (a b : option rpt) : option rpt :=
  match a, b with Some x, Some y => f x y | _, _ => None end.

(** evaluation; None: an exception was raised *)
Fixpoint ec_run (e : ecx) : option rpt :=
  match e with
  | EGen => Some (RPt (pgen E))
  | EMul e s => match ec_run e with Some p => r_mul p s | None => None end
  | EAdd a b => bind2 r_add (ec_run a) (ec_run b)
  | ESub a b => bind2 r_sub (ec_run a) (ec_run b)
  | EBytes e => match ec_run e with Some p => r_bytes p | None => None end
  end.
End EC.
Arguments RPt {X}. Arguments RBad {X}.

(** ** Symmetric encryption *)

(** What a key argument may be: SymmetricKeyValue, BytesValue, TensorValue (its bytes) *)
Inductive keyarg : Type := KSym (suite bytes : string) | KBytes (bytes : string) | KTensor (bytes : string)
  | KOther.

(** crypto_impl.py:365-375, 409-419 *)
Definition key_bytes (k : keyarg) : option string :=
  match k with KSym _ b | KBytes b | KTensor b => Some b | KOther => None end.

(** External primitives: AES-GCM, X25519, HKDF-SHA256, SHA-256.
    [aes_ok]: the key lengths AESGCM(k) accepts. *)
Record prims : Type := Prims {
  aes_ok  : string -> bool;
  aes_enc : string -> string -> string -> string;           (* key, nonce, plaintext *)
  aes_dec : string -> string -> string -> option string;    (* None: InvalidTag *)
  x_pub   : string -> string;                               (* private -> public bytes *)
  x_exch  : string -> string -> option string;              (* private, public -> secret *)
  hkdf256 : string -> string -> string;                     (* ikm, info -> 32 bytes *)
  sha256  : string -> string
}.

(** the serialisation functions' parameters (gzip, float text), see JsonText.v *)
Record codec : Type := Codec {
  float_int : Z -> option Z; itemsize : string -> option Z;
  fprint : Z -> string; fparse : string -> option Z;
  gz : string -> string; gunzip : string -> option string
}.

Section Sym.
Variable P : prims.
Variable C : codec.

Definition cdumps (x : pv) : string := dumps (fprint C) (gz C) x.
Definition cloads (s : string) : res pv := loads (float_int C) (itemsize C) (fparse C) (gunzip C) s.

(** crypto_impl.py:275-293 _validate_algo *)
Definition algo_ok (algo : string) : bool := String.eqb algo "aes-gcm".

(** crypto_impl.py:347-387; [nonce] is os.urandom(12) *)
Definition sym_encrypt (algo : string) (k : keyarg) (nonce : string) (x : pv) : res string :=
  if algo_ok algo then
    match key_bytes k with
    | None => TypeErr
    | Some kb => if aes_ok P kb then Ok (nonce ++ aes_enc P kb nonce (cdumps x)) else ValueErr
    end
  else ValueErr.

(** Python s[:n] and s[n:] *)
Definition take (n : nat) (s : string) : string := substring 0 n s.
Definition drop (n : nat) (s : string) : string := substring n (String.length s - n) s.

(** crypto_impl.py:390-438; [target] is the announced type, which the body never reads
    (InvalidTag is rendered as ValueErr) *)
Definition sym_decrypt (algo : string) (k : keyarg) (ct : string) (target : ty) : res pv :=
  if algo_ok algo then
    match key_bytes k with
    | None => TypeErr
    | Some kb =>
        if aes_ok P kb then
          match aes_dec P kb (take 12 ct) (drop 12 ct) with
          | None => ValueErr
          | Some pt => cloads pt
          end
        else ValueErr
    end
  else ValueErr.

(** ** Key exchange *)
Record keyval : Type := Key { suite : string; kbytes : string }.

(** dialects/crypto.py:329-331 (types) and crypto_impl.py:551-585 (values): the
    implementation's [suite] parameter is never passed by the interpreter (operations
    are called with their inputs only), so it is always the default. [rnd] is the fresh
    32-byte private key. *)
Definition kem_keygen_types (requested : string) : string * string := (requested, requested).
Definition kem_keygen (requested : string) (rnd : string) : keyval * keyval :=
  let s := "x25519" in (Key s rnd, Key s (x_pub P rnd)).

(** crypto_impl.py:588-614 *)
Fixpoint xor_bytes (a b : list ascii) : option (list ascii) :=
  match a, b with
  | [], [] => Some []
  | x :: a', y :: b' =>
      match xor_bytes a' b' with
      | Some r => Some (ascii_of_N (N.lxor (N_of_ascii x) (N_of_ascii y)) :: r)
      | None => None
      end
  | _, _ => None                       (* zip(strict=True) *)
  end.
Definition kem_derive (sk pk : keyval) : option keyval :=
  if String.eqb (suite sk) "x25519" then
    option_map (Key (suite sk)) (x_exch P (kbytes sk) (kbytes pk))
  else
    option_map (fun l => Key (suite sk) (string_of_list_ascii l))
      (xor_bytes (list_ascii_of_string (kbytes sk)) (list_ascii_of_string (kbytes pk))).

(** s.lower().replace("-", "").replace("_", "") *)
Definition lower (c : ascii) : ascii :=
  let n := N_of_ascii c in if (65 <=? n)%N && (n <=? 90)%N then ascii_of_N (n + 32) else c.
Fixpoint norm_algo (s : string) : string :=
  match s with
  | "" => ""
  | String c r =>
      if Ascii.eqb c "-" || Ascii.eqb c "_" then norm_algo r else String (lower c) (norm_algo r)
  end.

(** dialects/crypto.py:342-374 [_hkdf_ae]: accepted, with the suite of the result type *)
Definition hkdf_ae (info algo : string) : option string :=
  if String.eqb info "" then None
  else if String.eqb algo "" then None
  else Some ("hkdf-" ++ norm_algo algo).

(** crypto_impl.py:617-709 *)
Definition hkdf (info algo : string) (secret : keyarg) : option keyval :=
  if String.eqb info "" then None
  else match secret with
       | KSym _ b | KTensor b =>
           if String.eqb (norm_algo algo) "sha256"
           then Some (Key ("hkdf-" ++ norm_algo algo) (hkdf256 P b info)) else None
       | _ => None
       end.

(** ** Mock TEE: tee_impl.py:49-210 *)
Record quote : Type := Quote { q_platform : string; q_pk : string; q_suite : string }.

Definition quote_gen (pk : keyval) : quote := Quote "mock" (kbytes pk) (suite pk).
Definition attest (q : quote) : keyval := Key (q_suite q) (q_pk q).

(** tee_impl.py:86-97 to_bytes; bytes([n]) raises for n > 255; names are given as their
    UTF-8 encodings *)
Definition byte1 (n : nat) : option string :=
  if Nat.ltb n 256 then Some (String (ascii_of_nat n) "") else None.
Definition q_to_bytes (q : quote) : option string :=
  match byte1 (String.length (q_platform q)), byte1 (String.length (q_suite q)) with
  | Some a, Some b => Some (a ++ q_platform q ++ b ++ q_suite q ++ q_pk q)
  | _, _ => None
  end.
(** tee_impl.py:99-109 from_bytes: Python slices never fail, data[i] does *)
Definition q_from_bytes (d : string) : option quote :=
  match String.get 0 d with
  | None => None
  | Some a =>
      let n := nat_of_ascii a in
      let platform := take n (drop 1 d) in
      match String.get (1 + n) d with
      | None => None
      | Some b =>
          let m := nat_of_ascii b in
          let su := take m (drop (2 + n) d) in
          let pk := take 32 (drop (2 + n + m) d) in
          Some (Quote platform pk su)
      end
  end.

(** ** The session: device/api.py:385-468. [tee_rnd], [frm_rnd]: the two fresh private
    keys. Transport between the two ranks is C24/C26's subject. *)
Definition tee_info : string := "mplang/device/tee/v2".
Definition kem_suite : string := "x25519".

Definition tee_session (tee_rnd frm_rnd : string) : option (keyval * keyval) :=
  let '(tee_sk, tee_pk) := kem_keygen kem_suite tee_rnd in
  let q := quote_gen tee_pk in
  let tee_pk_at_sender := attest q in
  let '(v_sk, v_pk) := kem_keygen kem_suite frm_rnd in
  match kem_derive v_sk tee_pk_at_sender, kem_derive tee_sk v_pk with
  | Some shared_frm, Some shared_tee =>
      match hkdf tee_info "sha256" (KSym (suite shared_frm) (kbytes shared_frm)),
            hkdf tee_info "sha256" (KSym (suite shared_tee) (kbytes shared_tee)) with
      | Some a, Some b => Some (a, b)
      | _, _ => None
      end
  | _, _ => None
  end.

Definition as_key (k : keyval) : keyarg := KSym (suite k) (kbytes k).
End Sym.

(** ** Hashing: crypto_impl.py:296-344 *)

(** A TensorValue: numeric (each element as its bytes) or of dtype object (each element
    with the address of its object, which is what the array's buffer holds). Outputs of
    tensor.elementwise are of the second kind (tensor_impl.py:311-320). *)
Inductive tval : Type :=
| TNum (shape : list nat) (elems : list string)
| TObj (shape : list nat) (items : list (pv * string)).

Definition tshape (t : tval) : list nat := match t with TNum s _ | TObj s _ => s end.
(** the elements' bytes in the buffer, row-major *)
Definition tbuf (t : tval) : list string := match t with TNum _ l => l | TObj _ l => map snd l end.
(** the elements a user sees: bytes of numbers, or the objects *)
Definition tcontent (t : tval) : list string + list pv :=
  match t with TNum _ l => inl l | TObj _ l => inr (map fst l) end.

Definition cat (l : list string) : string := String.concat "" l.

(** 296-312 hash_impl: shape (32,) *)
Definition hash_impl (sha : string -> string) (t : tval) : string := sha (cat (tbuf t)).

Fixpoint rows (n d : nat) (l : list string) : list (list string) :=
  match n with
  | O => []
  | S n' => firstn d l :: rows n' d (skipn d l)
  end.

Definition nprod (s : list nat) : nat := fold_right Nat.mul 1 s.

(** 315-344 hash_batch_impl: output shape and the 32-byte digests in row-major order *)
Definition hash_batch_impl (sha : string -> string) (t : tval) : list nat * list string :=
  match tshape t with
  | [] | [_] => ([32], [sha (cat (tbuf t))])
  | s => let batch := removelast s in
         let d := last s 0 in
         (app batch [32], map (fun r => sha (cat r)) (rows (nprod batch) d (tbuf t)))
  end.

(** dialects/crypto.py:260-277 [_hash_batch_ae] on the static shape *)
Definition hash_batch_ae (shape : list Z) : list Z :=
  if Nat.ltb (List.length shape) 2 then [32%Z] else app (removelast shape) [32%Z].
