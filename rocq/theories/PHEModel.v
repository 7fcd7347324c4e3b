(** Model of the PHE dialect (mplang/dialects/phe.py) and of its run-time
    implementations (mplang/backends/phe_impl.py), executed eagerly: every call
    first runs the typing rule and then the implementation.

    LightPHE is not part of /repo: it is a parameter [phe_lib]; what is assumed of
    it (additive homomorphism modulo the key's modulus) is [lib_laws] in
    PHESpec.v.  CPython's float arithmetic is used only where it is exact
    (scaling by a power of two) or is [float(int)], which is written out. *)
From Coq Require Import List ZArith QArith Bool String Ascii.
Import ListNotations.
Open Scope Z_scope.

(** ** Python numbers *)

(** CPython [float(v)] for an int: round to 53 significant bits, ties to even. *)
Definition round53 (v : Z) : Z :=
  let a := Z.abs v in
  if a <? 2 ^ 53 then v
  else
    let e := Z.log2 a - 52 in
    let q := a / 2 ^ e in
    let r := a mod 2 ^ e in
    let h := 2 ^ (e - 1) in
    let q' := if (r <? h) || ((r =? h) && Z.even q) then q else q + 1 in
    Z.sgn v * (q' * 2 ^ e).

(** OverflowError ("int too large to convert to float") is [None]. *)
Definition float_of_int (v : Z) : option Z :=
  let w := round53 v in
  if Z.abs w <? 2 ^ 1024 then Some w else None.

(** int(x): truncation towards zero *)
Definition trunc (q : Q) : Z := Z.quot (Qnum q) (Zpos (Qden q)).

(** [x * 2.0**f] for a double x: exact, except that it overflows to inf, on which
    int(...) raises OverflowError. *)
Definition scale_up (q : Q) (f : nat) : option Q :=
  let y := (q * inject_Z (2 ^ Z.of_nat f))%Q in
  if Z.abs (Qnum y) <? 2 ^ 1024 * Zpos (Qden y) then Some y else None.

(** ** Types and run-time objects *)

(** dialects/phe.py:87-156: KeyType, PlaintextType, CiphertextType, EncoderType;
    [TyNum] stands for the ordinary scalar types (f64, i32, ...). *)
Inductive pty :=
| TyNum (tag : nat)
| TyPT
| TyCT (scheme : string)
| TyKey (scheme : string) (is_public : bool)
| TyEnc
| TyTens (elem : pty) (shape : list Z).

(** elt.f64 *)
Definition f64 : nat := 0%nat.

(** Run-time objects.  backends/phe_impl.py: a number is a Python float or int,
    an encoder is PHEEncoder(scale = 2.0**fxp_bits), a key is a PHEContext, a
    ciphertext is WrappedCiphertext(ct, ctx).  A tensor is a TensorValue
    (backends/tensor_impl.py:40); it is the only one of these that is a [Value]. *)
Inductive pobj (CT : Type) :=
| OFloat (q : Q)
| OInt (z : Z)
| OEnc (fxp : nat)
| OKey (ctx : nat)
| OCt (ct : CT) (ctx : nat)
| OTens (shape : list nat) (elts : list (pobj CT)).
Arguments OFloat {CT}. Arguments OInt {CT}. Arguments OEnc {CT}.
Arguments OKey {CT}. Arguments OCt {CT}. Arguments OTens {CT}.

(** The cryptosystem: encryption under context k with randomness, ciphertext
    addition, multiplication by an integer constant, decryption. *)
Record phe_lib := {
  L_ct : Type;
  L_enc : nat -> Z -> Z -> L_ct;
  L_add : L_ct -> L_ct -> L_ct;
  L_mul : L_ct -> Z -> L_ct;
  L_dec : nat -> L_ct -> Z;
}.

Definition string_eqb := String.eqb.

Fixpoint pty_eqb (a b : pty) : bool :=
  match a, b with
  | TyNum x, TyNum y => Nat.eqb x y
  | TyPT, TyPT => true
  | TyCT s, TyCT t => String.eqb s t
  | TyKey s p, TyKey t q => String.eqb s t && Bool.eqb p q
  | TyEnc, TyEnc => true
  | TyTens e s, TyTens e' s' =>
      pty_eqb e e' && (if list_eq_dec Z.eq_dec s s' then true else false)
  | _, _ => false
  end.

(** isinstance(t, elt.ScalarType): PlaintextType and CiphertextType are
    subclasses (phe.py:107,130). *)
Definition is_scalar (t : pty) : bool :=
  match t with TyNum _ | TyPT | TyCT _ => true | _ => false end.

(** ** Typing rules *)

(** dialects/phe.py:214-233 *)
Definition encode_ae (t e : pty) : option pty :=
  match e with
  | TyEnc => if is_scalar t then Some TyPT else None
  | _ => None
  end.
(** dialects/phe.py:236-256 *)
Definition decode_ae (t e : pty) : option pty :=
  match e with
  | TyEnc => match t with TyPT => Some (TyNum f64) | _ => None end
  | _ => None
  end.
(** dialects/phe.py:267-285 *)
Definition encrypt_ae (t k : pty) : option pty :=
  match k with
  | TyKey s true => match t with TyPT => Some (TyCT s) | _ => None end
  | _ => None
  end.
(** dialects/phe.py:288-307 *)
Definition decrypt_ae (t k : pty) : option pty :=
  match k with
  | TyKey s false => match t with TyCT _ => Some TyPT | _ => None end
  | _ => None
  end.
(** dialects/phe.py:319-328 *)
Definition add_cc_ae (a b : pty) : option pty :=
  match a, b with
  | TyCT s, TyCT t => if String.eqb s t then Some (TyCT s) else None
  | _, _ => None
  end.
(** dialects/phe.py:331-340 and 343-360 *)
Definition cp_ae (a b : pty) : option pty :=
  match a, b with
  | TyCT s, TyPT => Some (TyCT s)
  | _, _ => None
  end.

Section Run.
Variable L : phe_lib.
Notation obj := (pobj (L_ct L)).

(** ** Implementations (backends/phe_impl.py); an exception is [None] *)

(** phe_impl.py:98-102 [int(value * encoder.scale)]; a TensorValue has neither
    [__mul__] nor [scale]. *)
Definition encode_impl (v e : obj) : option obj :=
  match e with
  | OEnc f =>
      match v with
      | OFloat q =>
          match scale_up q f with Some y => Some (OInt (trunc y)) | None => None end
      | OInt z =>
          match float_of_int z with
          | Some w =>
              match scale_up (inject_Z w) f with
              | Some y => Some (OInt (trunc y)) | None => None end
          | None => None
          end
      | _ => None
      end
  | _ => None
  end.

(** phe_impl.py:105-109 [float(value) / encoder.scale] *)
Definition decode_impl (v e : obj) : option obj :=
  match e with
  | OEnc f =>
      match v with
      | OInt z =>
          match float_of_int z with
          | Some w => Some (OFloat (inject_Z w / inject_Z (2 ^ Z.of_nat f))%Q)
          | None => None
          end
      | _ => None
      end
  | _ => None
  end.

(** phe_impl.py:112-117; [r] is the randomness the library draws *)
Definition encrypt_impl (r : Z) (v k : obj) : option obj :=
  match v, k with
  | OInt m, OKey c => Some (OCt (L_enc L c m r) c)
  | _, _ => None
  end.

(** phe_impl.py:120-124 [sk.decrypt(wct.ct)] *)
Definition decrypt_impl (v k : obj) : option obj :=
  match v, k with
  | OCt ct _, OKey c => Some (OInt (L_dec L c ct))
  | _, _ => None
  end.

(** phe_impl.py:57-61 and 127-134: WrappedCiphertext + WrappedCiphertext *)
Definition add_cc_impl (a b : obj) : option obj :=
  match a, b with
  | OCt x c, OCt y _ => Some (OCt (L_add L x y) c)
  | _, _ => None
  end.

(** phe_impl.py:62-67 and 137-141: the integer is encrypted under the
    ciphertext's own context, then added *)
Definition add_cp_impl (r : Z) (a b : obj) : option obj :=
  match a, b with
  | OCt x c, OInt m => Some (OCt (L_add L x (L_enc L c m r)) c)
  | _, _ => None
  end.

(** phe_impl.py:69-74 and 144-148 *)
Definition mul_cp_impl (a b : obj) : option obj :=
  match a, b with
  | OCt x c, OInt m => Some (OCt (L_mul L x m) c)
  | _, _ => None
  end.

(** ** tensor.elementwise for a binary primitive *)

Definition shape_of (t : pty) : option (list Z) :=
  match t with TyTens _ s => Some s | _ => None end.
Definition elem_of (t : pty) : pty := match t with TyTens e _ => e | _ => t end.
(** a tensor argument that is iterated over: tensor type, rank > 0 *)
Definition iterated (t : pty) : bool :=
  match t with TyTens _ (_ :: _) => true | _ => false end.

(** backends/tensor_impl.py:342-354: an argument element is passed as it is only
    when it is a [Value]; otherwise it is wrapped as TensorValue(np.array(elem)). *)
Definition wrap_value (x : obj) : obj :=
  match x with OTens s l => OTens s l | _ => OTens [] [x] end.

Definition size_of (s : list nat) : nat := fold_right Nat.mul 1%nat s.

(** the argument's value at flat position i (arg[index], C order) *)
Definition arg_at (t : pty) (x : obj) (i : nat) : option obj :=
  if iterated t then
    match x with
    | OTens _ l => match nth_error l i with Some e => Some (wrap_value e) | None => None end
    | _ => None
    end
  else Some (wrap_value x).

Fixpoint all_some {A} (l : list (option A)) : option (list A) :=
  match l with
  | [] => Some []
  | None :: _ => None
  | Some x :: r => match all_some r with Some r' => Some (x :: r') | None => None end
  end.

(** the run-time shape of the first iterated argument, () if there is none
    (tensor_impl.py:299-308) *)
Definition run_shape (ta tb : pty) (a b : obj) : list nat :=
  if iterated ta then match a with OTens s _ => s | _ => [] end
  else if iterated tb then match b with OTens s _ => s | _ => [] end
  else [].

(** backends/tensor_impl.py:288-379, one output.  Simplification: a primitive
    that draws randomness is called with the same [impl] at every element. *)
Definition elementwise_impl (impl : obj -> obj -> option obj)
    (ta tb : pty) (a b : obj) : option obj :=
  match run_shape ta tb a b with
  | [] => impl a b
  | s =>
      match all_some (map (fun i =>
              match arg_at ta a i, arg_at tb b i with
              | Some x, Some y => impl x y
              | _, _ => None
              end) (seq 0 (size_of s))) with
      | Some l => Some (OTens s l)
      | None => None
      end
  end.

(** dialects/tensor.py elementwise: the scalar function is traced on the element
    types; the result has the shape of the iterated operands.  Simplification:
    operands with two different non-scalar shapes are rejected. *)
Definition elementwise_ae (ae : pty -> pty -> option pty) (ta tb : pty) : option pty :=
  let sa := match ta with TyTens _ s => s | _ => [] end in
  let sb := match tb with TyTens _ s => s | _ => [] end in
  match ae (elem_of ta) (elem_of tb) with
  | Some e =>
      match sa, sb with
      | [], _ => Some (TyTens e sb)
      | _, [] => Some (TyTens e sa)
      | _, _ => if list_eq_dec Z.eq_dec sa sb then Some (TyTens e sa) else None
      end
  | None => None
  end.

Definition is_tens (t : pty) : bool := match t with TyTens _ _ => true | _ => false end.

(** A traced object together with its run-time value. *)
Definition tobj : Type := pty * obj.

(** bind of a binary primitive: typing rule, then implementation *)
Definition bind2 (ae : pty -> pty -> option pty) (impl : obj -> obj -> option obj)
    (x y : tobj) : option tobj :=
  match ae (fst x) (fst y) with
  | Some t => match impl (snd x) (snd y) with Some v => Some (t, v) | None => None end
  | None => None
  end.

(** tensor.elementwise(prim.bind, x, y) *)
Definition lift2 (ae : pty -> pty -> option pty) (impl : obj -> obj -> option obj)
    (x y : tobj) : option tobj :=
  bind2 (elementwise_ae ae) (elementwise_impl impl (fst x) (fst y)) x y.

(** ** The public API (dialects/phe.py) *)

(** phe.py:490-507 *)
Definition phe_encode (x enc : tobj) : option tobj :=
  if is_tens (fst x) then lift2 encode_ae encode_impl x enc
  else bind2 encode_ae encode_impl x enc.
(** phe.py:510-526 *)
Definition phe_decode (x enc : tobj) : option tobj :=
  if is_tens (fst x) then lift2 decode_ae decode_impl x enc
  else bind2 decode_ae decode_impl x enc.
(** phe.py:529-547 *)
Definition phe_encrypt (r : Z) (x pk : tobj) : option tobj :=
  if is_tens (fst x) then lift2 encrypt_ae (encrypt_impl r) x pk
  else bind2 encrypt_ae (encrypt_impl r) x pk.
(** phe.py:550-569 *)
Definition phe_decrypt (x sk : tobj) : option tobj :=
  if is_tens (fst x) then lift2 decrypt_ae decrypt_impl x sk
  else bind2 decrypt_ae decrypt_impl x sk.

(** phe.py:451-467 [_inspect_operand]: is the operand encrypted? *)
Definition inspect (t : pty) : option bool :=
  match t with
  | TyTens (TyCT _) _ => Some true
  | TyTens e _ => if is_scalar e then Some false else None
  | TyCT _ => Some true
  | _ => if is_scalar t then Some false else None
  end.

(** phe.py:473-477 [_apply_binary] *)
Definition apply_binary ae impl (x y : tobj) : option tobj :=
  if is_tens (fst x) || is_tens (fst y) then lift2 ae impl x y
  else bind2 ae impl x y.

(** phe.py:616-647; [r] is used when an operand is plaintext *)
Definition phe_add (r : Z) (x y : tobj) : option tobj :=
  match inspect (fst x), inspect (fst y) with
  | Some ex, Some ey =>
      if negb (ex || ey) then None
      else if ex && ey then apply_binary add_cc_ae add_cc_impl x y
      else if ex then apply_binary cp_ae (add_cp_impl r) x y
      else apply_binary cp_ae (add_cp_impl r) y x
  | _, _ => None
  end.

(** phe.py:650-693 *)
Definition phe_mul_plain (x y : tobj) : option tobj :=
  match inspect (fst x), inspect (fst y) with
  | Some ex, Some ey =>
      if ex && negb ey then apply_binary cp_ae mul_cp_impl x y
      else if ey && negb ex then apply_binary cp_ae mul_cp_impl y x
      else None
  | _, _ => None
  end.

(** phe.py:572-591 and 594-613 *)
Definition phe_encrypt_auto (r : Z) (x enc pk : tobj) : option tobj :=
  match phe_encode x enc with Some e => phe_encrypt r e pk | None => None end.
Definition phe_decrypt_auto (x enc sk : tobj) : option tobj :=
  match phe_decrypt x sk with Some e => phe_decode e enc | None => None end.

(** phe.py:395-435, 192-211 and phe_impl.py:89-95: dtype and max_value are
    checked / stored as attributes and never read again; 2.0**fxp_bits overflows
    from 1024 on. *)
Definition phe_create_encoder (dtype : pty) (fxp : nat) (max_value : option Z)
    : option tobj :=
  if is_scalar dtype then
    if Nat.ltb fxp 1024 then Some (TyEnc, OEnc fxp) else None
  else None.

(** str.capitalize() on ASCII *)
Definition up (c : ascii) : ascii :=
  let n := nat_of_ascii c in
  if (Nat.leb 97 n && Nat.leb n 122)%bool then ascii_of_nat (n - 32) else c.
Definition low (c : ascii) : ascii :=
  let n := nat_of_ascii c in
  if (Nat.leb 65 n && Nat.leb n 90)%bool then ascii_of_nat (n + 32) else c.
Fixpoint smap (f : ascii -> ascii) (s : string) : string :=
  match s with EmptyString => EmptyString | String c r => String (f c) (smap f r) end.
Definition capitalize (s : string) : string :=
  match s with EmptyString => EmptyString | String c r => String (up c) (smap low r) end.

(** phe.py:165-180, 368-392 and phe_impl.py:30-36, 77-86: LightPHE is built for
    the capitalised name ([known] are the names the library accepts, any other
    raises ValueError); [ctx] identifies the new context.  Both keys are the same
    object. *)
Definition phe_keygen (known : list string) (ctx : nat) (scheme : string)
    : option (tobj * tobj) :=
  if existsb (String.eqb (capitalize scheme)) known then
    Some ((TyKey scheme true, OKey ctx), (TyKey scheme false, OKey ctx))
  else None.
End Run.
