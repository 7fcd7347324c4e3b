(** What a user expects of the PHE dialect, independently of its implementation. *)
From Coq Require Import List ZArith QArith Qabs Qround Bool String.
From Verif Require Import PHEModel.
Import ListNotations.
Open Scope Z_scope.

(** ** What is assumed of the cryptosystem (Paillier): additively homomorphic
    modulo [n k] for ciphertexts made under context [k] *)
Inductive under (L : phe_lib) (k : nat) : L_ct L -> Prop :=
| under_enc : forall m r, under L k (L_enc L k m r)
| under_add : forall a b, under L k a -> under L k b -> under L k (L_add L a b)
| under_mul : forall a m, under L k a -> under L k (L_mul L a m).

Record lib_laws (L : phe_lib) (n : nat -> Z) : Prop := {
  law_n : forall k, 1 < n k;
  law_enc : forall k m r, L_dec L k (L_enc L k m r) = m mod n k;
  law_add : forall k a b, under L k a -> under L k b ->
    L_dec L k (L_add L a b) = (L_dec L k a + L_dec L k b) mod n k;
  law_mul : forall k a m, under L k a ->
    L_dec L k (L_mul L a m) = (L_dec L k a * m) mod n k;
}.

(** ** Inputs and expressions *)
Inductive num := NFloat (q : Q) | NInt (z : Z).

Definition real (v : num) : Q := match v with NFloat q => q | NInt z => inject_Z z end.

(** the input as an object the API accepts *)
Definition num_obj (L : phe_lib) (v : num) : pty * pobj (L_ct L) :=
  match v with
  | NFloat q => (TyNum f64, OFloat q)
  | NInt z => (TyNum 1, OInt z)
  end.

(** an input whose scaled value is a finite double; ints are given exactly *)
Definition encodable (f : nat) (v : num) : Prop :=
  (Qabs (real v * inject_Z (2 ^ Z.of_nat f)) < inject_Z (2 ^ 1024))%Q /\
  match v with NInt z => Z.abs z <= 2 ^ 53 | NFloat _ => True end.

(** the fixed-point representation: x * 2^f rounded towards zero *)
Definition fixed (f : nat) (v : num) : Z :=
  let y := (real v * inject_Z (2 ^ Z.of_nat f))%Q in
  if Qle_bool 0 y then Qfloor y else Qceiling y.

(** Homomorphic expressions over encrypted inputs: [r] is the randomness drawn by
    an encryption. *)
Inductive px :=
| XIn (v : num) (r : Z)                 (* encrypt_auto(v) *)
| XAdd (a b : px)                       (* add(ct, ct) *)
| XAddP (a : px) (v : num) (r : Z)      (* add(ct, encode(v)) *)
| XPAdd (v : num) (a : px) (r : Z)      (* add(encode(v), ct) *)
| XMulP (a : px) (v : num)              (* mul_plain(ct, encode(v)) *)
| XPMul (v : num) (a : px).             (* mul_plain(encode(v), ct) *)

(** the real number the user computes *)
Fixpoint real_of (e : px) : Q :=
  match e with
  | XIn v _ => real v
  | XAdd a b => real_of a + real_of b
  | XAddP a v _ | XPAdd v a _ => real_of a + real v
  | XMulP a v | XPMul v a => real_of a * real v
  end.

(** the integer computation on fixed-point representations *)
Fixpoint int_of (f : nat) (e : px) : Z :=
  match e with
  | XIn v _ => fixed f v
  | XAdd a b => int_of f a + int_of f b
  | XAddP a v _ | XPAdd v a _ => int_of f a + fixed f v
  | XMulP a v | XPMul v a => int_of f a * fixed f v
  end.

Fixpoint inputs_ok (P : num -> Prop) (e : px) : Prop :=
  match e with
  | XIn v _ => P v
  | XAdd a b => inputs_ok P a /\ inputs_ok P b
  | XAddP a v _ | XPAdd v a _ | XMulP a v | XPMul v a => inputs_ok P a /\ P v
  end.

Fixpoint additive (e : px) : Prop :=
  match e with
  | XIn _ _ => True
  | XAdd a b => additive a /\ additive b
  | XAddP a _ _ | XPAdd _ a _ => additive a
  | XMulP _ _ | XPMul _ _ => False
  end.

Fixpoint leaves (e : px) : Z :=
  match e with
  | XIn _ _ => 1
  | XAdd a b => leaves a + leaves b
  | XAddP a _ _ | XPAdd _ a _ | XMulP a _ | XPMul _ a => leaves a + 1
  end.

(** the input is a multiple of 2^-f *)
Definition on_grid (f : nat) (v : num) : Prop :=
  exists m : Z, (real v * inject_Z (2 ^ Z.of_nat f) == inject_Z m)%Q.

(** ** Running an expression through the API with an encoder of [f] fractional
    bits and the public key of context [k] *)
Section Prog.
Variable L : phe_lib.
Variable f k : nat.
Variable s : string.

Definition enc_obj : pty * pobj (L_ct L) := (TyEnc, OEnc f).
Definition pk_obj : pty * pobj (L_ct L) := (TyKey s true, OKey k).
Definition sk_obj : pty * pobj (L_ct L) := (TyKey s false, OKey k).

Fixpoint run_px (e : px) : option (pty * pobj (L_ct L)) :=
  match e with
  | XIn v r => phe_encrypt_auto L r (num_obj L v) enc_obj pk_obj
  | XAdd a b =>
      match run_px a, run_px b with
      | Some x, Some y => phe_add L 0 x y | _, _ => None end
  | XAddP a v r =>
      match run_px a, phe_encode L (num_obj L v) enc_obj with
      | Some x, Some y => phe_add L r x y | _, _ => None end
  | XPAdd v a r =>
      match phe_encode L (num_obj L v) enc_obj, run_px a with
      | Some x, Some y => phe_add L r x y | _, _ => None end
  | XMulP a v =>
      match run_px a, phe_encode L (num_obj L v) enc_obj with
      | Some x, Some y => phe_mul_plain L x y | _, _ => None end
  | XPMul v a =>
      match phe_encode L (num_obj L v) enc_obj, run_px a with
      | Some x, Some y => phe_mul_plain L x y | _, _ => None end
  end.

(** what the user reads at the end: decrypt_auto(result, encoder, sk) *)
Definition result_px (e : px) : option (pty * pobj (L_ct L)) :=
  match run_px e with Some c => phe_decrypt_auto L c enc_obj sk_obj | None => None end.
End Prog.

(** ** Tensors: a tensor operand has at least one element *)
Definition is_tensor {CT} (x : pty * pobj CT) : Prop :=
  exists e sh rs l, x = (TyTens e sh, OTens rs l).
Definition nonempty {CT} (x : pty * pobj CT) : Prop :=
  match snd x with OTens rs _ => size_of rs <> 0%nat | _ => True end.

(** A transparent additive scheme that satisfies the laws (used in examples). *)
Definition toy (n : Z) : phe_lib := {|
  L_ct := Z; L_enc := fun _ m _ => m mod n; L_add := fun a b => (a + b) mod n;
  L_mul := fun a m => (a * m) mod n; L_dec := fun _ c => c mod n |}.
