(** Specification vocabulary for C76-C79. *)
From Coq Require Import List NArith ZArith String Ascii Bool.
From Verif Require Import MPCBase OTModel OTSpec SerdeModel SerdeSpec JsonText JsonTextOk CryptoModel.
Import ListNotations.
Local Open Scope Z_scope.

(** ** Curve expressions *)
(** The multiple of the generator an expression stands for. *)
Fixpoint multiple (e : ecx) : Z :=
  match e with
  | EGen => 1
  | EMul e s => s * multiple e
  | EAdd a b => multiple a + multiple b
  | ESub a b => multiple a - multiple b
  | EBytes e => multiple e
  end.

(** No addition or subtraction of two finite points gives the point at infinity, and
    only finite points are turned into bytes ([n]: the group order). *)
Fixpoint no_cancel (n : Z) (e : ecx) : Prop :=
  match e with
  | EGen => True
  | EMul e _ => no_cancel n e
  | EAdd a b => no_cancel n a /\ no_cancel n b /\
      (multiple a mod n <> 0 -> multiple b mod n <> 0 -> multiple (EAdd a b) mod n <> 0)
  | ESub a b => no_cancel n a /\ no_cancel n b /\
      (multiple a mod n <> 0 -> multiple b mod n <> 0 -> multiple (ESub a b) mod n <> 0)
  | EBytes e => no_cancel n e /\ multiple e mod n <> 0
  end.

(** ** Laws of the external primitives *)
Record aead_ok (P : prims) : Prop := {
  (* decryption inverts encryption *)
  a_dec : forall k n m, aes_ok P k = true -> String.length n = 12%nat ->
            aes_dec P k n (aes_enc P k n m) = Some m;
  (* only encryptions are accepted (the tag is recomputed and compared) *)
  a_sound : forall k n c m, aes_dec P k n c = Some m -> c = aes_enc P k n m }.

(** Diffie-Hellman over honestly generated keys of 32 bytes; HKDF gives 32-byte keys, which
    AES-GCM accepts. *)
Record dh_ok (P : prims) : Prop := {
  d_pub : forall a, String.length a = 32%nat -> String.length (x_pub P a) = 32%nat;
  d_agree : forall a b, String.length a = 32%nat -> String.length b = 32%nat ->
     exists s, x_exch P a (x_pub P b) = Some s /\ x_exch P b (x_pub P a) = Some s;
  d_hkdf : forall ikm info, String.length (hkdf256 P ikm info) = 32%nat;
  d_key : forall k, String.length k = 32%nat -> aes_ok P k = true }.

(** Laws of gzip and of the float text format, and which values serialise (C20). *)
Definition codec_ok (C : codec) : Prop :=
  float_text (fprint C) (fparse C) /\ (forall s, gunzip C (gz C s) = Some s).
Definition sendable (C : codec) (x : pv) : Prop :=
  wf_pv (float_int C) (itemsize C) x /\ text_pv x.

(** the run-time shape a static shape announces *)
Definition shape_conf (st : list Z) (rt : list nat) : Prop :=
  Forall2 (fun d n => d = -1 \/ d = Z.of_nat n) st rt.

(** row number [i] of a tensor whose rows have [d] elements *)
Definition nth_row (d i : nat) (l : list string) : list string := firstn d (skipn (i * d) l).

(** ** Algorithm names: spelled in upper or lower case, with dashes and underscores anywhere *)
Definition letters : list (ascii * ascii) :=
  combine (list_ascii_of_string "ABCDEFGHIJKLMNOPQRSTUVWXYZ"%string) (list_ascii_of_string "abcdefghijklmnopqrstuvwxyz"%string).
Inductive spells : string -> string -> Prop :=
| sp_end : spells EmptyString EmptyString
| sp_mark : forall c s w, In c ["-"; "_"]%char -> spells s w -> spells (String c s) w
| sp_upper : forall c d s w, In (c, d) letters -> spells s w -> spells (String c s) (String d w)
| sp_other : forall c s w, ~ In c ["-"; "_"]%char -> ~ In c (map fst letters) -> spells s w -> spells (String c s) (String c w).
