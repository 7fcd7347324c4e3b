(** Model of the TEE dialect (dialects/tee.py:194-332) and its mock backend (backends/tee_impl.py:49-210):
    quotes, their byte encoding, attestation, and the types announced when tracing.
    A text is the list of its UTF-8 bytes; [utf8] says which byte strings decode (str.decode, a parameter).
    Values are as the interpreter passes them; the mock warnings (tee_impl.py:117-124) are left out. *)
From Coq Require Import NArith List Arith Bool.
Import ListNotations.

Definition bytes := list N.
Record public_key := PublicKey { suite : bytes; key_bytes : bytes }.
(** tee_impl.py:51-69 *)
Record quote := Quote { platform : bytes; bound_pk : bytes; qsuite : bytes }.

Inductive value := VKey (k : public_key) | VQuote (q : quote) | VBytes (b : bytes) | VOther.
Inductive outcome (A : Type) := Ok (a : A) | TypeError | ValueError | IndexError | NoHandler.
Global Arguments Ok {A}. Global Arguments TypeError {A}. Global Arguments ValueError {A}. Global Arguments IndexError {A}. Global Arguments NoHandler {A}.

Definition mock : bytes := [109; 111; 99; 107]%N.  (* "mock" *)
(** tee_impl.py:127-165 *)
Definition quote_gen (v : value) : outcome quote :=
  match v with VKey pk => Ok (Quote mock (key_bytes pk) (suite pk)) | _ => TypeError end.

(** tee_impl.py:86-97: bytes([n]) raises ValueError for n > 255 *)
Definition to_bytes (q : quote) : outcome bytes :=
  if (length (platform q) <? 256) && (length (qsuite q) <? 256)
  then Ok (N.of_nat (length (platform q)) :: platform q ++ N.of_nat (length (qsuite q)) :: qsuite q ++ bound_pk q)
  else ValueError.

Section Backend.
Variable utf8 : bytes -> bool.
Definition decode (b : bytes) : outcome bytes := if utf8 b then Ok b else ValueError.
(** tee_impl.py:99-109: indexing raises, slices are cut off at the end *)
Definition slice (i n : nat) (b : bytes) : bytes := firstn n (skipn i b).
Definition from_bytes (b : bytes) : outcome quote :=
  match nth_error b 0 with
  | None => IndexError
  | Some n =>
      let n := N.to_nat n in
      match decode (slice 1 n b) with
      | Ok plat =>
          match nth_error b (1 + n) with
          | None => IndexError
          | Some m =>
              let m := N.to_nat m in
              match decode (slice (1 + n + 1) m b) with
              | Ok s => Ok (Quote plat (slice (1 + n + 1 + m) 32 b) s)
              | _ => ValueError
              end
          end
      | _ => ValueError
      end
  end.
(** tee_impl.py:168-210; op.attrs["expected_curve"] is not read *)
Definition attest (expected_curve : bytes) (v : value) : outcome public_key :=
  match v with
  | VQuote q => Ok (PublicKey (qsuite q) (bound_pk q))
  | VBytes b => match from_bytes b with Ok q => Ok (PublicKey (qsuite q) (bound_pk q)) | IndexError => IndexError | _ => ValueError end
  | _ => TypeError
  end.
(** tee_impl.py defines no implementation of tee.get_measurement (tee.py:196, 320-332) *)
Definition get_measurement (v : value) : outcome unit := NoHandler.
End Backend.

(** tee.py:204-257: the announced types *)
Inductive ty := TPublicKey (s : bytes) | TQuote | TAttestedKey (curve : bytes) | TMeasurement | TAny.
Definition quote_gen_ty (t : ty) : option ty := match t with TPublicKey _ => Some TQuote | _ => None end.
Definition attest_ty (expected_curve : bytes) (t : ty) : option ty := Some (TAttestedKey expected_curve).
Definition get_measurement_ty (t : ty) : option ty := Some TMeasurement.
