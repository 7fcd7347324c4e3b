(** base64.b64encode / b64decode (RFC 4648, standard alphabet, padding), used by
    edsl/serde.py:197,227,258,312,319,336 and the registered value classes.
    The encoder of the Python library is modelled exactly; the decoder on canonical input
    (non-alphabet characters, which Python discards, are rejected here). *)
From Coq Require Import List Ascii String Bool Lia.
Import ListNotations.
Local Open Scope char_scope.

Definition six : Type := (bool * bool * bool * bool * bool * bool)%type.  (* most significant first *)
Definition alphabet : string := "ABCDEFGHIJKLMNOPQRSTUVWXYZabcdefghijklmnopqrstuvwxyz0123456789+/"%string.
Definition six_index (s : six) : nat :=
  let '(a, b, c, d, e, f) := s in
  let v (x : bool) := if x then 1 else 0 in
  32 * v a + 16 * v b + 8 * v c + 4 * v d + 2 * v e + v f.
Definition enc6 (s : six) : ascii := match String.get (six_index s) alphabet with Some c => c | None => "=" end.
Definition all_six : list six :=
  let bs := [false; true] in
  flat_map (fun a => flat_map (fun b => flat_map (fun c => flat_map (fun d => flat_map (fun e =>
    map (fun f => (a, b, c, d, e, f)) bs) bs) bs) bs) bs) bs.
Definition dec6 (c : ascii) : option six := find (fun s => Ascii.eqb (enc6 s) c) all_six.

Fixpoint b64enc (s : string) : string :=
  match s with
  | EmptyString => EmptyString
  | String (Ascii a0 a1 a2 a3 a4 a5 a6 a7) EmptyString =>
      String (enc6 (a7, a6, a5, a4, a3, a2)) (String (enc6 (a1, a0, false, false, false, false)) "==")
  | String (Ascii a0 a1 a2 a3 a4 a5 a6 a7) (String (Ascii b0 b1 b2 b3 b4 b5 b6 b7) EmptyString) =>
      String (enc6 (a7, a6, a5, a4, a3, a2)) (String (enc6 (a1, a0, b7, b6, b5, b4))
        (String (enc6 (b3, b2, b1, b0, false, false)) "="))
  | String (Ascii a0 a1 a2 a3 a4 a5 a6 a7) (String (Ascii b0 b1 b2 b3 b4 b5 b6 b7) (String (Ascii c0 c1 c2 c3 c4 c5 c6 c7) s')) =>
      String (enc6 (a7, a6, a5, a4, a3, a2)) (String (enc6 (a1, a0, b7, b6, b5, b4))
        (String (enc6 (b3, b2, b1, b0, c7, c6)) (String (enc6 (c5, c4, c3, c2, c1, c0)) (b64enc s'))))
  end.

Definition byte_of (b7 b6 b5 b4 b3 b2 b1 b0 : bool) : ascii := Ascii b0 b1 b2 b3 b4 b5 b6 b7.
Fixpoint b64dec (s : string) : option string :=
  match s with
  | EmptyString => Some EmptyString
  | String w (String x (String y (String z s'))) =>
      match dec6 w, dec6 x with
      | Some (a7, a6, a5, a4, a3, a2), Some (a1, a0, b7, b6, b5, b4) =>
          if Ascii.eqb y "=" then
            match s' with
            | EmptyString => if Ascii.eqb z "=" then Some (String (byte_of a7 a6 a5 a4 a3 a2 a1 a0) EmptyString) else None
            | _ => None
            end
          else
            match dec6 y with
            | None => None
            | Some (b3, b2, b1, b0, c7, c6) =>
                if Ascii.eqb z "=" then
                  match s' with
                  | EmptyString => Some (String (byte_of a7 a6 a5 a4 a3 a2 a1 a0) (String (byte_of b7 b6 b5 b4 b3 b2 b1 b0) EmptyString))
                  | _ => None
                  end
                else
                  match dec6 z, b64dec s' with
                  | Some (c5, c4, c3, c2, c1, c0), Some r =>
                      Some (String (byte_of a7 a6 a5 a4 a3 a2 a1 a0) (String (byte_of b7 b6 b5 b4 b3 b2 b1 b0)
                        (String (byte_of c7 c6 c5 c4 c3 c2 c1 c0) r)))
                  | _, _ => None
                  end
            end
      | _, _ => None
      end
  | _ => None
  end.

Example b64_example : b64enc "mplang!" = "bXBsYW5nIQ=="%string. Proof. reflexivity. Qed.

Lemma dec_enc6 s : dec6 (enc6 s) = Some s.
Proof. destruct s as [[[[[a b] c] d] e] f]. destruct a, b, c, d, e, f; reflexivity. Qed.
Lemma enc6_not_pad s : Ascii.eqb (enc6 s) "=" = false.
Proof. destruct s as [[[[[a b] c] d] e] f]. destruct a, b, c, d, e, f; reflexivity. Qed.

Opaque dec6 enc6.
Lemma b64_roundtrip_n n : forall s, String.length s <= n -> b64dec (b64enc s) = Some s.
Proof.
  induction n as [|n IH]; intros [|[a0 a1 a2 a3 a4 a5 a6 a7] [|[b0 b1 b2 b3 b4 b5 b6 b7] [|[c0 c1 c2 c3 c4 c5 c6 c7] s]]] H; cbn [b64enc b64dec]; try reflexivity; try (exfalso; inversion H; fail).
  - rewrite !dec_enc6. reflexivity.
  - rewrite !dec_enc6, enc6_not_pad. reflexivity.
  - rewrite !dec_enc6, !enc6_not_pad. rewrite IH; [reflexivity|]. cbn in H. lia.
Qed.
Theorem b64_roundtrip s : b64dec (b64enc s) = Some s.
Proof. apply (b64_roundtrip_n (String.length s)). constructor. Qed.
Transparent dec6 enc6.
