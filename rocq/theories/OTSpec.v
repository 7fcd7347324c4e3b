(** Specification vocabulary for the oblivious-transfer properties: what is assumed of the
    external primitives, and what the receiver should get. *)
From Coq Require Import List NArith ZArith Bool.
From Verif Require Import MPCBase OTModel.
Import ListNotations.

(** The points form an abelian group whose every element is killed by [ord] (a positive
    number), [pis0] recognises the identity. *)
Record group_ok (E : ecgroup) : Prop := {
  g_assoc : forall p q r, padd E p (padd E q r) = padd E (padd E p q) r;
  g_comm  : forall p q, padd E p q = padd E q p;
  g_zero  : forall p, padd E (pzero E) p = p;
  g_opp   : forall p, padd E p (popp E p) = pzero E;
  g_is0   : forall p, pis0 E p = true <-> p = pzero E;
  g_ordp  : (0 < ord E)%Z;
  g_kill  : forall p, nmul E (Z.to_nat (ord E)) p = pzero E }.

(** The generator has order exactly [ord]. *)
Definition gen_exact (E : ecgroup) : Prop :=
  forall a, ec_mul E (pgen E) a = pzero E -> (a mod ord E = 0)%Z.

Definition byte (x : N) : Prop := (x < 256)%N.
Definition word (x : N) : Prop := (x < 2 ^ 64)%N.

Record env_ok (X : cenv) : Prop := {
  e_grp : group_ok (grp X);
  (* decoding inverts encoding on finite points, and 65 zero bytes are not a point *)
  e_codec : forall p, pis0 (grp X) p = false -> dec_pt X (enc_pt X p) = Some p;
  e_zero  : dec_pt X (repeat 0%N 65) = None;
  e_sha   : forall m, length (sha X m) = 32 /\ Forall byte (sha X m);
  e_prg   : forall s n, length (prg X s n) = n /\
                        Forall (fun w => word (fst w) /\ word (snd w)) (prg X s n) }.

(** A bit is a uint8 holding 0 or 1. *)
Definition bit (x : N) : Prop := x = 0%N \/ x = 1%N.
Definition bitZ (b : Z) : Prop := b = 0%Z \/ b = 1%Z.

(** What 1-of-2 oblivious transfer must deliver. *)
Definition chosen {M : Type} (b : bool) (m0 m1 : M) : M := if b then m1 else m0.

(** Shape of the random draws of iknp_core: 128 bits, 2 x 128 seeds of 32 bytes. *)
Definition iknp_rand_ok (R : iknp_rand) : Prop :=
  length (ik_s R) = 128 /\ Forall bit (ik_s R) /\
  length (ik_k0 R) = 128 /\ Forall (fun r => length r = 32) (ik_k0 R) /\
  length (ik_k1 R) = 128 /\ Forall (fun r => length r = 32) (ik_k1 R).

(** No draw hits one of the exceptional scalars (probability about 2^-256 each). *)
Definition iknp_rand_generic (X : cenv) (R : iknp_rand) : Prop :=
  let o := ord (grp X) in
  forall i, i < 128 ->
    (ik_kp R i mod o <> 0 /\ ik_r R i mod o <> 0 /\ (ik_rC R - ik_kp R i) mod o <> 0)%Z.

(** The choice seen by row j, column k: all columns alike for a one-column choice. *)
Definition choice_bits_ok (c : choice) (n : nat) : Prop :=
  match c with
  | Choice1 l => length l = n /\ Forall bit l
  | Choice2 rows => length rows = n /\ Forall (Forall bit) rows /\
      (Forall (fun r => length r = 1) rows \/ Forall (fun r => length r = 128) rows)
  end.
Definition choice_bit (c : choice) (j k : nat) : N :=
  match c with
  | Choice1 l => nth j l 0%N
  | Choice2 rows => match nth j rows [] with [b] => b | r => nth k r 0%N end
  end.
