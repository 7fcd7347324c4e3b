(** Vocabulary of the device properties. *)
From Coq Require Import Bool Arith String List.
From Verif Require Import SimpModel DeviceModel.
Import ListNotations.
Local Open Scope nat_scope.

(** device d occurs among the arguments *)
Definition occurs (args : list (option string)) (d : string) : Prop := In (Some d) args.
Definition secure (kind_of : string -> option kind) (d : string) : Prop := kind_of d = Some SPU \/ kind_of d = Some TEE.

Section Spec.
Context {VT V : Type}.
(** the object behind a step of a transfer *)
Definition obj_of (s : step VT V) : object VT V := match s with Made _ _ x | Sent _ _ x => x end.
(** nobody outside [P] holds a part of x *)
Definition only_at (x : object VT V) (P : list nat) : Prop := forall r : nat, ~ In r P -> snd x r = None.
(** x has value type [t], is typed as held by rank r alone, and r holds v *)
Definition plain_at (x : object VT V) (t : VT) (r : nat) (v : V) : Prop :=
  vt _ (fst x) = t /\ parties _ (fst x) = Some [r] /\ snd x r = Some v /\ only_at x [r].
End Spec.
