(** Words used by the statements of C105 and C106. *)
From Coq Require Import String Ascii.
From Coq Require Import List Bool.
From Verif Require Import CliModel.
Import ListNotations.
Local Open Scope string_scope.

(** The text contains the character. *)
Fixpoint has (c : ascii) (s : string) : bool :=
  match s with EmptyString => false | String a s' => Ascii.eqb a c || has c s' end.
(** The endpoint texts the user wrote. *)
Definition written (a : args) : list string :=
  match given (a_endpoints a), a_config a with
  | Some t, _ => map strip (split "," t)
  | None, Some c => map snd (nodes c)
  | None, None => []
  end.
(** Such a text starts with a scheme, or not even with the letters http. *)
Definition clear_scheme (ep : string) : Prop :=
  String.prefix "http" ep = true -> String.prefix "http://" ep = true \/ String.prefix "https://" ep = true.

(** The nodes' host names, for endpoints written host:port. *)
Definition plain_node (n : string * string) (host : string) (p : nat) : Prop :=
  snd n = host ++ ":" ++ dec p /\ has ":" host = false.

