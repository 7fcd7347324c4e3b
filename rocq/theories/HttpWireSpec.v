(** What the transport owes its users (C194, C195), independently of HttpWireModel. *)
From Coq Require Import String Ascii List Bool Arith.
From Verif Require Import CtxModel.
Import ListNotations.
Local Open Scope string_scope.
Local Open Scope list_scope.
Local Open Scope nat_scope.

Definition hexadecimal (c : ascii) : Prop := In c (list_ascii_of_string "0123456789abcdefABCDEF").
(** Keys without a meaning in a URL: no control characters, no slash, question mark or hash
    sign, no percent sign followed by two hexadecimal digits; not empty and not a dot segment. *)
Definition no_url_meaning (key : string) : Prop :=
  (forall c, In c (list_ascii_of_string key) -> 32 <= nat_of_ascii c /\ nat_of_ascii c <> 127 /\ c <> "/"%char /\ c <> "?"%char /\ c <> "#"%char) /\
  (forall p a b s, list_ascii_of_string key = p ++ "%"%char :: a :: b :: s -> ~ (hexadecimal a /\ hexadecimal b)) /\
  ~ In key [""; "."; ".."].

(** Letters, digits, dash, underscore, dot (the job ids made by uuid are of this kind). *)
Definition simple_char (c : ascii) : Prop :=
  In c (list_ascii_of_string "abcdefghijklmnopqrstuvwxyzABCDEFGHIJKLMNOPQRSTUVWXYZ0123456789-_.").
Definition simple (s : string) : Prop := forall c, In c (list_ascii_of_string s) -> simple_char c.
(** a history of communication contexts whose suffixes are simple *)
Definition suffix_ok (o : cop) : Prop := match o with OSpawn _ (Some s) => simple s | _ => True end.
