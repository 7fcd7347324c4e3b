(** Reference notions for key spaces. *)
From Coq Require Import List String Ascii.
From Verif Require Import CtxModel.
Import ListNotations.
Local Open Scope string_scope.

(** Two ids of which neither is, nor continues with a dot or a colon, the other. *)
Definition continues (a b : string) : Prop := exists s, a = b +++ "." +++ s \/ a = b +++ ":" +++ s.
Definition apart (a b : string) : Prop := a <> b /\ ~ continues a b /\ ~ continues b a.
(** Ids without dots and colons: "anonymous", names, UUIDs. *)
Definition plain (a : string) : Prop := ~ In "."%char (list_ascii_of_string a) /\ ~ In ":"%char (list_ascii_of_string a).
