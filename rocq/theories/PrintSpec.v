(** Reference notion for printed graphs: names as the tracer makes them. *)
From Coq Require Import String Ascii.
From Coq Require Import List.
From Verif Require Import PrintModel.
Import ListNotations.
Local Open Scope string_scope.

(** not empty, and without blanks, commas, brackets, equality signs and line breaks *)
Definition special : list ascii := [" "; ","; "("; ")"; "["; "]"; "{"; "}"; "="; ascii_of_nat 10]%char.
Definition clean_name (s : string) : Prop := s <> "" /\ forall c, In c (list_ascii_of_string s) -> ~ In c special.

Inductive clean : graph -> Prop :=
| clean_graph : forall inputs operations outputs, Forall clean_name inputs -> Forall clean_op operations -> Forall clean_name outputs ->
    clean (Graph inputs operations outputs)
with clean_op : op -> Prop :=
| clean_operation : forall outs opcode ins regions, Forall clean_name outs -> clean_name opcode -> Forall clean_name ins -> Forall clean regions ->
    clean_op (Op outs opcode ins regions).
