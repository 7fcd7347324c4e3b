(** Reference notion for graphs printed with types. *)
From Coq Require Import String Ascii.
From Coq Require Import List.
From Verif Require Import PrintModel PrintSpec PrintTypesModel.
From Verif Require ExecKeySpec.
Import ListNotations.
Local Open Scope string_scope.

(** a named value: the name as in PrintSpec and without colons; the type without secret shares (their
    schema is not printed), quotes in column names and closing brackets in labels, and on one line *)
Definition clean_value (v : string * ty) : Prop :=
  clean_name (fst v) /\ ~ In ":"%char (list_ascii_of_string (fst v)) /\
  ExecKeySpec.clear (snd v) /\ ~ In (ascii_of_nat 10) (list_ascii_of_string (ty_str (snd v))).

Inductive tclean : tgraph -> Prop :=
| tclean_graph : forall inputs operations outputs, Forall clean_value inputs -> Forall tclean_op operations -> Forall clean_name outputs ->
    tclean (TGraph inputs operations outputs)
with tclean_op : top -> Prop :=
| tclean_operation : forall outs opcode ins regions, Forall clean_value outs -> clean_name opcode -> Forall clean_name ins -> Forall tclean regions ->
    tclean_op (TOp outs opcode ins regions).
