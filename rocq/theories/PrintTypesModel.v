(** Model of [mplang/edsl/printer.py:25-120] GraphPrinter with show_types=True (the default) and
    show_attrs=False.  Results and inputs are (name, type); the text of a type is that of ExecKeyModel. *)
From Coq Require Import String Ascii.
From Coq Require Import List Arith.
From Verif Require Import PrintModel.
From Verif Require SerdeModel ExecKeyModel.
Import ListNotations.
Local Open Scope string_scope.

Notation ty := SerdeModel.ty.
Notation ty_str := ExecKeyModel.ty_str.
Inductive tgraph : Type := TGraph (inputs : list (string * ty)) (operations : list top) (outputs : list string)
with top : Type := TOp (outs : list (string * ty)) (opcode : string) (ins : list string) (regions : list tgraph).

(** 67-77 _format_params *)
Definition format_typed_params (inputs : list (string * ty)) : string :=
  match inputs with [] => "()" | _ => "(" ++ join ", " (map (fun x => fst x ++ ": " ++ ty_str (snd x)) inputs) ++ ")" end.
(** 108-114 _format_output_types *)
Definition format_output_types (outs : list (string * ty)) : string :=
  match outs with [] => "" | [x] => " : " ++ ty_str (snd x) | _ => " : (" ++ join ", " (map (fun x => ty_str (snd x)) outs) ++ ")" end.

Section Format.
Variable size : nat.
(** 51-65 _format_graph and 79-93 _format_operation *)
Fixpoint typed_lines (level : nat) (g : tgraph) : list string :=
  match g with
  | TGraph inputs operations outputs =>
      line size level (format_typed_params inputs ++ " {") ::
      (fix go (l : list top) : list string := match l with [] => [] | o :: l' => app (typed_op_lines (S level) o) (go l') end) operations ++
      (match outputs with [] => [] | _ => [line size (S level) ("return " ++ join ", " outputs)] end) ++
      [line size level "}"]
  end%list
with typed_op_lines (level : nat) (o : top) : list string :=
  match o with
  | TOp outs opcode ins regions =>
      let op_line := format_outputs (map fst outs) ++ " = " ++ opcode ++ "(" ++ join ", " ins ++ ")" ++ format_output_types outs in
      match regions with
      | [] => [line size level op_line]
      | _ => app (line size level (op_line ++ " {") ::
               (fix go (l : list tgraph) : list string := match l with [] => [] | g :: l' => app (typed_lines (S level) g) (go l') end) regions)
               [line size level "}"]
      end
  end.
End Format.
(** 38-42, 117-120 format_graph *)
Definition format_typed_graph (size : nat) (g : tgraph) : string := join newline (typed_lines size 0 g).
