(** Model of [mplang/edsl/printer.py:25-120] GraphPrinter with show_types=False and show_attrs=False:
    the text of a graph.  Values are their names; types and attributes are not shown, so not kept. *)
From Coq Require Import String Ascii.
From Coq Require Import List Arith.
Import ListNotations.
Local Open Scope string_scope.

Inductive graph : Type := Graph (inputs : list string) (operations : list op) (outputs : list string)
with op : Type := Op (outs : list string) (opcode : string) (ins : list string) (regions : list graph).

(** sep.join(l) *)
Fixpoint join (sep : string) (l : list string) : string :=
  match l with [] => "" | [x] => x | x :: l' => x ++ sep ++ join sep l' end.
(** 47-49 _write *)
Fixpoint spaces (n : nat) : string := match n with O => "" | S n' => String " " (spaces n') end.
Definition line (size level : nat) (text : string) : string := spaces (level * size) ++ text.
(** 67-77 _format_params *)
Definition format_params (inputs : list string) : string :=
  match inputs with [] => "()" | _ => "(" ++ join ", " inputs ++ ")" end.
(** 95-100 _format_outputs *)
Definition format_outputs (outputs : list string) : string :=
  match outputs with [] => "[]" | [x] => x | _ => "[" ++ join ", " outputs ++ "]" end.

Section Format.
Variable size : nat.
(** 51-65 _format_graph and 79-93 _format_operation *)
Fixpoint graph_lines (level : nat) (g : graph) : list string :=
  match g with
  | Graph inputs operations outputs =>
      line size level (format_params inputs ++ " {") ::
      (fix go (l : list op) : list string := match l with [] => [] | o :: l' => app (op_lines (S level) o) (go l') end) operations ++
      (match outputs with [] => [] | _ => [line size (S level) ("return " ++ join ", " outputs)] end) ++
      [line size level "}"]
  end%list
with op_lines (level : nat) (o : op) : list string :=
  match o with
  | Op outs opcode ins regions =>
      let op_line := format_outputs outs ++ " = " ++ opcode ++ "(" ++ join ", " ins ++ ")" in
      match regions with
      | [] => [line size level op_line]
      | _ => app (line size level (op_line ++ " {") ::
               (fix go (l : list graph) : list string := match l with [] => [] | g :: l' => app (graph_lines (S level) g) (go l') end) regions)
               [line size level "}"]
      end
  end.
End Format.
(** 38-42, 117-120 format_graph *)
Definition newline : string := String (ascii_of_nat 10) "".
Definition format_graph (size : nat) (g : graph) : string := join newline (graph_lines size 0 g).
