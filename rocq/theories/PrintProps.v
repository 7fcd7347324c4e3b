(** C217: the text of a graph says everything about its structure. *)
From Coq Require Import String Ascii.
From Coq Require Import List Arith.
From Verif Require Import PrintModel PrintSpec PrintProofs.
Import ListNotations.
Local Open Scope string_scope.

(** Whatever the indentation, even none: two graphs with the same text have the same inputs, operations
    (results, opcodes, arguments, nested regions) and outputs, all in the same order, if the names have no
    blanks, commas, brackets, equality signs and line breaks. *)
Theorem C217_printed_graphs_read_uniquely :
  forall (size : nat) (g g' : graph), clean g -> clean g' -> format_graph size g = format_graph size g' -> g = g'.
Proof. exact format_inj. Qed.
Print Assumptions C217_printed_graphs_read_uniquely.

(** Names are not checked: with a comma in a name two different graphs have one text. *)
Theorem C217_names_with_commas_refuted :
  ~ (forall (size : nat) (g g' : graph), format_graph size g = format_graph size g' -> g = g').
Proof. intros H. discriminate (H 2 (Graph ["%a, %b"] [] []) (Graph ["%a"; "%b"] [] []) eq_refl). Qed.
Print Assumptions C217_names_with_commas_refuted.

(* ---------------------------------------------------------------- examples *)
Definition inner (opcode : string) : graph := Graph ["%arg0"] [Op ["%0"] opcode ["%arg0"; "%arg0"] []] ["%0"].
Definition outer : graph :=
  Graph ["%arg0"; "%arg1"] [Op [] "debug.barrier" [] []; Op ["%0"; "%1"] "simp.uniform_cond" ["%arg0"; "%arg1"] [inner "tensor.run_jax"; inner "spu.exec"]] ["%1"; "%0"].

Example ex_names : clean outer.
Proof.
  assert (N : forall s, s <> "" -> forallb (fun c => negb (existsb (Ascii.eqb c) special)) (list_ascii_of_string s) = true -> clean_name s).
  { intros s A B. split; [exact A|]. intros c Hc Hs. rewrite forallb_forall in B. specialize (B c Hc). cbv beta in B.
    assert (E : existsb (Ascii.eqb c) special = true) by (apply existsb_exists; exists c; split; [exact Hs|apply Ascii.eqb_refl]). rewrite E in B. discriminate B. }
  repeat constructor; apply N; (discriminate || reflexivity).
Qed.
Example ex_text : format_graph 2 outer = join newline
  ["(%arg0, %arg1) {";
   "  [] = debug.barrier()";
   "  [%0, %1] = simp.uniform_cond(%arg0, %arg1) {";
   "    (%arg0) {";
   "      %0 = tensor.run_jax(%arg0, %arg0)";
   "      return %0";
   "    }";
   "    (%arg0) {";
   "      %0 = spu.exec(%arg0, %arg0)";
   "      return %0";
   "    }";
   "  }";
   "  return %1, %0";
   "}"].
Proof. reflexivity. Qed.
(** an operation without results and one named return are told from a return line *)
Example ex_return : format_graph 0 (Graph [] [Op ["return"] "x" [] []] ["%0"]) = join newline ["() {"; "return = x()"; "return %0"; "}"].
Proof. reflexivity. Qed.
