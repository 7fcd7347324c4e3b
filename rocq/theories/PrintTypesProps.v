(** C217 with types: the default text of a graph, attributes hidden. *)
From Coq Require Import String Ascii.
From Coq Require Import List Arith ZArith.
From Verif Require Import PrintModel PrintSpec PrintTypesModel PrintTypesSpec PrintTypesProofs.
From Verif Require Import SerdeModel.
Import ListNotations.
Local Open Scope string_scope.

(** Two graphs with the same text have the same inputs, operations, nested regions and outputs, and their
    inputs and results have the same types. *)
Theorem C217_typed_graphs_read_uniquely_partial :
  forall (size : nat) (g g' : tgraph), tclean g -> tclean g' -> format_typed_graph size g = format_typed_graph size g' -> g = g'.
Proof. exact format_inj. Qed.
Print Assumptions C217_typed_graphs_read_uniquely_partial.

(** For secret shares this fails: the encryption schema is not in the text. *)
Theorem C217_share_schemas_refuted :
  exists g g' : tgraph, g <> g' /\ forall size : nat, format_typed_graph size g = format_typed_graph size g'.
Proof.
  exists (TGraph [("%x", TSS (TInt 64 true) "SEMI2K")] [] ["%x"]), (TGraph [("%x", TSS (TInt 64 true) "ABY3")] [] ["%x"]).
  split; [discriminate|reflexivity].
Qed.
Print Assumptions C217_share_schemas_refuted.

(* ---------------------------------------------------------------- examples *)
Definition f32s : ty := TTensor (TFloat 32) [2; -1]%Z.
Definition held : ty := TMP (TTable [("id", TInt 64 true); ("name", TCustom "string")] 100) (Some [0%Z]).
Definition tinner : tgraph := TGraph [("%arg0", f32s)] [TOp [("%0", f32s); ("%1", TInt 32 false)] "tensor.run_jax" ["%arg0"] []] ["%0"].
Definition touter : tgraph := TGraph [("%arg0", held)] [TOp [("%0", TMP f32s None)] "simp.pcall_static" ["%arg0"] [tinner]; TOp [] "debug.barrier" [] []] ["%0"].

Example ex_clean : tclean touter.
Proof.
  assert (N : forall s, s <> "" -> forallb (fun c => negb (existsb (Ascii.eqb c) special)) (list_ascii_of_string s) = true -> clean_name s).
  { intros s A B. split; [exact A|]. intros c Hc Hs. rewrite forallb_forall in B. specialize (B c Hc). cbv beta in B.
    assert (E : existsb (Ascii.eqb c) special = true) by (apply existsb_exists; exists c; split; [exact Hs|apply Ascii.eqb_refl]). rewrite E in B. discriminate B. }
  assert (M : forall c s, existsb (Ascii.eqb c) (list_ascii_of_string s) = false -> ~ In c (list_ascii_of_string s)).
  { intros c s A B. assert (E : existsb (Ascii.eqb c) (list_ascii_of_string s) = true) by (apply existsb_exists; exists c; split; [exact B|apply Ascii.eqb_refl]). congruence. }
  assert (V : forall n t, clean_name n -> existsb (Ascii.eqb ":") (list_ascii_of_string n) = false -> ExecKeySpec.clear t -> existsb (Ascii.eqb (ascii_of_nat 10)) (list_ascii_of_string (ty_str t)) = false -> clean_value (n, t)).
  { intros n t A B C D. split; [exact A|]. split; [apply M, B|]. split; [exact C|apply M, D]. }
  repeat match goal with
  | |- Forall _ [] => constructor
  | |- Forall _ (_ :: _) => constructor
  | |- tclean _ => constructor
  | |- tclean_op _ => constructor
  | |- clean_name _ => apply N; [discriminate|reflexivity]
  | |- clean_value _ => apply V; [| |cbn; auto|]; try reflexivity
  end.
Qed.
Example ex_typed_text : format_typed_graph 2 touter = join newline
  ["(%arg0: MP[Table[{'id': i64, 'name': Custom[string]}, nrows=100], parties=(0,)]) {";
   "  %0 = simp.pcall_static(%arg0) : MP[Tensor[f32, (2, -1)], parties=None] {";
   "    (%arg0: Tensor[f32, (2, -1)]) {";
   "      [%0, %1] = tensor.run_jax(%arg0) : (Tensor[f32, (2, -1)], u32)";
   "      return %0";
   "    }";
   "  }";
   "  [] = debug.barrier()";
   "  return %0";
   "}"].
Proof. reflexivity. Qed.
