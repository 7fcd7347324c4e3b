(** C207, C208: static types of programs of tables and tensors. *)
From Coq Require Import String List ZArith Bool Arith Lia.
From Verif Require Import TabConvModel TabConvSpec TabProgModel TabProgSpec TabProgProofs.
Import ListNotations.
Local Open Scope nat_scope.

(* ================================================================ C207 *)

(** Whenever an accepted program whose outside types are declared right runs, every value has the
    static type it got when the program was traced. *)
Theorem C207_static_types_describe : forall (to_float : Z -> Z) (common : list (option ty) -> option ty) (p : list top) (ts : list vty) (vs : list value),
  each declared_right [] p -> types [] p = Some ts -> run to_float common [] [] p = Some vs -> Forall2 has ts vs.
Proof. intros tf cm p ts vs D T R. eapply run_sound; [constructor|exact D|exact T|exact R]. Qed.
Print Assumptions C207_static_types_describe.

(** And it does run if nothing outside fails or gives nulls, no row count is announced, and no
    tensor of a type that Arrow lacks becomes a table. *)
Theorem C207_accepted_programs_run : forall (to_float : Z -> Z) (common : list (option ty) -> option ty) (p : list top) (ts : list vty),
  each declared_right [] p -> each goes_through [] p -> types [] p = Some ts ->
  exists vs, run to_float common [] [] p = Some vs /\ Forall2 has ts vs.
Proof. intros tf cm p ts D G T. eapply run_goes; try constructor; assumption. Qed.
Print Assumptions C207_accepted_programs_run.

Local Open Scope string_scope.
(** a constant, a query that keeps one column, the conversion to a tensor, and back *)
Definition keep_b (l : list table) : option table := match l with [[a; b]] => Some [b] | _ => None end.
Definition prog_ex : list top :=
  [Const [("a", [PInt 1; PInt 2]); ("b", [PFloat 3; PFloat 4])];
   Outside (Sql (TT [("b", TF64)] None) keep_b) [0];
   ToTensor 1 None; ToTable 2 ["c"]].
Example C207_ex :
  each declared_right [] prog_ex /\ each goes_through [] prog_ex /\
  types [] prog_ex = Some [TableT (TT [("a", TI64); ("b", TF64)] None); TableT (TT [("b", TF64)] None); TensorT (MT TF64 None 1); TableT (TT [("c", TF64)] None)] /\
  exists vs, run (fun z => z) (fun _ => None) [] [] prog_ex = Some (vs ++ [TableV [Col "c" TF64 [Some (Val 3); Some (Val 4)]]])%list.
Proof.
  assert (K : forall tys l, Some [TT [("a", TI64); ("b", TF64)] None] = Some tys -> Forall2 table_has tys l -> exists a b, l = [[a; b]] /\ col_name b = "b" /\ col_ty b = TF64 /\ l = [[a; b]]).
  { intros tys l E F. injection E as <-. inversion F as [|? t ? ? H F']; subst. inversion F'; subst. destruct H as (H & _). destruct t as [|a [|b [|]]]; try discriminate H. injection H as _ _ H1 H2. eauto 8. }
  split; [|split; [|split]].
  - cbn. split.
    { apply Forall_cons; [|apply Forall_cons; [|constructor]]; (split; [discriminate|]); [right; right; left|right; left]; cbn; auto. }
    intros t E. injection E as <-. split.
    { intros tys l t E F R. destruct (K _ _ E F) as (a & b & -> & N & Ty & _). cbn in R. injection R as <-. split; [|split; [|split]].
      - cbn. rewrite N, Ty. reflexivity.
      - repeat constructor.
      - constructor; [rewrite Ty; split; discriminate|constructor].
      - discriminate. }
    intros t E. injection E as <-. split; [exact I|]. intros t E. injection E as <-. split; [exact I|]. auto.
  - cbn. split.
    { apply Forall_cons; [|apply Forall_cons; [|constructor]]; cbn; intros [H|[H|[]]]; discriminate H. }
    intros t E. injection E as <-. split.
    { split; [reflexivity|]. intros tys l E F N. destruct (K _ _ E F) as (a & b & -> & _). exists [b]. split; [reflexivity|]. inversion N as [|? ? N1 _]; subst. inversion N1 as [|? ? _ N2]; subst. exact N2. }
    intros t E. injection E as <-. split; [left; reflexivity|]. intros t E. injection E as <-. split.
    { intros a E. injection E as <-. repeat split; discriminate. }
    auto.
  - reflexivity.
  - eexists [_; _; _]. vm_compute. reflexivity.
Qed.

(* ================================================================ C208 *)

(** The out_type of run_sql is not compared with what the query returns: for every declared type,
    whatever the query returns is passed on under that type. *)
Theorem C208_query_type_refuted : forall (to_float : Z -> Z) (common : list (option ty) -> option ty) (data : list (string * list pyval)) (out : table_type) (t t0 : table),
  same_lengths data = true -> constant_table data = Some t0 ->
  types [] [Const data; Outside (Sql out (fun _ => Some t)) [0]] = Some [TableT (constant_type data); TableT out] /\
  run to_float common [] [] [Const data; Outside (Sql out (fun _ => Some t)) [0]] = Some [TableV t0; TableV t].
Proof. intros tf cm data out t t0 S E. unfold types, run, op_type, op_run. rewrite S. cbn. rewrite E. split; reflexivity. Qed.
Print Assumptions C208_query_type_refuted.
Example C208_query_ex : same_lengths [("a", [PInt 1])] = true /\ constant_table [("a", [PInt 1])] <> None /\
  ~ has (TableT (TT [("x", TF64); ("y", TString)] None)) (TableV [Col "a" TI64 [Some (Val 1)]]).
Proof. split; [reflexivity|]. split; [discriminate|]. intros (H & _). discriminate H. Qed.

(** The row count that a declared schema may carry is not compared with the file either; only the
    conversion to a tensor notices. *)
Theorem C208_row_count_refuted : forall (to_float : Z -> Z) (common : list (option ty) -> option ty) (cols : list (string * ty)) (n : nat) (t : table), num_rows t <> n ->
  types [] [ReadFile (TT cols (Some n)) (Some t)] = Some [TableT (TT cols (Some n))] /\
  run to_float common [] [] [ReadFile (TT cols (Some n)) (Some t)] = Some [TableV t] /\
  ~ has (TableT (TT cols (Some n))) (TableV t) /\
  run to_float common [] [] [ReadFile (TT cols (Some n)) (Some t); ToTensor 0 None] = None.
Proof.
  intros tf cm cols n t N. split; [reflexivity|]. split; [reflexivity|]. split.
  - intros (_ & _ & _ & H). exact (N (H n eq_refl)).
  - unfold run, op_type, op_run. cbn [option_map]. unfold pick. cbn [nth_error app as_table_t as_table].
    destruct (table2tensor_default (TT cols (Some n))) as [out|] eqn:E; [|reflexivity]. unfold table2tensor_default in E. change (tt_rows (TT cols (Some n))) with (Some n) in E.
    destruct (t2t_type _ _ _ E) as (-> & _). unfold table2tensor. cbn [mt_rows]. apply Nat.eqb_neq in N. rewrite N. reflexivity.
Qed.
Print Assumptions C208_row_count_refuted.
Example C208_row_count_ex : num_rows [Col "a" TI64 [Some (Val 1)]] <> 5.
Proof. discriminate. Qed.

(** table.write is typed as the table of all the columns it writes and returns None: a program that
    goes on with its result is accepted and fails, or returns None as a table. *)
Theorem C208_write_type_refuted : forall (to_float : Z -> Z) (common : list (option ty) -> option ty) (a : table_type) (t : table), NoDup (map fst (tt_schema a)) ->
  exists b, types [] [ReadFile a (Some t); WriteFile [0]] = Some [TableT a; TableT b] /\ tt_schema b = tt_schema a /\
  run to_float common [] [] [ReadFile a (Some t); WriteFile [0]] = Some [TableV t; NoneV] /\
  forall q out, types [] [ReadFile a (Some t); WriteFile [0]; Outside (Sql out q) [1]] <> None /\
    run to_float common [] [] [ReadFile a (Some t); WriteFile [0]; Outside (Sql out q) [1]] = None.
Proof.
  intros tf cm a t N. exists (TT (tt_schema a) None). cbn. rewrite app_nil_r.
  match goal with |- context[if ?b then None else _] => set (D := b) end.
  assert (E : D = false).
  { unfold D. clear D. induction N as [|x l H N IH]; [reflexivity|]. rewrite IH, orb_false_r. apply not_true_iff_false. intros X. apply existsb_exists in X. destruct X as (y & Y & E). apply String.eqb_eq in E. subst. contradiction. }
  rewrite E. cbn. repeat split; discriminate.
Qed.
Print Assumptions C208_write_type_refuted.
Example C208_write_ex : NoDup (map fst (tt_schema (TT [("a", TI64); ("b", TF64)] None))).
Proof. cbn. constructor; [intros [H|[]]; discriminate H|]. constructor; [intros []|constructor]. Qed.
