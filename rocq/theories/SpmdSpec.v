(** What a SIMP program means, without messages and schedules: all parties move together, a value
    is one optional local value per rank, a shuffle is a simultaneous assignment. *)
From Coq Require Import List Bool Arith.
From Verif Require SimpModel.
Import ListNotations.
Local Open Scope nat_scope.

(** A routing (target, source) that a shuffle can carry out: a dict, within the world, and no two
    parties send to each other. *)
Definition deliverable (n : nat) (routing : list (nat * nat)) : Prop :=
  NoDup (map fst routing) /\ (forall t s, In (t, s) routing -> t < n /\ s < n) /\
  (forall a b, a <> b -> In (a, b) routing -> ~ In (b, a) routing).

Inductive outcome (A : Type) : Type :=
| Done (a : A)          (* every party completes *)
| NotUniform.           (* a predicate of uniform_cond differs between two parties *)
Arguments Done {A} a. Arguments NotUniform {A}.

Section Meaning.
Context {VT V : Type}.
Variable truthy : V -> bool.
Variable n : nat.
Notation region := (SimpModel.region VT V).
Notation op := (SimpModel.op VT V).
Notation mpval := (nat -> option V).

Definition pick {A : Type} (env : list A) (is_ : list nat) (vs : list A) : Prop :=
  Forall2 (fun i x => nth_error env i = Some x) is_ vs.
Definition true_at (v : mpval) (r : nat) : Prop := exists x, v r = Some x /\ truthy x = true.
Definition at_party (r : nat) (vs : list mpval) : list (option V) := map (fun v => v r) vs.
(** the value the first of the arguments holding one holds *)
Fixpoint first_held (vs : list mpval) (r : nat) : option V :=
  match vs with [] => None | v :: vs => match v r with Some x => Some x | None => first_held vs r end end.

Inductive means : region -> list mpval -> outcome (list mpval) -> Prop :=
| m_ret : forall outs env vs, pick env outs vs -> means (SimpModel.Ret _ _ outs) env (Done vs)
| m_let : forall o rest env vs out, op_means o env (Done vs) -> means rest (env ++ vs) out -> means (SimpModel.Let _ _ o rest) env out
| m_let_fails : forall o rest env, op_means o env NotUniform -> means (SimpModel.Let _ _ o rest) env NotUniform
with op_means : op -> list mpval -> outcome (list mpval) -> Prop :=
| m_pcall_static : forall ps args f env vs, pick env args vs ->
    op_means (SimpModel.PCallStatic _ _ ps args f) env
      (Done (map (fun (k r : nat) => if existsb (Nat.eqb r) ps then SimpModel.lf_sem _ _ f (at_party r vs) k else None)
                 (seq 0 (length (SimpModel.lf_out _ _ f)))))
| m_pcall_dynamic : forall args f env vs, pick env args vs ->
    op_means (SimpModel.PCallDynamic _ _ args f) env
      (Done (map (fun (k r : nat) => SimpModel.lf_sem _ _ f (at_party r vs) k) (seq 0 (length (SimpModel.lf_out _ _ f)))))
| m_shuffle : forall src routing env v w, nth_error env src = Some v -> deliverable n routing ->
    (forall t s, In (t, s) routing -> w t = v s) -> (forall t, ~ In t (map fst routing) -> w t = None) ->
    op_means (SimpModel.Shuffle _ _ src routing) env (Done [w])
| m_converge : forall args env vs, pick env args vs ->
    op_means (SimpModel.Converge _ _ args) env (Done [first_held vs])
| m_cond_true : forall pred args th el env p vs out, nth_error env pred = Some p -> pick env args vs ->
    (forall r, r < n -> true_at p r) -> means th vs out ->
    op_means (SimpModel.UniformCond _ _ pred args th el) env out
| m_cond_false : forall pred args th el env p vs out, nth_error env pred = Some p -> pick env args vs ->
    (forall r, r < n -> ~ true_at p r) -> means el vs out ->
    op_means (SimpModel.UniformCond _ _ pred args th el) env out
| m_cond_differs : forall pred args th el env p vs a b, nth_error env pred = Some p -> pick env args vs ->
    a < n -> b < n -> true_at p a -> ~ true_at p b ->
    op_means (SimpModel.UniformCond _ _ pred args th el) env NotUniform
| m_while : forall init caps imm cond body env st cs out, pick env init st -> pick env caps cs ->
    loop_means cond body cs st out ->
    op_means (SimpModel.WhileLoop _ _ init caps imm cond body) env out
(** the turns of a loop on whose condition the parties always agree *)
with loop_means : region -> region -> list mpval -> list mpval -> outcome (list mpval) -> Prop :=
| m_leave : forall cond body cs st c more, means cond (st ++ cs) (Done (c :: more)) ->
    (forall r, r < n -> ~ true_at c r) -> loop_means cond body cs st (Done st)
| m_no_condition : forall cond body cs st, means cond (st ++ cs) (Done []) -> loop_means cond body cs st (Done st)
| m_turn : forall cond body cs st c more st' out, means cond (st ++ cs) (Done (c :: more)) ->
    (forall r, r < n -> true_at c r) -> means body (st ++ cs) (Done st') ->
    length st' = length st ->                  (* tracing checks that the body returns a state (simp.py:320-346) *)
    loop_means cond body cs st' out -> loop_means cond body cs st out
| m_cond_fails : forall cond body cs st, means cond (st ++ cs) NotUniform -> loop_means cond body cs st NotUniform
| m_body_fails : forall cond body cs st c more, means cond (st ++ cs) (Done (c :: more)) ->
    (forall r, r < n -> true_at c r) -> means body (st ++ cs) NotUniform -> loop_means cond body cs st NotUniform.
End Meaning.

(** programs without loops all of whose routings can be carried out *)
Fixpoint loop_free {VT V : Type} (n : nat) (g : SimpModel.region VT V) : Prop :=
  match g with
  | SimpModel.Ret _ _ _ => True
  | SimpModel.Let _ _ o rest => loop_free_op n o /\ loop_free n rest
  end
with loop_free_op {VT V : Type} (n : nat) (o : SimpModel.op VT V) : Prop :=
  match o with
  | SimpModel.PCallStatic _ _ _ _ _ | SimpModel.PCallDynamic _ _ _ _ | SimpModel.Converge _ _ _ => True
  | SimpModel.Shuffle _ _ _ routing => deliverable n routing
  | SimpModel.UniformCond _ _ _ _ th el => loop_free n th /\ loop_free n el
  | SimpModel.WhileLoop _ _ _ _ _ _ _ => False
  end.
