(** Specification for graph evaluation: well-formed SSA graphs and their meaning
    (program order, every value kept forever, failing operations recorded).
    Values and operations are numbered; an operation is identified by its position. *)
From Coq Require Import List Arith.
Import ListNotations.

Record op : Type := Op {
  oin : list nat;      (* input value ids, repetitions allowed *)
  oout : list nat;     (* output value ids *)
  oasync : bool        (* opcode in interpreter.async_ops *)
}.
Record graph : Type := Graph { gin : list nat; gops : list op; gout : list nat }.

(** SSA: values are defined once (as an input or by one operation), used after
    their definition, and the graph outputs are defined. *)
Fixpoint uses_defined (defined : list nat) (ops : list op) : Prop :=
  match ops with
  | [] => True
  | o :: ops' => incl (oin o) defined /\ uses_defined (defined ++ oout o) ops'
  end.
Definition all_values (g : graph) : list nat := gin g ++ concat (map oout (gops g)).
Definition wf_graph (g : graph) : Prop :=
  NoDup (all_values g) /\ uses_defined (gin g) (gops g) /\ incl (gout g) (all_values g).

(** What a call of handler i can do, and what can go wrong. *)
Inductive exn (E : Type) : Type :=
| HandlerError (i : nat) (e : E)   (* the handler of operation i raised e *)
| BadArity (i : nat)               (* wrong number of results for a multi-output op *)
| NotImplemented (i : nat)         (* no handler registered for the opcode *)
| KeyError                         (* an environment lookup failed *)
| BadInputs.                       (* zip(..., strict=True) on the graph inputs *)
Arguments HandlerError {E}. Arguments BadArity {E}. Arguments NotImplemented {E}.
Arguments KeyError {E}. Arguments BadInputs {E}.

Section Meaning.
  Context {V E : Type}.
  (** A handler maps argument values to a returned object or an error. *)
  Variable sem : nat -> option (list V -> V + E).
  (** A returned object viewed as a sequence, if it is one. *)
  Variable unpack : V -> option (list V).

  Inductive outcome : Type := Good (outs : list V) | Bad (e : exn E).

  (** Result of running operation i with given argument values. *)
  Definition run_op (i : nat) (o : op) (args : list V) : outcome :=
    match sem i with
    | None => Bad (NotImplemented i)
    | Some h =>
        match h args with
        | inr e => Bad (HandlerError i e)
        | inl r =>
            match oout o with
            | [] => Good []
            | [_] => Good [r]
            | outs =>
                match unpack r with
                | Some rs => if Nat.eqb (length rs) (length outs) then Good rs else Bad (BadArity i)
                | None => Bad (BadArity i)
                end
            end
        end
    end.

  Definition venv : Type := nat -> option V.
  Definition vset (env : venv) (k : nat) (x : V) : venv :=
    fun j => if Nat.eqb j k then Some x else env j.
  Definition vset_all (env : venv) (kvs : list (nat * V)) : venv :=
    fold_left (fun e kv => vset e (fst kv) (snd kv)) kvs env.
  Fixpoint lookups (env : venv) (ks : list nat) : option (list V) :=
    match ks with
    | [] => Some []
    | k :: ks' =>
        match env k, lookups env ks' with
        | Some x, Some xs => Some (x :: xs)
        | _, _ => None
        end
    end.

  (** The meaning of the operations numbered from i on: operations whose arguments are
      available run in program order; a failing one is recorded and defines nothing. *)
  Fixpoint meaning (env : venv) (i : nat) (ops : list op) : venv * list (nat * exn E) :=
    match ops with
    | [] => (env, [])
    | o :: ops' =>
        match lookups env (oin o) with
        | None => meaning env (S i) ops'
        | Some args =>
            match run_op i o args with
            | Good rs => meaning (vset_all env (combine (oout o) rs)) (S i) ops'
            | Bad e => let '(env', errs) := meaning env (S i) ops' in (env', (i, e) :: errs)
            end
        end
    end.

  Definition empty_env : venv := fun _ => None.
  Definition input_env (g : graph) (inputs : list V) : venv := vset_all empty_env (combine (gin g) inputs).

  (** Final values and failing operations (in program order) of a graph. *)
  Definition final_env (g : graph) (inputs : list V) : venv := fst (meaning (input_env g inputs) 0 (gops g)).
  Definition failures (g : graph) (inputs : list V) : list (nat * exn E) :=
    snd (meaning (input_env g inputs) 0 (gops g)).
End Meaning.
Arguments Good {V E}. Arguments Bad {V E}.
