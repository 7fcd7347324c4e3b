(** Specification of contexts (C92): what a program means if contexts were lexically scoped. *)
From Coq Require Import List Bool Arith.
From Verif Require Import ScopeModel.
Import ListNotations.

(** programs that open contexts only by with-blocks, traces and evaluate *)
Fixpoint scoped (p : cmd) : Prop :=
  match p with
  | Seq a b | Try a b => scoped a /\ scoped b
  | With _ b | Evaluate _ b => scoped b
  | Push _ | Pop | SetRoot _ _ => False
  | _ => True
  end.
(** the same without evaluate and lookups *)
Fixpoint with_only (p : cmd) : Prop :=
  match p with
  | Seq a b | Try a b => with_only a /\ with_only b
  | With _ b => with_only b
  | Skip | Bind _ | Throw => True
  | _ => False
  end.

(** The meaning of a program inside the enclosing contexts [env] (innermost first): no stack,
    no state; [dflt] is the one default context. *)
Fixpoint meaning (dflt : ctx) (env : list ctx) (p : cmd) : outcome * list event :=
  match p with
  | Seq a b => match meaning dflt env a with (Done, e) => (fst (meaning dflt env b), e ++ snd (meaning dflt env b)) | r => r end
  | Try a h => match meaning dflt env a with (Raised, e) => (fst (meaning dflt env h), e ++ snd (meaning dflt env h)) | r => r end
  | Bind op => (Done, [Bound op (hd dflt env)])
  | Throw => (Raised, [])
  | With c b => meaning dflt (c :: env) b
  | Evaluate (Some c) b => meaning dflt (c :: env) b
  | Evaluate None b => match env with
                       | c :: _ => match c_kind c with KInterp => meaning dflt (c :: env) b | KTracer => (Raised, []) end
                       | [] => (Raised, [])
                       end
  | Lookup k => match filter (matches k) env with
                | c :: _ => (Done, [Found k (Some c)])
                | [] => (Raised, [Found k None])
                end
  | _ => (Done, [])
  end.

(** [sched] interleaves the threads [ts] *)
Definition accesses_of (t : nat) (sched : list (nat * act)) : list act :=
  map snd (filter (fun p => Nat.eqb (fst p) t) sched).
Definition interleaves (ts : list (list act)) (sched : list (nat * act)) : Prop :=
  (forall t a, In (t, a) sched -> t < length ts) /\
  (forall t, t < length ts -> accesses_of t sched = nth t ts []).

(** what thread t's binds would be bound to if it were alone in context [env] *)
Definition alone (dflt : ctx) (env : list ctx) (p : cmd) : list event := snd (meaning dflt env p).

(** every context opened by the program satisfies P *)
Fixpoint opens (P : ctx -> Prop) (p : cmd) : Prop :=
  match p with
  | Seq a b | Try a b => opens P a /\ opens P b
  | With c b => P c /\ opens P b
  | _ => True
  end.
(** the binds of thread t in a run of the shared stack *)
Definition binds_of (t : nat) (evs : list (nat * nat * option ctx)) : list (nat * option ctx) :=
  map (fun e => (snd (fst e), snd e)) (filter (fun e => Nat.eqb (fst (fst e)) t) evs).
Definition as_bind (e : event) : nat * option ctx := match e with Bound op c => (op, Some c) | Found _ c => (0, c) end.
