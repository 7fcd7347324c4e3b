(** Model of the context stack (mplang/edsl/context.py, primitive.py:bind) and of the ways
    programs push and pop it (with-blocks, Tracer.run, mp.evaluate, mp.compile, set_root_context).

    Simplifications.  A context is an identity and three facts about it (interpreter or tracer,
    carries a cluster spec, carries simp state); what it does with a bound primitive is recorded
    as an event.  The Python list's last element is the head of the list here. *)
From Coq Require Import List Bool Arith.
Import ListNotations.

Inductive ckind := KInterp | KTracer.
Record ctx := Ctx { c_id : nat; c_kind : ckind; c_cluster : bool; c_simp : bool }.

(** What user code can do with contexts.
    [With c p]: context.py:148-155 (__enter__, __exit__) and tracer.py:316 (Tracer.run);
    [Evaluate c p]: __init__.py:128-191 with the body of fn (also fetch, 254/290);
    [Lookup k]: find_context for a cluster spec (device/api.py:51) or simp state (__init__.py:329);
    [Push]/[Pop]/[SetRoot]: the raw functions (197-208, 289-311; cli.py:365-377). *)
Inductive need := NeedCluster | NeedSimp.
Inductive cmd :=
| Skip | Seq (a b : cmd) | Bind (op : nat) | Throw | Try (body handler : cmd)
| With (c : ctx) (body : cmd) | Evaluate (c : option ctx) (body : cmd) | Lookup (k : need)
| Push (c : ctx) | Pop | SetRoot (c : ctx) (force : bool).

Inductive outcome := Done | Raised.
Inductive event := Bound (op : nat) (c : ctx) | Found (k : need) (c : option ctx).

(** module globals: _context_stack, _default_context, and how often the factory was called *)
Record state := St { stack : list ctx; default : option ctx; made : nat }.

Section Run.
(** the registered factory (__init__.py:448 Interpreter): a new context per call *)
Variable factory : nat -> ctx.

(** context.py:276-286 *)
Definition get_default (s : state) : ctx * state :=
  match default s with
  | Some c => (c, s)
  | None => (factory (made s), St (stack s) (Some (factory (made s))) (S (made s)))
  end.
(** primitive.py:231-243 *)
Definition bind_ctx (s : state) : ctx * state :=
  match stack s with c :: _ => (c, s) | [] => get_default s end.
Definition push (c : ctx) (s : state) : state := St (c :: stack s) (default s) (made s).
(** 202-208: popping an empty stack is no error *)
Definition pop (s : state) : state := St (tl (stack s)) (default s) (made s).
Definition matches (k : need) (c : ctx) : bool := match k with NeedCluster => c_cluster c | NeedSimp => c_simp c end.
(** 211-230 *)
Definition find_context (k : need) (s : state) : option ctx := find (matches k) (stack s).
(** __init__.py:105-120 _get_context *)
Definition get_context (c : option ctx) (s : state) : option ctx :=
  match c with
  | Some x => Some x
  | None => match stack s with x :: _ => match c_kind x with KInterp => Some x | KTracer => None end | [] => None end
  end.

Fixpoint run (p : cmd) (s : state) : outcome * state * list event :=
  match p with
  | Skip => (Done, s, [])
  | Throw => (Raised, s, [])
  | Seq a b =>
      match run a s with
      | (Done, s', ev) => let '(o, s'', ev') := run b s' in (o, s'', ev ++ ev')
      | r => r
      end
  | Try a h =>
      match run a s with
      | (Raised, s', ev) => let '(o, s'', ev') := run h s' in (o, s'', ev ++ ev')
      | r => r
      end
  | Bind op => let '(c, s') := bind_ctx s in (Done, s', [Bound op c])
  | With c b => let '(o, s', ev) := run b (push c s) in (o, pop s', ev)
  | Evaluate c b =>
      match get_context c s with
      | None => (Raised, s, [])
      | Some x => let '(o, s', ev) := run b (push x s) in (o, pop s', ev)
      end
  | Lookup k => match find_context k s with
                | Some c => (Done, s, [Found k (Some c)])
                | None => (Raised, s, [Found k None])
                end
  | Push c => (Done, push c s, [])
  | Pop => (Done, pop s, [])
  | SetRoot c force =>
      if force then (Done, St [c] (default s) (made s), [])
      else match stack s with [] => (Done, push c s, []) | _ => (Raised, s, []) end
  end.
End Run.

(** ** Threads.  _context_stack is one list for the whole process (184), so threads interleave
    their pushes, pops and binds on it. *)
Inductive act := APush (c : ctx) | APop | ABind (op : nat).
(** the accesses of a thread made of with-blocks, in program order *)
Fixpoint acts (p : cmd) : outcome * list act :=
  match p with
  | Skip => (Done, [])
  | Throw => (Raised, [])
  | Seq a b => match acts a with (Done, l) => let '(o, l') := acts b in (o, l ++ l') | r => r end
  | Try a h => match acts a with (Raised, l) => let '(o, l') := acts h in (o, l ++ l') | r => r end
  | Bind op => (Done, [ABind op])
  | With c b => let '(o, l) := acts b in (o, APush c :: l ++ [APop])
  | _ => (Done, [])
  end.
(** one access; a bind on the empty stack goes to the default context, recorded as None *)
Definition step_act (st : list ctx) (a : act) : list ctx * option (nat * option ctx) :=
  match a with
  | APush c => (c :: st, None)
  | APop => (tl st, None)
  | ABind op => (st, Some (op, hd_error st))
  end.
(** a schedule: (thread, access) in the order the accesses happen *)
Fixpoint exec (st : list ctx) (sched : list (nat * act)) : list ctx * list (nat * nat * option ctx) :=
  match sched with
  | [] => (st, [])
  | (t, a) :: r =>
      let '(st', e) := step_act st a in
      let '(st'', es) := exec st' r in
      (st'', match e with Some (op, c) => (t, op, c) :: es | None => es end)
  end.
