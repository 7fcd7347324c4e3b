(** Model of the eager execution of primitives (runtime/interpreter.py:676-738
    bind_primitive, 740-862 lift) and of the func dialect (dialects/func.py,
    backends/func_impl.py), on top of the tracing model TraceModel.v. *)
From Coq Require Import List Bool Arith.
From Verif Require Import TraceModel.
Import ListNotations.

Section Eager.
  Variable C V : Type.
  Variable c_eqb : C -> C -> bool.
  Variable sem : nat -> list V -> list V.
  Variable truth : V -> bool.

  (** An eager session holds its objects (InterpObject) at level 0; a call of a
      primitive is traced by a fresh Tracer at level 1 (which has no parameters),
      so functions given to it (branches, loop bodies) are at level 2. *)

  (** what the fresh tracer sees in place of a session value *)
  Definition seen (d : dval C V) : tval C := match d with DV _ => TV 0 | DC c => TC c end.

  (** the runtime_obj of the captured objects, interpreter.py:720-723 *)
  Fixpoint captured_values (w : list (dval C V)) (rs : list ref) : option (list V) :=
    match rs with
    | [] => Some []
    | r :: rs' =>
        match (if Nat.eqb (fst r) 0 then nth_error w (snd r) else None), captured_values w rs' with
        | Some (DV v), Some vs => Some (v :: vs)
        | _, _ => None
        end
    end.

  (** interpreter.py:676-738: [call] is the primitive call followed by the return
      of all its results.  The graph is evaluated only if it has outputs. *)
  Definition bind_eager (fuel : nat) (w : list (dval C V)) (call : body C)
      : option (list (dval C V)) :=
    match trace_fn c_eqb false [map seen w] [] call with
    | None => None
    | Some t =>
        match g_outputs (tf_graph t) with
        | [] => d_reconstruct (tf_morph t) []
        | _ =>
            match captured_values w (tf_caps t) with
            | None => None
            | Some captured =>
                match eval_graph sem truth fuel (tf_graph t) captured with
                | Some vs => d_reconstruct (tf_morph t) vs
                | None => None
                end
            end
        end
    end.

  (** number of leaves a function returns *)
  Fixpoint nret (b : body C) : nat :=
    match b with
    | BRet ls => length ls
    | BPrim _ _ _ k | BCond _ _ _ _ k | BWhile _ _ _ k | BCall _ _ k => nret k
    end.
  (** return all the objects of the fresh tracer *)
  Definition ret_all (n : nat) : body C := BRet (map (fun i => LRef (1, i)) (seq 0 n)).

  (** A user program run eagerly: every statement is bound by the interpreter,
      its results join the session.  Programs refer to session objects as (0, i);
      their functions use level 2 for their own objects. *)
  Fixpoint run_eager (fuel : nat) (w : list (dval C V)) (b : body C)
      : option (list (dval C V)) :=
    match b with
    | BRet ls => dleaves [] w ls
    | BPrim p args n k =>
        match bind_eager fuel w (BPrim p args n (ret_all n)) with
        | Some rs => run_eager fuel (w ++ rs) k | None => None end
    | BCond pred args t e k =>
        match bind_eager fuel w (BCond pred args t e (ret_all (nret t))) with
        | Some rs => run_eager fuel (w ++ rs) k | None => None end
    | BWhile init c l k =>
        match bind_eager fuel w (BWhile init c l (ret_all (length init))) with
        | Some rs => run_eager fuel (w ++ rs) k | None => None end
    | BCall args f k =>
        match bind_eager fuel w (BCall args f (ret_all (nret f))) with
        | Some rs => run_eager fuel (w ++ rs) k | None => None end
    end.

  (** ** The func dialect *)

  (** dialects/func.py:43-68: func.func traces the function; the operation it
      emits has the graph as region and NO inputs, whatever the function captures.
      backends/func_impl.py:79-86: at run time the operation yields the graph. *)
  Definition func_define (outer : list (list (tval C))) (args : list (tval C)) (b : body C)
      : option (traced C) := trace_fn c_eqb false outer args b.
  Definition func_op_inputs (t : traced C) : list nat := [].

  (** dialects/func.py:71-117: the handle must be a value produced by an operation
      of the tracer that is current at the call: Primitive.bind lifts it first
      (edsl/primitive.py:235-238), and an object of another context becomes an
      input, which has no defining operation (ValueError). *)
  Inductive context := InTracer (id : nat) | InInterpreter.
  Definition handle_resolves (defined_in current : context) : bool :=
    match defined_in, current with
    | InTracer i, InTracer j => Nat.eqb i j
    | _, _ => false
    end.

  (** backends/func_impl.py:89-107 and the reconstruction of func.py:101-117 *)
  Definition func_call (fuel : nat) (defined_in current : context) (t : traced C)
      (vals : list V) : option (list (dval C V)) :=
    if handle_resolves defined_in current then
      match eval_graph sem truth fuel (tf_graph t) vals with
      | Some vs => d_reconstruct (tf_morph t) vs
      | None => None
      end
    else None.
End Eager.
Arguments seen {C V}. Arguments captured_values {C V}. Arguments bind_eager {C V}.
Arguments nret {C}. Arguments ret_all {C}. Arguments run_eager {C V}.
Arguments func_define {C}. Arguments func_op_inputs {C}. Arguments func_call {C V}.

(** ** Interpreter.lift *)
Section Lift.
  Variable V : Type.
  (** an operation of the tracer's graph; [sem r k] is the implementation of the
      k-th operation during the r-th evaluation of the graph, so operations may be
      random or depend on the outside world *)
  Record lop := LOp { l_ins : list nat; l_outs : list nat }.
  Variable sem : nat -> nat -> list V -> option (list V).

  Definition lenv := nat -> option V.
  Fixpoint lget (e : lenv) (l : list nat) : option (list V) :=
    match l with
    | [] => Some []
    | x :: r => match e x, lget e r with Some v, Some vs => Some (v :: vs) | _, _ => None end
    end.
  Fixpoint lset (e : lenv) (l : list nat) (vs : list V) : option lenv :=
    match l, vs with
    | [], [] => Some e
    | x :: l', v :: vs' => lset (fun y => if Nat.eqb y x then Some v else e y) l' vs'
    | _, _ => None
    end.
  (** interpreter.py evaluate_graph, sequential: all operations, in order *)
  Fixpoint leval (run k : nat) (e : lenv) (ops : list lop) : option lenv :=
    match ops with
    | [] => Some e
    | o :: r =>
        match lget e (l_ins o) with
        | None => None
        | Some vs =>
            match sem run k vs with
            | None => None
            | Some rs => match lset e (l_outs o) rs with
                         | Some e' => leval run (S k) e' r | None => None end
            end
        end
    end.

  (** the tracer: inputs (all captured objects), operations, and the graph's
      outputs, which lift sets temporarily *)
  Record ltracer := LTracer { lt_inputs : list nat; lt_ops : list lop; lt_outputs : list nat }.
  (** interpreter state: cache of lifted values, number of evaluations so far *)
  Record linterp := LInterp { li_cache : list (nat * V); li_runs : nat }.
  Fixpoint cache_get (x : nat) (c : list (nat * V)) : option V :=
    match c with [] => None | (y, v) :: r => if Nat.eqb y x then Some v else cache_get x r end.
  Definition defining (ops : list lop) (x : nat) : list nat :=
    match find (fun o => existsb (Nat.eqb x) (l_outs o)) ops with
    | Some o => l_outs o
    | None => [x]
    end.

  (** interpreter.py:789-858; [captured] are the run-time values of the captured
      objects.  Result: the value, the interpreter and the tracer afterwards. *)
  Definition lift_value (t : ltracer) (captured : list V) (s : linterp) (x : nat)
      : option V * linterp * ltracer :=
    match cache_get x (li_cache s) with
    | Some v => (Some v, s, t)
    | None =>
        let targets := defining (lt_ops t) x in
        let t' := LTracer (lt_inputs t) (lt_ops t) targets in
        let res :=
          match lset (fun _ => None) (lt_inputs t') captured with
          | None => None
          | Some e =>
              match leval (li_runs s) 0 e (lt_ops t') with
              | None => None
              | Some e' => lget e' (lt_outputs t')
              end
          end in
        let restored := LTracer (lt_inputs t') (lt_ops t') (lt_outputs t) in
        match res with
        | None => (None, LInterp (li_cache s) (S (li_runs s)), restored)
        | Some vs =>
            let c := rev (combine targets vs) ++ li_cache s in
            (cache_get x c, LInterp c (S (li_runs s)), restored)
        end
    end.

  (** a history of lifts *)
  Fixpoint lift_many (t : ltracer) (captured : list V) (s : linterp) (xs : list nat)
      : list (option V) * linterp * ltracer :=
    match xs with
    | [] => ([], s, t)
    | x :: r =>
        let '(v, s1, t1) := lift_value t captured s x in
        let '(vs, s2, t2) := lift_many t1 captured s1 r in
        (v :: vs, s2, t2)
    end.
End Lift.
Arguments lget {V}. Arguments lset {V}. Arguments leval {V}. Arguments LInterp {V}.
Arguments li_cache {V}. Arguments li_runs {V}. Arguments cache_get {V}.
Arguments lift_value {V}. Arguments lift_many {V}.

(** interpreter.py:780-787: an InterpObject of another interpreter is refused *)
Definition lift_interp_object (me : nat) (owner : option nat) : bool :=
  match owner with None => true | Some i => Nat.eqb i me end.
