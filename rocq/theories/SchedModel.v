(** Model of graph evaluation in runtime/interpreter.py: the synchronous loop
    (930-1014) and the asynchronous DAG scheduler (1016-1215).
    Values are numbered; handlers are functions of their arguments (a handler with hidden
    state is outside this model); comm contexts and tracing are not modelled here. *)
From Coq Require Import List Arith ZArith Bool.
From Verif Require Import SchedSpec.
Import ListNotations.

Section Model.
  Context {V E : Type}.
  Variable sem : nat -> option (list V -> V + E).
  Variable unpack : V -> option (list V).

  (** interpreter.py:907-928  _build_value_gc_info: a Counter ([None] = key absent) *)
  Definition counter : Type := nat -> option Z.
  Definition bump (c : counter) (k : nat) : counter :=
    fun j => if Nat.eqb j k then Some (match c k with Some z => z + 1 | None => 1 end)%Z else c j.
  Definition build_gc (g : graph) : counter :=
    fold_left bump (gout g) (fold_left bump (concat (map oin (gops g))) (fun _ => None)).

  Definition vdel (env : @venv V) (k : nat) : venv := fun j => if Nat.eqb j k then None else env j.
  Definition cset (c : counter) (k : nat) (z : option Z) : counter :=
    fun j => if Nat.eqb j k then z else c j.

  (** interpreter.py:996-1001  sync GC of one consumed value *)
  Definition gc_sync (s : @venv V * counter) (k : nat) : venv * counter :=
    let '(env, rc) := s in
    match rc k with
    | None => (env, rc)
    | Some z => if Z.eqb (z - 1) 0 then (vdel env k, cset rc k None) else (env, cset rc k (Some (z - 1)%Z))
    end.

  (** interpreter.py:947-1001  the loop over operations *)
  Fixpoint sync_loop (env : @venv V) (rc : counter) (i : nat) (ops : list op) : (venv * counter) + exn E :=
    match ops with
    | [] => inl (env, rc)
    | o :: ops' =>
        match lookups env (oin o) with
        | None => inr KeyError
        | Some args =>
            match run_op sem unpack i o args with
            | Bad e => inr e
            | Good rs =>
                let '(env', rc') := fold_left gc_sync (oin o) (vset_all env (combine (oout o) rs), rc) in
                sync_loop env' rc' (S i) ops'
            end
        end
    end.

  (** interpreter.py:930-1014  _evaluate_graph_sync *)
  Definition evaluate_sync (g : graph) (inputs : list V) : list V + exn E :=
    if negb (Nat.eqb (length (gin g)) (length inputs)) then inr BadInputs
    else
      match sync_loop (input_env g inputs) (build_gc g) 0 (gops g) with
      | inr e => inr e
      | inl (env, _) => match lookups env (gout g) with Some outs => inl outs | None => inr KeyError end
      end.

  (** ** Asynchronous scheduler *)
  Inductive item : Type := IOp (i : nat) | IErr (e : exn E) | ISentinel.
  Inductive mainstate : Type := Running | Returned (outs : list V) | Raised (e : exn E).

  Record astate : Type := AState {
    aenv : @venv V;
    apend : nat -> Z;                 (* pending_counts *)
    arc : counter;                    (* remaining_consumers *)
    aq : list item;                   (* ready_queue *)
    aremaining : Z;                   (* remaining_ops *)
    aerr : bool;                      (* error_occurred *)
    ainflight : list (nat * list V);  (* submitted to the executor, not yet finished *)
    areport : list (exn E);           (* failures whose on_op_done(error=...) has not run yet *)
    amain : mainstate;                (* the thread inside evaluate_graph *)
    acalls : list (nat * list V)      (* log: handler invocations, newest first *)
  }.

  (** interpreter.py:1049-1055  pending count of one op, and consumers of a value *)
  Definition unresolved (env : @venv V) (o : op) : list nat :=
    filter (fun k => match env k with None => true | Some _ => false end) (oin o).
  Definition init_pending (g : graph) (env : venv) (i : nat) : Z :=
    match nth_error (gops g) i with
    | Some o => Z.of_nat (length (unresolved env o))
    | None => 0
    end.
  (** value_to_consumers[k]: op indices in program order, one entry per occurrence *)
  Fixpoint consumers_from (env : @venv V) (i : nat) (ops : list op) (k : nat) : list nat :=
    match ops with
    | [] => []
    | o :: ops' => map (fun _ => i) (filter (Nat.eqb k) (unresolved env o)) ++ consumers_from env (S i) ops' k
    end.

  (** interpreter.py:1035-1063, 1182-1195 *)
  Definition async_init (g : graph) (inputs : list V) : astate :=
    let env := input_env g inputs in
    let pend := init_pending g env in
    let n := length (gops g) in
    AState env pend (build_gc g)
           (map IOp (filter (fun i => Z.eqb (pend i) 0) (seq 0 n)) ++ (if Nat.eqb n 0 then [ISentinel] else []))
           (Z.of_nat n) false [] [] Running [].

  (** interpreter.py:1096-1102  decrement one consumer *)
  Definition trigger (s : (nat -> Z) * list item) (c : nat) : (nat -> Z) * list item :=
    let '(pend, q) := s in
    let z := (pend c - 1)%Z in
    (fun j => if Nat.eqb j c then z else pend j, if Z.eqb z 0 then q ++ [IOp c] else q).

  (** interpreter.py:1105-1109  async GC of one consumed value *)
  Definition gc_async (s : @venv V * counter) (k : nat) : venv * counter :=
    let '(env, rc) := s in
    match rc k with
    | None => (env, rc)
    | Some z => (if Z.eqb (z - 1) 0 then vdel env k else env, cset rc k (Some (z - 1)%Z))
    end.

  (** interpreter.py:1076-1113  on_op_done without error, under the lock.
      [cons] is value_to_consumers (fixed after setup). *)
  Definition on_op_done (cons : nat -> list nat) (o : op) (rs : list V) (s : astate) : astate :=
    if aerr s then s
    else
      let env := vset_all (aenv s) (combine (oout o) rs) in
      let '(pend, q) := fold_left trigger (concat (map cons (oout o))) (apend s, aq s) in
      let '(env', rc) := fold_left gc_async (oin o) (env, arc s) in
      let r := (aremaining s - 1)%Z in
      AState env' pend rc (if Z.eqb r 0 then q ++ [ISentinel] else q) r false
             (ainflight s) (areport s) (amain s) (acalls s).

  (** The environment left behind when zip(op.outputs, result, strict=True) raises
      half-way (interpreter.py:1090-1091). *)
  Definition partial_env (env : @venv V) (i : nat) (o : op) (args : list V) : venv :=
    match sem i with
    | None => env
    | Some h =>
        match h args with
        | inr _ => env
        | inl r =>
            match oout o, unpack r with
            | [], _ => env
            | [_], _ => env
            | outs, Some rs => vset_all env (combine outs rs)
            | _, None => env
            end
        end
    end.

  (** The handler of op i returns or raises, then interpreter.py:1159-1164 / 1176-1180.
      A failure first waits in [areport] until its error call of on_op_done runs. *)
  Definition finish (g : graph) (cons : nat -> list nat) (i : nat) (args : list V) (s : astate) : astate :=
    match nth_error (gops g) i with
    | None => s
    | Some o =>
        match run_op sem unpack i o args with
        | Good rs => on_op_done cons o rs s
        | Bad e =>
            AState (if aerr s then aenv s else partial_env (aenv s) i o args)
                   (apend s) (arc s) (aq s) (aremaining s) (aerr s)
                   (ainflight s) (e :: areport s) (amain s) (acalls s)
        end
    end.

  Definition set_main (s : astate) (m : mainstate) (q : list item) : astate :=
    AState (aenv s) (apend s) (arc s) q (aremaining s) (aerr s) (ainflight s) (areport s) m (acalls s).

  (** interpreter.py:1069-1074  on_op_done(op, None, error) *)
  Definition report_error (e : exn E) (s : astate) : astate :=
    if aerr s then s
    else AState (aenv s) (apend s) (arc s) (aq s ++ [IErr e]) (aremaining s) true
                (ainflight s) (areport s) (amain s) (acalls s).

  (** One atomic step of the system.  Lines 1198-1206 (main loop) with execute_op
      (1115-1180); a synchronous handler runs inside the main step; asynchronous handlers
      finish in any order, at any time.  [cons] is computed once at setup (1044-1055). *)
  Inductive step (g : graph) (cons : nat -> list nat) : astate -> astate -> Prop :=
  | step_return : forall s q,
      amain s = Running -> aq s = ISentinel :: q ->
      step g cons s (set_main s (match lookups (aenv s) (gout g) with
                                 | Some outs => Returned outs | None => Raised KeyError end) q)
  | step_raise : forall s e q,
      amain s = Running -> aq s = IErr e :: q -> step g cons s (set_main s (Raised e) q)
  | step_missing : forall s i o q,
      amain s = Running -> aq s = IOp i :: q -> nth_error (gops g) i = Some o ->
      lookups (aenv s) (oin o) = None -> step g cons s (set_main s (Raised KeyError) q)
  | step_noimpl : forall s i o q args,
      amain s = Running -> aq s = IOp i :: q -> nth_error (gops g) i = Some o ->
      lookups (aenv s) (oin o) = Some args -> sem i = None ->
      step g cons s (set_main s (Raised (NotImplemented i)) q)
  | step_submit : forall s i o q args h,
      amain s = Running -> aq s = IOp i :: q -> nth_error (gops g) i = Some o ->
      lookups (aenv s) (oin o) = Some args -> sem i = Some h -> oasync o = true ->
      step g cons s (AState (aenv s) (apend s) (arc s) q (aremaining s) (aerr s)
                       ((i, args) :: ainflight s) (areport s) Running ((i, args) :: acalls s))
  | step_sync : forall s i o q args h,
      amain s = Running -> aq s = IOp i :: q -> nth_error (gops g) i = Some o ->
      lookups (aenv s) (oin o) = Some args -> sem i = Some h -> oasync o = false ->
      step g cons s (finish g cons i args
                      (AState (aenv s) (apend s) (arc s) q (aremaining s) (aerr s)
                              (ainflight s) (areport s) Running ((i, args) :: acalls s)))
  | step_complete : forall s i args l1 l2,
      ainflight s = l1 ++ (i, args) :: l2 ->
      step g cons s (finish g cons i args
                      (AState (aenv s) (apend s) (arc s) (aq s) (aremaining s) (aerr s)
                              (l1 ++ l2) (areport s) (amain s) (acalls s)))
  | step_report : forall s e l1 l2,
      areport s = l1 ++ e :: l2 ->
      step g cons s (report_error e
                      (AState (aenv s) (apend s) (arc s) (aq s) (aremaining s) (aerr s)
                              (ainflight s) (l1 ++ l2) (amain s) (acalls s))).

  Definition async_consumers (g : graph) (inputs : list V) : nat -> list nat :=
    consumers_from (input_env g inputs) 0 (gops g).

  (** Executions: any sequence of steps from the initial state. *)
  Inductive steps (g : graph) (cons : nat -> list nat) : astate -> astate -> Prop :=
  | steps_refl : forall s, steps g cons s s
  | steps_next : forall s1 s2 s3, steps g cons s1 s2 -> step g cons s2 s3 -> steps g cons s1 s3.

  Definition reachable (g : graph) (inputs : list V) (s : astate) : Prop :=
    steps g (async_consumers g inputs) (async_init g inputs) s.
End Model.
