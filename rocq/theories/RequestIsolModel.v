(** * Requests of a cluster: the messages of one request among those of others.
    Models the route /exec of a worker ([backends/simp_worker/http.py:665-716]), the
    root communication context of a request ([backends/simp_worker/request.py:31-80],
    [comm_context.py:35-110]), the HTTP communicator ([http.py:292-575]), the
    requests of the driver ([backends/simp_driver/ops.py:95-121], which calls
    [driver.submit(rank, graph, inputs)] without a job id; [simp_driver/http.py:88-115]),
    and the in-memory driver's [collect] ([simp_driver/mem.py:186-209]).

    Simplified: what a worker computes between two messages is not modelled: the work of a
    request at one worker is a program that sends, receives, returns or raises.  The
    message key text "<context>:<seq>" is kept as a pair (the text determines it:
    the number is what follows the last colon).  Workers evaluate
    synchronously (create_worker_app gives them no executor, http.py:925-935), so all messages of
    a request use its root context.  Threads of the send pool deliver in any order. *)
From Coq Require Import String.
From Coq Require Import List Arith Bool Lia.
Import ListNotations.
Local Open Scope nat_scope.

Inductive prog (V : Type) :=
| Ret (v : V)                                   (* the request's result at this worker *)
| Raise                                         (* an exception, HTTP 500 *)
| Send (to : nat) (v : V) (k : prog V)          (* ctx.send: returns at once *)
| Recv (frm : nat) (k : V -> prog V).           (* ctx.recv: blocks *)
Arguments Ret {V}. Arguments Raise {V}. Arguments Send {V}. Arguments Recv {V}.

(** A request as the driver posts it: the optional job id, and what the graph does at
    each rank. *)
Record request (V : Type) := Rq { job_id : option string; work : nat -> prog V }.
Arguments job_id {V}. Arguments work {V}. Arguments Rq {V}.

(** http.py:667 [job_id or "anonymous"]; request.py:49 [context_id=job_id]. *)
Definition context {V} (r : request V) : string :=
  match job_id r with
  | Some j => if String.eqb j "" then "anonymous" else j
  | None => "anonymous"
  end.

Definition key : Type := (string * nat)%type.
Definition key_eqb (a b : key) : bool := String.eqb (fst a) (fst b) && (snd a =? snd b).

(** A message on its way or in a mailbox.  [p_req] records the request that sent it;
    no step looks at it. *)
Record packet (V : Type) := Pk { p_from : nat; p_to : nat; p_key : key; p_val : V; p_req : nat }.
Arguments p_from {V}. Arguments p_to {V}. Arguments p_key {V}. Arguments p_val {V}. Arguments p_req {V}.
Arguments Pk {V}.

(** A request being executed at a worker, with the counters of its context. *)
Record task (V : Type) := Tk { t_req : nat; t_rank : nat; t_seq : nat -> nat; t_prog : prog V }.
Arguments t_req {V}. Arguments t_rank {V}. Arguments t_seq {V}. Arguments t_prog {V}. Arguments Tk {V}.

(** All workers together: messages on the wire, unread messages (of all mailboxes; the
    receiver is [p_to]), running tasks. *)
Record cluster (V : Type) := Cl { wire : list (packet V); boxes : list (packet V); tasks : list (task V) }.
Arguments wire {V}. Arguments boxes {V}. Arguments tasks {V}. Arguments Cl {V}.
Definition idle {V} : cluster V := Cl [] [] [].

Inductive event (V : Type) :=
| Started (i r : nat)
| Sent (i frm to : nat) (v : V)
| Stored                                        (* a message arrived *)
| Dropped (i frm to : nat) (v : V)              (* overflow or network error: logged *)
| Got (i r frm : nat) (v : V) (sender : nat)    (* a receive of request i returned a
                                                   message that request [sender] sent *)
| TimedOut (i r : nat)
| Ended (i r : nat) (res : option V).           (* None = raised *)
Arguments Started {V}. Arguments Sent {V}. Arguments Stored {V}. Arguments Dropped {V}.
Arguments Got {V}. Arguments TimedOut {V}. Arguments Ended {V}.

Definition bump (f : nat -> nat) (p : nat) : nat -> nat := fun q => if q =? p then S (f q) else f q.

(** the slot a mailbox entry occupies: receiver, sender, key (http.py:507, 542) *)
Definition same_slot {V} (p q : packet V) : bool :=
  (p_to p =? p_to q) && (p_from p =? p_from q) && key_eqb (p_key p) (p_key q).
Definition occupied {V} (p : packet V) (b : list (packet V)) : bool := existsb (same_slot p) b.
Definition slot_is {V} (to frm : nat) (k : key) (q : packet V) : bool :=
  (to =? p_to q) && (frm =? p_from q) && key_eqb k (p_key q).

Section Steps.
Context {V : Type} (reqs : nat -> request V).

Inductive step : cluster V -> event V -> cluster V -> Prop :=
(** http.py:702-712: a new interpreter and a new context, counters at 0 *)
| s_start : forall w b ts i r,
    step (Cl w b ts) (Started i r) (Cl w b (Tk i r (fun _ => 0) (work (reqs i) r) :: ts))
(** comm_context.py:75-79, http.py:292-327: handed to the send pool *)
| s_send : forall w b ts1 ts2 i r s to v k,
    step (Cl w b (ts1 ++ Tk i r s (Send to v k) :: ts2)) (Sent i r to v)
         (Cl (Pk r to (context (reqs i), s to) v i :: w) b (ts1 ++ Tk i r (bump s to) k :: ts2))
(** http.py:540-549 *)
| s_store : forall w1 w2 b ts p, occupied p b = false ->
    step (Cl (w1 ++ p :: w2) b ts) Stored (Cl (w1 ++ w2) (p :: b) ts)
(** http.py:544-547 "Mailbox overflow": the sender gets HTTP 500, which
    [wait_pending_sends] (http.py:556-568) only logs; or http.py:482-489 network error *)
| s_drop : forall w1 w2 b ts p,
    step (Cl (w1 ++ p :: w2) b ts) (Dropped (p_req p) (p_from p) (p_to p) (p_val p)) (Cl (w1 ++ w2) b ts)
(** comm_context.py:95-99, http.py:515-530 *)
| s_recv : forall w b1 b2 ts1 ts2 i r s frm k p,
    slot_is r frm (context (reqs i), s frm) p = true ->
    step (Cl w (b1 ++ p :: b2) (ts1 ++ Tk i r s (Recv frm k) :: ts2))
         (Got i r frm (p_val p) (p_req p))
         (Cl w (b1 ++ b2) (ts1 ++ Tk i r (bump s frm) (k (p_val p)) :: ts2))
(** http.py:518-523 *)
| s_timeout : forall w b ts1 ts2 i r s frm k,
    step (Cl w b (ts1 ++ Tk i r s (Recv frm k) :: ts2)) (TimedOut i r)
         (Cl w b (ts1 ++ Tk i r s Raise :: ts2))
(** http.py:675-682; [wait_pending_sends] gives up after its timeout, so messages may
    still be on the wire *)
| s_return : forall w b ts1 ts2 i r s v,
    step (Cl w b (ts1 ++ Tk i r s (Ret v) :: ts2)) (Ended i r (Some v)) (Cl w b (ts1 ++ ts2))
| s_raise : forall w b ts1 ts2 i r s,
    step (Cl w b (ts1 ++ Tk i r s Raise :: ts2)) (Ended i r None) (Cl w b (ts1 ++ ts2)).

(** Histories from an idle cluster, oldest event first.  A request is posted to a worker
    once. *)
Inductive runs : list (event V) -> cluster V -> Prop :=
| runs_nil : runs [] idle
| runs_snoc : forall h c e c', runs h c -> step c e c' ->
    (forall i r, e = Started i r -> ~ In (Started i r) h) -> runs (h ++ [e]) c'.
End Steps.

(** ** The in-memory simulator (mem.py:186-209): [collect] of a request with a failing
    worker shuts the communicators and the thread pool down; a later [submit] raises. *)
Fixpoint all_some {V} (l : list (option V)) : option (list V) :=
  match l with
  | [] => Some []
  | x :: l' => match x, all_some l' with Some v, Some vs => Some (v :: vs) | _, _ => None end
  end.
Definition sim_request {V} (closed : bool) (workers : list (option V)) : option (list V) * bool :=
  if closed then (None, true)                   (* "cannot schedule new futures after shutdown" *)
  else match all_some workers with
       | Some vs => (Some vs, false)
       | None => (None, true)                   (* mem.py:205-208 *)
       end.
(** A history of requests, each given by what its workers return or raise on their own. *)
Fixpoint simulate {V} (closed : bool) (h : list (list (option V))) : list (option (list V)) :=
  match h with
  | [] => []
  | w :: h' => let '(res, c) := sim_request closed w in res :: simulate c h'
  end.
