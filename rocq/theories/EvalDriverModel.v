(** Model of how a driver evaluates an operation on all parties: the thread pool that runs one task per
    party (backends/simp_driver/mem.py:186-238, simp_driver/http.py:88-115, simp_worker/mem.py:167-172)
    and the collection of the results (mem.py:197-209, http.py:94-96), on top of the message passing
    of NetModel.  A task is the program of one party in one evaluation. *)
From stdpp Require Import gmap relations.
From Verif Require Import NetSpec NetModel.

(** A thread pool with a FIFO queue: [waiting] was submitted, not started; [started] has a thread, or
    had one and finished. *)
Record pool (M X A : Type) : Type := Pool { pnet : net M X A; waiting : list nat; started : list nat }.
Global Arguments Pool {M X A}. Global Arguments pnet {M X A}. Global Arguments waiting {M X A}. Global Arguments started {M X A}.

Definition alive {M X A} (N : net M X A) (t : nat) : bool :=
  match parties N !! t with Some (Ret _) | Some (Throw _) => false | _ => true end.
Definition busy {M X A} (N : net M X A) (l : list nat) : nat := length (List.filter (alive N) l).

(** a step of one task: NetModel.net_send, net_recv *)
Inductive task_step {M X A} (t : nat) : net M X A -> net M X A -> Prop :=
| task_send : forall P c I B o to m k,
    P !! t = Some (Send to m k) ->
    task_step t (Net P c I B o) (Net (<[t := k]> P) (ctick c (t, to)) (<[(t, to, cget c (t, to)) := m]> I) B o)
| task_recv : forall P c I B o frm k m,
    P !! t = Some (Recv frm k) -> B !! (frm, t, cget c (t, frm)) = Some m ->
    task_step t (Net P c I B o) (Net (<[t := k m]> P) (ctick c (t, frm)) I (delete (frm, t, cget c (t, frm)) B) o).
(** a step of the transport: NetModel.net_deliver, net_overflow *)
Inductive transport_step {M X A} : net M X A -> net M X A -> Prop :=
| transport_deliver : forall P c I B o key m,
    I !! key = Some m -> B !! key = None -> transport_step (Net P c I B o) (Net P c (delete key I) (<[key := m]> B) o)
| transport_overflow : forall P c I B o key m m',
    I !! key = Some m -> B !! key = Some m' -> transport_step (Net P c I B o) (Net P c (delete key I) B true).

(** ThreadPoolExecutor(max_workers=threads): the head of the queue starts when a thread is free *)
Inductive pool_step {M X A} (threads : nat) : pool M X A -> pool M X A -> Prop :=
| pool_start : forall N t q l, busy N l < threads -> pool_step threads (Pool N (t :: q) l) (Pool N q (t :: l))
| pool_task : forall N N' q l t, t ∈ l -> task_step t N N' -> pool_step threads (Pool N q l) (Pool N' q l)
| pool_transport : forall N N' q l, transport_step N N' -> pool_step threads (Pool N q l) (Pool N' q l).

Inductive answer (X A : Type) : Type := Results (l : list A) | Raised (x : X).
Global Arguments Results {X A}. Global Arguments Raised {X A}.
Inductive evaluation (M X A : Type) : Type := Running (p : pool M X A) | Answered (a : answer X A).
Global Arguments Running {M X A}. Global Arguments Answered {M X A}.

Definition returned {M X A} (p : pool M X A) (t : nat) (a : A) : Prop := t ∈ started p /\ parties (pnet p) !! t = Some (Ret a).
Definition threw {M X A} (p : pool M X A) (t : nat) (x : X) : Prop := t ∈ started p /\ parties (pnet p) !! t = Some (Throw x).

(** simp_driver/mem.py:197-209: concurrent.futures.wait(FIRST_EXCEPTION) returns when all futures are done
    or one raised; [done] is a set, so any exception of a finished task may be the one raised.
    ops.py:108-117 submits one task per rank, then collects. *)
Inductive mem_step {M X A} (threads : nat) (tasks : list nat) : evaluation M X A -> evaluation M X A -> Prop :=
| mem_run : forall p p', pool_step threads p p' -> mem_step threads tasks (Running p) (Running p')
| mem_all : forall p l, Forall2 (returned p) tasks l -> mem_step threads tasks (Running p) (Answered (Results l))
| mem_fail : forall p t x, t ∈ tasks -> threw p t x -> mem_step threads tasks (Running p) (Answered (Raised x)).

(** simp_driver/http.py:94-96: [f.result() for f in futures], in rank order.  [timeout]: the exception of a
    receive that waited too long (simp_worker/http.py:509-530; None: default_recv_timeout=None). *)
Inductive http_step {M X A} (timeout : option X) (threads : nat) (tasks : list nat) : evaluation M X A -> evaluation M X A -> Prop :=
| http_run : forall p p', pool_step threads p p' -> http_step timeout threads tasks (Running p) (Running p')
| http_expire : forall P c I B o q l t frm k x, timeout = Some x -> t ∈ l -> P !! t = Some (Recv frm k) ->
    http_step timeout threads tasks (Running (Pool (Net P c I B o) q l)) (Running (Pool (Net (<[t := Throw x]> P) c I B o) q l))
| http_all : forall p l, Forall2 (returned p) tasks l -> http_step timeout threads tasks (Running p) (Answered (Results l))
| http_fail : forall p pre t post l x, tasks = pre ++ t :: post -> Forall2 (returned p) pre l -> threw p t x ->
    http_step timeout threads tasks (Running p) (Answered (Raised x)).

(** The evaluation of the programs P, one per rank: all tasks are submitted, nothing has started. *)
Definition submitted {M X A} (tasks : list nat) (P : gmap nat (prog M X A)) : evaluation M X A :=
  Running (Pool (start P ∅) tasks []).

(** A simulator across evaluations.  closed: mesh.shutdown was called (mem.py:207, simp_worker/mem.py:169-172):
    executor.submit raises RuntimeError, for evaluations (mem.py:192) and for fetches (mem.py:214). *)
Inductive mem_answer (X A : Type) : Type := Answer (a : answer X A) | Closed.
Global Arguments Answer {X A}. Global Arguments Closed {X A}.
Definition closes {X A} (a : answer X A) : bool := match a with Results _ => false | Raised _ => true end.
Inductive sim_call {M X A} (n : nat) : bool -> gmap nat (prog M X A) -> mem_answer X A -> bool -> Prop :=
| sim_closed : forall P, sim_call n true P Closed true
| sim_runs : forall P a, rtc (mem_step n (seq 0 n)) (submitted (seq 0 n) P) (Answered a) -> sim_call n false P (Answer a) (closes a).
Inductive sim_calls {M X A} (n : nat) : bool -> list (gmap nat (prog M X A)) -> list (mem_answer X A) -> bool -> Prop :=
| sim_nil : forall b, sim_calls n b [] [] b
| sim_cons : forall b P a b' Ps As b'', sim_call n b P a b' -> sim_calls n b' Ps As b'' -> sim_calls n b (P :: Ps) (a :: As) b''.
(** mem.py:211-214 *)
Definition sim_fetch {V : Type} (closed : bool) (get : nat -> option V) (rank : nat) : option V := if closed then None else get rank.
