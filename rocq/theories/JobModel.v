(** Model of asynchronous execution on a worker: backends/simp_worker/http.py:612-699 (task states
    and _do_execute_async) and 718-764 (the endpoints POST /exec/async and GET /exec/{id}/status).

    The endpoints run on the event-loop thread, one at a time: a submission contains no await and
    is atomic; a poll reads the task object three times, between which the threads of the
    execution pool may run.  A thread looks its task up in [async_tasks] at every assignment.
    Executing the graph itself is one outcome, chosen at submission. *)
From Coq Require Import List Bool Arith.
Import ListNotations.
Local Open Scope nat_scope.

Section Jobs.
Variables (R S E : Type).            (* results, serialized results, error texts *)
Variable dumps : R -> option S.      (* serde.dumps_b64; None: it raises *)
Variable dump_error : E.

Inductive status : Type := PENDING | RUNNING | SUCCESS | FAILED.
(** 621-627 AsyncTaskState *)
Record task : Type := Task { t_status : status; t_result : option S; t_error : option E }.
Inductive outcome : Type := Ok (r : R) | Err (e : E).
(** program counter of _do_execute_async: before the status assignment; executing; before
    serializing and storing the result; before storing the error; returned *)
Inductive pc : Type := Queued (o : outcome) | Running (o : outcome) | Serializing (r : R) | Storing_error (e : E) | Finished.
Record thread : Type := Thread { th_id : nat; th_pc : pc }.
(** a poll in progress: its task object (position in the heap), and the statuses read so far *)
Record poll : Type := Poll { po_id : nat; po_obj : nat; po_read : option (status * option status) }.
Inductive entry : Type :=
| Accepted (id : nat) (o : outcome)
| Conflict (id : nat)                                        (* 409 *)
| NotFound (id : nat)                                        (* 404 *)
| Response (id : nat) (s : status) (result : option S) (error : option E).
Record server : Type := Server { heap : list task; tasks : list (nat * nat); threads : list thread; polling : option poll; log : list entry }.
Definition init : server := Server [] [] [] None [].

(** async_tasks.get(id): the entry of the latest assignment *)
Fixpoint get (id : nat) (d : list (nat * nat)) : option nat :=
  match d with [] => None | (k, v) :: d => if k =? id then Some v else get id d end.
Fixpoint set {A : Type} (l : list A) (i : nat) (x : A) : list A :=
  match l, i with [], _ => [] | _ :: l, 0 => x :: l | a :: l, Datatypes.S i => a :: set l i x end.
Definition unfinished (t : task) : bool := match t_status t with PENDING | RUNNING => true | _ => false end.
(** the task objects reachable from async_tasks (one per id) *)
Definition current (sv : server) : list task :=
  flat_map (fun kv => match get (fst kv) (tasks sv) with
                      | Some i => match nth_error (heap sv) i with Some t => [t] | None => [] end
                      | None => [] end) (tasks sv).

(** 718-745 POST /exec/async (job_id given, payload well formed) *)
Definition submit (sv : server) (id : nat) (o : outcome) : server :=
  if existsb unfinished (current sv) then Server (heap sv) (tasks sv) (threads sv) (polling sv) (log sv ++ [Conflict id])
  else Server (heap sv ++ [Task PENDING None None]) ((id, length (heap sv)) :: tasks sv) (threads sv ++ [Thread id (Queued o)]) (polling sv) (log sv ++ [Accepted id o]).

(** async_tasks[id].field = ... *)
Definition assign (sv : server) (id : nat) (f : task -> task) : list task :=
  match get id (tasks sv) with
  | Some i => match nth_error (heap sv) i with Some t => set (heap sv) i (f t) | None => heap sv end
  | None => heap sv
  end.
Definition with_status (s : status) (t : task) : task := Task s (t_result t) (t_error t).
Definition with_result (x : S) (t : task) : task := Task (t_status t) (Some x) (t_error t).
Definition with_error (e : E) (t : task) : task := Task (t_status t) (t_result t) (Some e).
(** 687-699 _do_execute_async, one assignment at a time *)
Definition thread_step (sv : server) (k : nat) : option server :=
  match nth_error (threads sv) k with
  | None => None
  | Some (Thread id p) =>
      let next f p' := Some (Server (assign sv id f) (tasks sv) (set (threads sv) k (Thread id p')) (polling sv) (log sv)) in
      match p with
      | Queued o => next (with_status RUNNING) (Running o)
      | Running (Ok r) => next (with_status SUCCESS) (Serializing r)
      | Running (Err e) => next (with_status FAILED) (Storing_error e)
      | Serializing r => match dumps r with
                         | Some s => next (with_result s) Finished
                         | None => next (with_status FAILED) (Storing_error dump_error)
                         end
      | Storing_error e => next (with_error e) Finished
      | Finished => None
      end
  end.

(** 747-764 GET /exec/{id}/status *)
Definition poll_start (sv : server) (id : nat) : server :=
  match get id (tasks sv) with
  | Some i => Server (heap sv) (tasks sv) (threads sv) (Some (Poll id i None)) (log sv)
  | None => Server (heap sv) (tasks sv) (threads sv) None (log sv ++ [NotFound id])
  end.
Definition poll_step (sv : server) : option server :=
  match polling sv with
  | Some (Poll id i rd) =>
      match nth_error (heap sv) i with
      | None => None
      | Some t =>
          match rd with
          | None => Some (Server (heap sv) (tasks sv) (threads sv) (Some (Poll id i (Some (t_status t, None)))) (log sv))
          | Some (s1, None) => Some (Server (heap sv) (tasks sv) (threads sv) (Some (Poll id i (Some (s1, Some (t_status t))))) (log sv))
          | Some (s1, Some s2) =>
              Some (Server (heap sv) (tasks sv) (threads sv) None
                     (log sv ++ [Response id s1 (match s2 with SUCCESS => t_result t | _ => None end) (match s2 with FAILED => t_error t | _ => None end)]))
          end
      end
  | None => None
  end.

Inductive event : Type := Submit (id : nat) (o : outcome) | Poll_ (id : nat) | Loop | Pool (k : nat).
(** None: the event cannot happen now; endpoint calls wait for the event loop *)
Definition step (sv : server) (ev : event) : option server :=
  match ev with
  | Submit id o => match polling sv with None => Some (submit sv id o) | Some _ => None end
  | Poll_ id => match polling sv with None => Some (poll_start sv id) | Some _ => None end
  | Loop => poll_step sv
  | Pool k => thread_step sv k
  end.
Fixpoint run (sv : server) (evs : list event) : option server :=
  match evs with
  | [] => Some sv
  | ev :: evs => match step sv ev with Some sv => run sv evs | None => None end
  end.
End Jobs.
