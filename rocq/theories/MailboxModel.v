(** Model of one party's mailbox: ThreadCommunicator (backends/simp_worker/mem.py:30-148)
    and HttpCommunicator (http.py:480-549).  Every method body runs under the mailbox lock,
    so a history is a sequence of atomic events; a receive is one event, at the moment it
    leaves the wait loop. *)
From stdpp Require Import gmap strings.

(** mailbox key: (sending rank, message key) *)
Notation bkey := (nat * string)%type.

Inductive event (V : Type) : Type :=
| Accepted (k : bkey) (v : V)   (* _on_receive stored the message *)
| Overflow (k : bkey)           (* _on_receive raised "Mailbox overflow" *)
| Got (k : bkey) (v : V)        (* recv returned v *)
| TimedOut (k : bkey)           (* recv raised RecvTimeoutError (HTTP only) *)
| ShutdownError (k : bkey)      (* recv raised "Communicator shut down" (in-memory only) *)
| Shutdown.                     (* shutdown() (in-memory only) *)
Global Arguments Accepted {V}. Global Arguments Overflow {V}. Global Arguments Got {V}.
Global Arguments TimedOut {V}. Global Arguments ShutdownError {V}. Global Arguments Shutdown {V}.

Inductive transport : Type := InMemory | Http.
Record mailbox (V : Type) : Type := Mailbox { entries : gmap bkey V; closed : bool }.
Global Arguments Mailbox {V}. Global Arguments entries {V}. Global Arguments closed {V}.
Definition fresh {V} : mailbox V := Mailbox ∅ false.

Inductive mb_step {V} (t : transport) : mailbox V -> event V -> mailbox V -> Prop :=
(** mem.py:140-148, http.py:540-549 *)
| mb_accept : forall b k v, entries b !! k = None ->
    mb_step t b (Accepted k v) (Mailbox (<[k := v]> (entries b)) (closed b))
| mb_overflow : forall b k v, entries b !! k = Some v -> mb_step t b (Overflow k) b
(** mem.py:133-138: leaves the loop when the key is present or at shutdown, and tests
    shutdown first; http.py:513-530 *)
| mb_got : forall b k v, entries b !! k = Some v -> (t = InMemory -> closed b = false) ->
    mb_step t b (Got k v) (Mailbox (delete k (entries b)) (closed b))
| mb_shutdown_error : forall b k, t = InMemory -> closed b = true -> mb_step t b (ShutdownError k) b
(** http.py:514-520: the deadline is tested only while the key is absent *)
| mb_timeout : forall b k, t = Http -> entries b !! k = None -> mb_step t b (TimedOut k) b
(** mem.py:54-57 *)
| mb_shutdown : forall b, t = InMemory -> mb_step t b Shutdown (Mailbox (entries b) true).

(** Histories, oldest event first. *)
Inductive history {V} (t : transport) : list (event V) -> mailbox V -> Prop :=
| history_nil : history t [] fresh
| history_snoc : forall h b e b', history t h b -> mb_step t b e b' -> history t (h ++ [e]) b'.
