(** Model of CommContext (backends/simp_worker/comm_context.py:30-110) and of the two
    transports: the in-memory mailbox (mem.py:59-148) and the HTTP communicator
    (http.py:495-549).  One context id shared by all parties; ranks are natural numbers. *)
From stdpp Require Import gmap.
From Verif Require Import NetSpec.

(** A message key: (source, destination, sequence number).  comm_context.py:90,103,109 build
    the string f"{id}:{seq}", the transport adds the source (mem.py:132,141; http.py:507,542)
    and the destination owns the mailbox. *)
Notation mkey := (nat * nat * nat)%type.

Record net (M X A : Type) : Type := Net {
  parties : gmap nat (prog M X A);   (* rank -> remaining program *)
  ctr : gmap (nat * nat) nat;        (* (rank, peer) -> _seq[peer], a defaultdict(int) *)
  infl : gmap mkey M;                (* sent, not yet accepted by the receiver *)
  mbox : gmap mkey M;                (* accepted, not yet received *)
  overflowed : bool                  (* a "Mailbox overflow" RuntimeError happened *)
}.
Global Arguments Net {M X A}. Global Arguments parties {M X A}. Global Arguments ctr {M X A}.
Global Arguments infl {M X A}. Global Arguments mbox {M X A}. Global Arguments overflowed {M X A}.

Definition cget (c : gmap (nat * nat) nat) (k : nat * nat) : nat := default 0 (c !! k).
Definition ctick (c : gmap (nat * nat) nat) (k : nat * nat) : gmap (nat * nat) nat := <[k := S (cget c k)]> c.

(** One step of the distributed system.
    - send (comm_context.py:87-104): take the next number for the peer, hand the message to
      the transport.  Counters only grow, so a message in flight is never overwritten
      (proved: [wf]).
    - deliver (mem.py:140-148, http.py:540-549): at any later time the receiver stores the
      message, or reports an overflow.  The in-memory transport delivers inside send: these
      are the schedules in which every send is followed by its delivery.
    - recv (comm_context.py:106-110, mem.py:117-138, http.py:505-530): take the next number
      for the peer, wait for that key, pop it.
    Timeouts, shutdown and lost HTTP requests are not modelled. *)
Inductive net_step {M X A} : net M X A -> net M X A -> Prop :=
| net_send : forall P c I B o r to m k,
    P !! r = Some (Send to m k) ->
    net_step (Net P c I B o) (Net (<[r := k]> P) (ctick c (r, to)) (<[(r, to, cget c (r, to)) := m]> I) B o)
| net_deliver : forall P c I B o key m,
    I !! key = Some m -> B !! key = None ->
    net_step (Net P c I B o) (Net P c (delete key I) (<[key := m]> B) o)
| net_overflow : forall P c I B o key m m',
    I !! key = Some m -> B !! key = Some m' ->
    net_step (Net P c I B o) (Net P c (delete key I) B true)
| net_recv : forall P c I B o r frm k m,
    P !! r = Some (Recv frm k) -> B !! (frm, r, cget c (r, frm)) = Some m ->
    net_step (Net P c I B o) (Net (<[r := k m]> P) (ctick c (r, frm)) I (delete (frm, r, cget c (r, frm)) B) o).

(** The state in which the given parties start, with an empty network. *)
Definition start {M X A} (P : gmap nat (prog M X A)) (c : gmap (nat * nat) nat) : net M X A :=
  Net P c ∅ ∅ false.

(** Sequence numbers agree between every pair of parties: true initially (all zero). *)
Definition matched (c : gmap (nat * nat) nat) : Prop := forall a b, cget c (a, b) = cget c (b, a).
