(** Vocabulary of C104. *)
From Coq Require Import String.
From Coq Require Import List Arith Bool Lia.
From Verif Require Import RequestIsolModel.
Import ListNotations.

(** Every receive of a request returned a message of that same request. *)
Definition isolated {V} (h : list (event V)) : Prop :=
  forall i r f v j, In (Got i r f v j) h -> j = i.

(** ... and a received value was sent by that peer to this worker before. *)
Definition genuine {V} (h : list (event V)) : Prop :=
  forall h1 i r f v j h2, h = h1 ++ Got i r f v j :: h2 -> In (Sent j f r v) h1.

Fixpoint count {A} (f : A -> bool) (l : list A) : nat :=
  match l with [] => 0 | x :: l' => (if f x then 1 else 0) + count f l' end.

Definition is_sent {V} (i f r : nat) (e : event V) : bool :=
  match e with Sent i' f' r' _ => (i' =? i) && (f' =? f) && (r' =? r) | _ => false end.
Definition is_got_of {V} (i f r : nat) (e : event V) : bool :=
  match e with Got _ r' f' _ j => (j =? i) && (f' =? f) && (r' =? r) | _ => false end.

(** All messages of request [i] have been received. *)
Definition all_received {V} (h : list (event V)) (i : nat) : Prop :=
  forall f r, count (is_sent i f r) h = count (is_got_of i f r) h.
(** Request [i] has ended at every worker where it was started. *)
Definition over {V} (h : list (event V)) (i : nat) : Prop :=
  forall r, In (Started i r) h -> exists res, In (Ended i r res) h.

(** The client posts one request at a time. *)
Definition one_at_a_time {V} (h : list (event V)) : Prop :=
  forall h1 i r h2, h = h1 ++ Started i r :: h2 -> forall j, j <> i -> over h1 j.
(** No request leaves messages behind for the next one. *)
Definition clean {V} (h : list (event V)) : Prop :=
  forall h1 i r h2, h = h1 ++ Started i r :: h2 -> forall j, j <> i -> all_received h1 j.

(** Nothing went wrong on the network or in a wait. *)
Definition no_fault {V} (e : event V) : Prop :=
  match e with Dropped _ _ _ _ => False | TimedOut _ _ => False | _ => True end.

(** simp.shuffle_static(x, {1: 0}) with x = v at rank 0, as the driver posts it (no job id):
    rank 0 sends, rank 1 receives and keeps the value. *)
Definition shuffle_0_to_1 {V} (v : V) : request V :=
  Rq None (fun r => if Nat.eqb r 0 then Send 1 v (Ret v) else Recv 0 (fun x => Ret x)).
(** A request whose code raises at rank 1 before it receives. *)
Definition fails_at_1 {V} (v : V) : request V :=
  Rq None (fun r => if Nat.eqb r 0 then Send 1 v (Ret v) else Raise).

(** The results of a request: what its workers returned. *)
Definition result {V} (h : list (event V)) (i r : nat) (v : V) : Prop := In (Ended i r (Some v)) h.
