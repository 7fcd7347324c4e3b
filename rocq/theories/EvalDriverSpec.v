(** What it means that an evaluation answers, independently of its implementation. *)
From stdpp Require Import gmap relations.
From Verif Require Import NetSpec NetModel EvalDriverModel.

(** the programs are those of the ranks 0..n-1 *)
Definition per_rank {M X A} (n : nat) (P : gmap nat (prog M X A)) : Prop := forall t, is_Some (P !! t) <-> t < n.

(** Run by a thread for every party, every schedule of the programs ends in the state f of the parties. *)
Definition parties_end_in {M X A} (P f : gmap nat (prog M X A)) : Prop :=
  exists c I B o, every_schedule_ends_in net_step (start P ∅) (Net f c I B o).

(** Every schedule of the evaluation is finite, ends with an answer, and all answers satisfy Q. *)
Definition always_answers {M X A} (R : relation (evaluation M X A)) (s : evaluation M X A) (Q : answer X A -> Prop) : Prop :=
  (exists n, forall k t, nsteps R k s t -> k <= n) /\
  (forall t, rtc R s t -> nf R t -> exists a, t = Answered a) /\
  (forall a, rtc R s (Answered a) -> Q a).

(** l is an interleaving of l1 and l2: the queue after two threads submitted l1 and l2 *)
Inductive interleave {T : Type} : list T -> list T -> list T -> Prop :=
| inter_nil : interleave [] [] []
| inter_l : forall x l1 l2 l, interleave l1 l2 l -> interleave (x :: l1) l2 (x :: l)
| inter_r : forall x l1 l2 l, interleave l1 l2 l -> interleave l1 (x :: l2) (x :: l).

(** A program that never waits for a message. *)
Fixpoint waits_for_nobody {M X A} (p : prog M X A) : Prop :=
  match p with Ret _ | Throw _ => True | Send _ _ k => waits_for_nobody k | Recv _ _ => False end.
