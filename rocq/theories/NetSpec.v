(** Parties, programs and the network: the semantics of message passing used by the
    communication properties.  Specification level: what "every schedule ends in f" means. *)
From stdpp Require Import gmap relations.

(** A party's program: what it does with its communication context. *)
Inductive prog (M X A : Type) : Type :=
| Ret (a : A)
| Throw (x : X)
| Send (to : nat) (m : M) (k : prog M X A)
| Recv (frm : nat) (k : M -> prog M X A).
Global Arguments Ret {M X A}. Global Arguments Throw {M X A}.
Global Arguments Send {M X A}. Global Arguments Recv {M X A}.

Fixpoint bind {M X A B} (p : prog M X A) (f : A -> prog M X B) : prog M X B :=
  match p with
  | Ret a => f a
  | Throw x => Throw x
  | Send to m k => Send to m (bind k f)
  | Recv frm k => Recv frm (fun m => bind (k m) f)
  end.

Definition finished {M X A} (p : prog M X A) : Prop :=
  match p with Ret _ | Throw _ => True | _ => False end.

(** Every execution from s is finite, and can only end in f (which is final). *)
Definition every_schedule_ends_in {S : Type} (R : relation S) (s f : S) : Prop :=
  nf R f /\ exists n, forall k t, nsteps R k s t -> k <= n /\ rtc R t f.
