(** What party types promise about multi-party values, independent of how they are computed. *)
From Coq Require Import List Bool Arith Sorted.
From Verif Require Import SimpModel.
Import ListNotations.
Local Open Scope nat_scope.

Section Spec.
Context {VT V : Type}.

(** no rank outside the declared parties holds a value *)
Definition confined (t : mptype VT) (v : mpval V) (r : nat) : Prop :=
  forall P : list nat, parties _ t = Some P -> ~ In r P -> v r = None.
(** static, non-empty parties, and exactly they hold a value *)
Definition exact (t : mptype VT) (v : mpval V) (r : nat) : Prop :=
  exists P : list nat, parties _ t = Some P /\ P <> [] /\ (In r P <-> v r <> None).
(** every value of an environment is as its type says, at every executing rank below n *)
Definition env_is (Q : mptype VT -> mpval V -> nat -> Prop) (n : nat) (act : nat -> bool) (ts : list (mptype VT)) (vs : list (mpval V)) : Prop :=
  Forall2 (fun t v => forall r : nat, r < n -> act r = true -> Q t v r) ts vs.

(** a local function that returns a value for every output when given all its arguments *)
Definition total_local (f : local VT V) : Prop :=
  forall (args : list (option V)) (k : nat), Forall (fun a => a <> None) args -> k < length (lf_out _ _ f) -> lf_sem _ _ f args k <> None.

(** programs without pcall_dynamic or pcalls by nobody, made of total local functions *)
Fixpoint static_region (g : region VT V) : Prop :=
  match g with Ret _ _ _ => True | Let _ _ o rest => static_op o /\ static_region rest end
with static_op (o : op VT V) : Prop :=
  match o with
  | PCallStatic _ _ ps _ f => ps <> [] /\ total_local f
  | PCallDynamic _ _ _ _ => False
  | Shuffle _ _ _ _ | Converge _ _ _ => True
  | UniformCond _ _ _ _ th el => static_region th /\ static_region el
  | WhileLoop _ _ _ _ _ c b => static_region c /\ static_region b
  end.
End Spec.

(** [y] is typed as held by exactly the parties [P], and party [r] of [P] holds [f r] *)
Definition held_by {VT V : Type} (y : object VT V) (P : list nat) (f : nat -> option V) : Prop :=
  (exists Q : list nat, parties _ (fst y) = Some Q /\ StronglySorted lt Q /\ forall r : nat, In r Q <-> In r P) /\
  (forall r : nat, In r P -> snd y r = f r) /\ (forall r : nat, ~ In r P -> snd y r = None).
(** the value an argument list gives to party r: the first one held *)
Fixpoint first_held {V : Type} (vs : list (mpval V)) (r : nat) : option V :=
  match vs with
  | [] => None
  | v :: rest => match v r with Some x => Some x | None => first_held rest r end
  end.
(** lists with no common member *)
Definition disjoint (a b : list nat) : Prop := forall r : nat, In r a -> ~ In r b.
