(** On whom the result of a party depends (C212). *)
From Coq Require Import List Bool Arith.
From Verif Require SimpModel.
Import ListNotations.
Local Open Scope nat_scope.

(** every routing (target, source) written anywhere in a program: also in branches that are not
    taken and in loops *)
Fixpoint routings {VT V : Type} (g : SimpModel.region VT V) : list (nat * nat) :=
  match g with
  | SimpModel.Ret _ _ _ => []
  | SimpModel.Let _ _ o rest => op_routings o ++ routings rest
  end
with op_routings {VT V : Type} (o : SimpModel.op VT V) : list (nat * nat) :=
  match o with
  | SimpModel.PCallStatic _ _ _ _ _ | SimpModel.PCallDynamic _ _ _ _ | SimpModel.Converge _ _ _ => []
  | SimpModel.Shuffle _ _ _ routing => routing
  | SimpModel.UniformCond _ _ _ _ th el => routings th ++ routings el
  | SimpModel.WhileLoop _ _ _ _ _ cond body => routings cond ++ routings body
  end.

(** values can get from party s to party r over these routings *)
Inductive leads (routing : list (nat * nat)) : nat -> nat -> Prop :=
| stays : forall r, leads routing r r
| goes : forall s t r, In (t, s) routing -> leads routing t r -> leads routing s r.

(** two inputs, or two results, that are the same at the parties of P *)
Definition same_at {V : Type} (P : nat -> Prop) (env env' : list (nat -> option V)) : Prop :=
  Forall2 (fun v v' => forall r, P r -> v r = v' r) env env'.
