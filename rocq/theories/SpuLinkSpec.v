(** The vocabulary of the claims about SPU links. *)
From Coq Require Import List Arith Bool Lia.
From Verif Require Import SpuLinkModel.
Import ListNotations.
Local Open Scope nat_scope.

Definition pair_eqb (a b : nat * nat) : bool := (fst a =? fst b) && (snd a =? snd b).

(** The different elements of a list, in the order of their first occurrence. *)
Fixpoint firsts (l : list (nat * nat)) : list (nat * nat) :=
  match l with
  | [] => []
  | x :: l' => x :: filter (fun y => negb (pair_eqb y x)) (firsts l')
  end.

(** The number of different elements that occur before the first [x]. *)
Fixpoint before (x : nat * nat) (l : list (nat * nat)) : nat :=
  match l with
  | [] => 0
  | y :: l' => if pair_eqb y x then 0 else S (before x l')
  end.
Definition arrival (x : nat * nat) (l : list (nat * nat)) : nat := before x (firsts l).

(** One SPU device: a party list and its link configuration. *)
Definition on_device (ps : list nat) (c : nat) (e : exec) : Prop := parties e = ps /\ link_cfg e = c.

(** What a runtime is for: the request and the profiling flags. *)
Definition asks (e : exec) : nat * nat := (job e, flags e).

(** Two workers' executions talk to each other. *)
Definition connected (a b : option wire) : Prop :=
  match a, b with Some x, Some y => x = y | _, _ => False end.
