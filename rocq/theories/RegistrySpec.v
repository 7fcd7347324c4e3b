(** Specification of dispatch and profiling (C202, C203). *)
From Coq Require Import String List Bool Arith.
From Verif Require Import RegistryModel.
Import ListNotations.
Local Open Scope list_scope.

(** the last registration of that operation *)
Definition last_for {F} (op : string) (events : list (string * F)) (f : F) : Prop :=
  exists before after, events = before ++ (op, f) :: after /\ ~ In op (map fst after).
(** the executions of an operation anywhere inside *)
Fixpoint executions (op : string) (c : call) : list call :=
  match c with
  | Call o own ret inside => flat_map (executions op) inside ++ (if String.eqb o op && ret then [c] else [])
  end.
(** the operations whose time contains that of other recorded operations *)
Fixpoint flat (handled : string -> bool) (c : call) : Prop :=
  match c with
  | Call op _ _ inside => (handled op = false -> inside = []) /\ (fix all l := match l with [] => True | x :: r => flat handled x /\ all r end) inside
  end.
