(** Specification of table.run_sql (C96): a query's value is the query applied to the given tables. *)
From Coq Require Import String List Bool Arith.
From Verif Require Import SqlModel.
Import ListNotations.
Local Open Scope nat_scope.

Section Spec.
Variable T : Type.
(** the given table a name in the query denotes (SQL names are case insensitive) *)
Fixpoint denoted (given : list (string * nat)) (r : string) : option nat :=
  match given with [] => None | (n, i) :: g => if String.eqb (fold n) (fold r) then Some i else denoted g r end.
(** the meanings of the tables a history creates, in order *)
Definition meaning_of (m : list (option T)) (o : cmd T) : list (option T) :=
  match o with
  | Constant c | ReadFile c => [Some c]
  | RunSql q given =>
      [match all_some (fun r => match denoted given r with Some i => nth i m None | None => None end) (q_reads _ q) with
       | Some cs => Some (q_fn _ q cs)
       | None => None
       end]
  | Use _ => []
  end.
Fixpoint meanings (m : list (option T)) (os : list (cmd T)) : list (option T) :=
  match os with [] => m | o :: r => meanings (m ++ meaning_of m o) r end.
Definition meaning (os : list (cmd T)) (i : nat) : option T := nth i (meanings [] os) None.

Definition names (o : cmd T) : list string := match o with RunSql _ g => map fst g | _ => [] end.
(** a query reads only tables it was given, and they exist *)
Definition self_contained (o : cmd T) : Prop :=
  match o with RunSql q g => forall r, In r (q_reads _ q) -> exists n, In n (map fst g) /\ fold n = fold r | _ => True end.
(** no two names differ in case only *)
Definition case_safe (os : list (cmd T)) : Prop :=
  forall a b, In a (flat_map names os) -> In b (flat_map names os) -> fold a = fold b -> a = b.
(** every name is used once *)
Definition fresh_names (os : list (cmd T)) : Prop := NoDup (map fold (flat_map names os)).
(** arguments refer to earlier tables; the count is of tables created so far *)
Fixpoint well_scoped (k : nat) (os : list (cmd T)) : Prop :=
  match os with
  | [] => True
  | RunSql q g :: r => Forall (fun p => snd p < k) g /\ well_scoped (S k) r
  | Use i :: r => i < k /\ well_scoped k r
  | _ :: r => well_scoped (S k) r
  end.
End Spec.
