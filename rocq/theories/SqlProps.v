(** C96: run_sql computes its query over the tables it is given. *)
From Coq Require Import String List Bool Arith Lia.
From Verif Require Import SqlModel SqlSpec SqlProofs.
Import ListNotations.
Local Open Scope nat_scope.
Local Open Scope string_scope.

(** Whatever a history of queries and uses lets a user see of a table is the value of its query
    over the tables given to it, however the tables share connections and in whatever order they
    are read - provided no two table names differ in case only and no query reads a name it was
    not given (both needed, see below).  Operations may raise instead. *)
Theorem C96_queries_see_their_tables :
  forall (T : Type) (os : list (cmd T)), case_safe T os -> Forall (self_contained T) os ->
  forall i c, In (i, Some c) (observed T os) -> meaning T os i = Some c.
Proof. exact safe. Qed.
Print Assumptions C96_queries_see_their_tables.

(** If moreover every name is used for one query only, nothing raises: every use sees the meaning. *)
Theorem C96_fresh_names_succeed :
  forall (T : Type) (os : list (cmd T)), fresh_names T os -> Forall (self_contained T) os -> well_scoped T 0 os ->
  forall i r, In (i, r) (observed T os) -> r = meaning T os i /\ r <> None.
Proof. exact live_all. Qed.
Print Assumptions C96_fresh_names_succeed.

Definition read1 (a : string) : query nat := Query [a] (fun l => match l with [x] => x + 1 | _ => 0 end).
Definition read2 (a b : string) : query nat := Query [a; b] (fun l => match l with [x; y] => 10 * x + y | _ => 0 end).
Local Ltac contained :=
  repeat apply Forall_cons; try apply Forall_nil; try exact I; cbn;
  (let r := fresh in let H := fresh in intros r H; repeat (destruct H as [<-|H]; [eauto|]); destruct H).
(** two chains on two connections, joined: 3 is materialised into the connection of 2 *)
Definition join_example : list (cmd nat) :=
  [Constant 1; ReadFile 5; RunSql (read1 "a") [("a", 0)]; RunSql (read1 "B") [("b", 1)]; RunSql (read2 "x" "y") [("x", 2); ("y", 3)]; Use 4; Use 3; Use 4].
Example C96_example :
  observed nat join_example = [(4, Some 26); (3, Some 6); (4, Some 26)] /\
  fresh_names nat join_example /\ Forall (self_contained nat) join_example /\ well_scoped nat 0 join_example.
Proof.
  split; [vm_compute; reflexivity|]. split; [|split].
  - repeat constructor; cbn; intuition discriminate.
  - contained.
  - repeat constructor.
Qed.

(** Names that differ in case only: a later query silently changes what an earlier, not yet read,
    query returns. *)
Theorem C161_case_variants_refuted :
  exists os : list (cmd nat), Forall (self_contained nat) os /\ well_scoped nat 0 os /\
  exists i c, In (i, Some c) (observed nat os) /\ meaning nat os i <> Some c.
Proof.
  exists [Constant 1; RunSql (read1 "t") [("t", 0)]; Constant 5; RunSql (read1 "x") [("x", 1); ("T", 2)]; Use 1].
  split; [|split; [repeat constructor|]].
  - contained.
  - exists 1, 6. vm_compute. split; [left; reflexivity|discriminate].
Qed.
Print Assumptions C161_case_variants_refuted.

(** A query can read a table it was not given: names of earlier queries on the connection stay. *)
Theorem C161_isolation_refuted :
  exists os : list (cmd nat), fresh_names nat os /\ well_scoped nat 0 os /\
  exists i c, In (i, Some c) (observed nat os) /\ meaning nat os i = None.
Proof.
  exists [Constant 7; RunSql (read1 "t") [("t", 0)]; RunSql (read1 "t") [("x", 1)]; Use 2].
  split; [repeat constructor; cbn; intuition discriminate|]. split; [repeat constructor|].
  exists 2, 8. vm_compute. split; [left; reflexivity|reflexivity].
Qed.
Print Assumptions C161_isolation_refuted.

(** Chaining queries that call their input the same name raises, although each query is fine. *)
Theorem C161_chaining_refuted :
  exists os : list (cmd nat), case_safe nat os /\ Forall (self_contained nat) os /\ well_scoped nat 0 os /\
  exists i c, In (i, None) (observed nat os) /\ meaning nat os i = Some c.
Proof.
  exists [Constant 7; RunSql (read1 "t") [("t", 0)]; RunSql (read1 "t") [("t", 1)]; Use 2].
  split; [intros a b [<-|[<-|[]]] [<-|[<-|[]]] _; reflexivity|].
  split; [contained|].
  split; [repeat constructor|]. exists 2, 9. vm_compute. split; [left; reflexivity|reflexivity].
Qed.
Print Assumptions C161_chaining_refuted.

(** Reading a table changes whether a later query succeeds. *)
Theorem C161_reading_is_harmless_refuted :
  exists (before after : list (cmd nat)), 
  (forall i r, In (i, r) (observed nat (before ++ after)) -> r <> None) /\
  exists i j, In (j, None) (observed nat (before ++ [Use i] ++ after)) /\ In (i, meaning nat before i) (observed nat (before ++ [Use i] ++ after)) /\ meaning nat before i <> None.
Proof.
  exists [Constant 7; RunSql (read1 "t") [("t", 0)]; RunSql (read1 "q") [("q", 1)]], [RunSql (read2 "x" "q") [("x", 2); ("q", 1)]; Use 3].
  split; [vm_compute; intros i r [H|[]]; congruence|]. exists 1, 3. vm_compute. split; [right; left; reflexivity|]. split; [left; reflexivity|]. discriminate.
Qed.
Print Assumptions C161_reading_is_harmless_refuted.
