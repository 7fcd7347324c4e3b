(** C93: table files. *)
From Coq Require Import List Bool Arith Lia.
From Verif Require Import TabFileModel TabFileSpec TabFileProofs.
Import ListNotations.

(** If no two parties use the same relative file name (and none of the names exists in the shared
    working directory): table.read succeeds exactly when the party has the file, and its value,
    whenever it is first used, is the content the file had at the time of the read, as long as the
    name is not written in between. *)
Theorem C93_read_is_a_snapshot :
  forall (owner : nat -> nat) (f0 : fs) (pre mid : list op) (p : nat) (n : name),
  fresh f0 -> Forall (by_owner owner) pre -> Forall (by_owner owner) mid -> by_owner owner (Read p n) ->
  forallb (fun o => negb (writes n o)) mid = true ->
  let f := snd (run f0 pre) in
  let '(r, f1) := step f (Read p n) in
  match party_file f p n with
  | Some c => r = RHandle /\ fst (step (snd (run f1 mid)) (Consume n)) = RContent c
  | None => r = RRaise
  end.
Proof.
  intros owner f0 pre mid p n F Pre Mid Own W f.
  assert (I : Inv owner f) by (apply run_Inv; auto using fresh_Inv).
  destruct n as [k|k]; cbn in Own; [subst p|].
  - pose proof (step_read owner f k I) as R. cbn [party_file].
    destruct (read_file f (PStore (owner k) k)) as [c|] eqn:E; [|now rewrite R].
    destruct R as (f1 & -> & Rt & I1 & O & N). split; [reflexivity|].
    rewrite (read_tmp owner f1 k I1) in Rt.
    assert (Rs : read_file f1 (PStore (owner k) k) = Some c).
    { pose proof I as (A & _). pose proof I1 as (A1 & _). rewrite read_nolink in E |- * by auto. rewrite O by discriminate. exact E. }
    pose proof (run_handle owner mid k c f1 I1 Mid W Rt Rs) as T. cbn [step local_path fst].
    rewrite (read_tmp owner), T by (apply run_Inv; auto). reflexivity.
  - rewrite (step_abs_read owner) by exact I. cbn [party_file]. destruct (read_file f (PAbs k)) as [c|] eqn:E; auto.
    split; auto. cbn [step local_path fst]. pose proof (run_abs owner mid k f I Mid W) as X.
    pose proof (run_Inv owner mid f I Mid) as (_ & B' & _). pose proof I as (_ & B & _).
    rewrite read_nolink in E |- * by auto. rewrite X, E. reflexivity.
Qed.
Print Assumptions C93_read_is_a_snapshot.

(** Under the same condition table.write either makes the party's file exactly the written content,
    or raises and leaves the file as it was; it raises only if the file exists with other content. *)
Theorem C93_write :
  forall (owner : nat -> nat) (f0 : fs) (pre : list op) (p : nat) (n : name) (c : nat),
  fresh f0 -> Forall (by_owner owner) pre -> by_owner owner (Write p n c) ->
  let f := snd (run f0 pre) in
  let '(r, f') := step f (Write p n c) in
  (r = RDone /\ party_file f' p n = Some c) \/
  (r = RRaise /\ party_file f' p n = party_file f p n /\ exists c0, c0 <> c /\ party_file f p n = Some c0).
Proof.
  intros owner f0 pre p n c F Pre Own f. assert (I : Inv owner f) by (apply run_Inv; auto using fresh_Inv).
  destruct n as [k|k]; cbn in Own; [subst p|].
  - destruct (step_write owner f k c I) as (x & f' & -> & I' & _ & [[-> R]|(-> & S0 & c0 & Ne & R & _)]); [left; auto|right].
    split; auto. cbn [party_file]. split; [|eauto]. pose proof I as (A & _). pose proof I' as (A' & _). rewrite !read_nolink by auto. now rewrite S0.
  - destruct (step_abs_write owner f p k c I) as [-> I']. left. split; auto. cbn [party_file]. pose proof I' as (_ & B & _).
    rewrite read_nolink by auto. now rewrite set_same.
Qed.
Print Assumptions C93_write.

(** Under the same condition nobody's file changes except by a write of that name by its party. *)
Theorem C93_only_written_files_change :
  forall (owner : nat -> nat) (f0 : fs) (pre : list op) (o : op) (q : nat) (n : name),
  fresh f0 -> Forall (by_owner owner) pre -> by_owner owner o ->
  match o, n with
  | Write p (Rel k) _, Rel j => (p, k) <> (q, j)
  | Write _ (Abs k) _, Abs j => k <> j
  | _, _ => True
  end ->
  let f := snd (run f0 pre) in party_file (snd (step f o)) q n = party_file f q n.
Proof.
  intros owner f0 pre o q n F Pre Own Ne f. assert (I : Inv owner f) by (apply run_Inv; auto using fresh_Inv).
  pose proof (step_Inv owner f o I Own) as I'. pose proof I as (A & B & _). pose proof I' as (A' & B' & _).
  destruct n as [j|j]; cbn [party_file]; rewrite !read_nolink by auto.
  - rewrite (step_store_other owner) by (auto; destruct o as [? [?|?]|?|? [?|?] ?]; auto). reflexivity.
  - rewrite (step_abs_other owner); auto. destruct o as [? [?|?]|?|? [?|?] ?]; auto. cbn. apply Nat.eqb_neq. exact Ne.
Qed.
Print Assumptions C93_only_written_files_change.

(** files given by a list *)
Definition fs_of (l : list (path * node)) : fs := fun p => option_map snd (find (fun e => path_eqb p (fst e)) l).
Definition two_parties : fs := fs_of [(PStore 0 5, File 100); (PStore 1 6, File 200); (PAbs 7, File 300)].
Example C93_example :
  fresh two_parties /\
  fst (run two_parties [Read 0 (Rel 5); Read 1 (Rel 6); Consume (Rel 5); Write 1 (Rel 8) 9; Read 1 (Rel 8); Consume (Rel 8); Consume (Rel 6); Write 1 (Rel 8) 10; Read 0 (Abs 7)]) =
    [RHandle; RHandle; RContent 100; RDone; RHandle; RContent 9; RContent 200; RDone; RHandle].
Proof.
  split; [|reflexivity]. split; [|split; reflexivity].
  intros p q. unfold two_parties, fs_of. cbn. repeat (match goal with |- context [path_eqb ?a ?b] => destruct (path_eqb a b); cbn; try discriminate end).
Qed.

(** Two parties with a file of the same name: party 0 reads its file, then party 1 reads its own;
    the value party 0 got is party 1's content. *)
Theorem C159_read_is_a_snapshot_refuted :
  exists f0, fresh f0 /\ party_file f0 0 (Rel 5) = Some 100 /\ party_file f0 1 (Rel 5) = Some 200 /\
    fst (run f0 [Read 0 (Rel 5); Read 1 (Rel 5); Consume (Rel 5)]) = [RHandle; RHandle; RContent 200].
Proof.
  exists (fs_of [(PStore 0 5, File 100); (PStore 1 5, File 200)]). split; [|repeat split].
  split; [|split; reflexivity]. intros p q. unfold fs_of. cbn. repeat (match goal with |- context [path_eqb ?a ?b] => destruct (path_eqb a b); cbn; try discriminate end).
Qed.
Print Assumptions C159_read_is_a_snapshot_refuted.

(** Party 0 reads a file, party 1 writes a file of that name: party 0's file is overwritten with
    party 1's data, and party 1's file is a link to it. *)
Theorem C159_only_written_files_change_refuted :
  exists f0 f1, fresh f0 /\ party_file f0 0 (Rel 5) = Some 100 /\
    run f0 [Read 0 (Rel 5); Write 1 (Rel 5) 200] = ([RHandle; RDone], f1) /\
    party_file f1 0 (Rel 5) = Some 200 /\ f1 (PStore 1 5) = Some (Link (PStore 0 5)).
Proof.
  exists (fs_of [(PStore 0 5, File 100)]). eexists. split; [|repeat split].
  split; [|split; reflexivity]. intros p q. unfold fs_of. cbn. repeat (match goal with |- context [path_eqb ?a ?b] => destruct (path_eqb a b); cbn; try discriminate end).
Qed.
Print Assumptions C159_only_written_files_change_refuted.

(** Documented: writing over a file with other content is an error.  After the party has read the
    file the same write silently replaces it. *)
Theorem C159_no_overwrite_refuted :
  exists f0 f1, fresh f0 /\ party_file f0 0 (Rel 5) = Some 100 /\
    fst (step f0 (Write 0 (Rel 5) 200)) = RRaise /\
    run f0 [Read 0 (Rel 5); Write 0 (Rel 5) 200] = ([RHandle; RDone], f1) /\ party_file f1 0 (Rel 5) = Some 200.
Proof.
  exists (fs_of [(PStore 0 5, File 100)]). eexists. split; [|repeat split].
  split; [|split; reflexivity]. intros p q. unfold fs_of. cbn. repeat (match goal with |- context [path_eqb ?a ?b] => destruct (path_eqb a b); cbn; try discriminate end).
Qed.
Print Assumptions C159_no_overwrite_refuted.

(** One party, an input file in the working directory: read it, write the name, read it, write it
    again.  Every operation succeeds; the input file in the working directory is overwritten, and
    the written file is a link to itself that cannot be read. *)
Theorem C159_written_file_readable_refuted :
  exists f0 f1, (forall p q, f0 p <> Some (Link q)) /\ (forall k, f0 (PTmp k) = None) /\ f0 (PCwd 5) = Some (File 100) /\
    run f0 [Read 0 (Rel 5); Write 0 (Rel 5) 200; Read 0 (Rel 5); Write 0 (Rel 5) 300] = ([RHandle; RDone; RHandle; RDone], f1) /\
    party_file f1 0 (Rel 5) = None /\ f1 (PStore 0 5) = Some (Link (PStore 0 5)) /\ f1 (PCwd 5) = Some (File 300).
Proof.
  exists (fs_of [(PCwd 5, File 100)]). eexists. split; [|repeat split].
  intros p q. unfold fs_of. cbn. repeat (match goal with |- context [path_eqb ?a ?b] => destruct (path_eqb a b); cbn; try discriminate end).
Qed.
Print Assumptions C159_written_file_readable_refuted.
