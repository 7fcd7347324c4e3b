(** C50 (batch reader loses no rows), C51 (multi-table write), C57 (failed writes leave no file). *)
From Coq Require Import List Arith ZArith Bool Lia.
From Verif Require Import TableModel TableSpec TableProofs.
Import ListNotations.

(** ** C50 *)
(** without a batch size the source batches are delivered as they are *)
Theorem C182_native_batches : forall (A : Type) (src : list (list A)) bs outs, (bs <= 0)%Z -> reads (open_reader src bs) outs <-> outs = src.
Proof.
  intros A src bs outs B. split; [|intros ->; now apply reads_native].
  intros R. eapply reads_det; eauto. now apply reads_native.
Qed.
Print Assumptions C182_native_batches.
(** with a batch size that divides the sizes of the source batches (except the last) *)
Theorem C182_aligned_batches : forall (A : Type) (src : list (list A)) bs, (0 < bs)%Z -> aligned (Z.to_nat bs) src ->
  exists outs, (forall outs', reads (open_reader src bs) outs' <-> outs' = outs) /\ concat outs = concat src /\ full_but_last_batch (Z.to_nat bs) outs.
Proof.
  intros A src bs B Al. destruct (reads_total (open_reader src bs) (open_inv src bs)) as [outs R]. exists outs. split.
  - intros outs'. split; [intros R'; eapply reads_det; eauto|intros ->; auto].
  - apply (reads_aligned _ _ R); auto; [apply open_inv|]. split; cbn; auto.
Qed.
Print Assumptions C182_aligned_batches.
(** the reader does collect all rows in groups of the right size, but delivers only the first
    batch of each group *)
Theorem C50_groups_partial : forall (A : Type) (src : list (list A)) bs outs, (0 < bs)%Z -> reads (open_reader src bs) outs ->
  exists groups, concat (map (@concat A) groups) = concat src /\ full_but_last (Z.to_nat bs) groups /\
    Forall (fun g => g <> [] /\ Forall filled g) groups /\ outs = map (hd []) groups.
Proof.
  intros A src bs outs B R. destruct (reads_groups _ _ R B (open_inv _ _)) as (gs & E1 & E2 & E3 & E4). exists gs. auto.
Qed.
Print Assumptions C50_groups_partial.
(** two or more small batches: only the first one is delivered, whatever follows is lost *)
Theorem C50_batch_reader_refuted : forall (A : Type) (x y : list A) rest bs, Forall filled (x :: y :: rest) ->
  (Z.of_nat (length (concat (x :: y :: rest))) < bs)%Z ->
  reads (open_reader (x :: y :: rest) bs) [x] /\ concat [x] <> concat (x :: y :: rest).
Proof.
  intros A x y rest bs F L. split; [now apply reads_lossy|]. intros E. apply (f_equal (@length A)) in E. cbn in E. rewrite !app_length in E. cbn in E.
  inversion F as [|? ? _ F1]; inversion F1 as [|? ? Fy _]; subst. destruct y; [congruence|cbn in E; lia].
Qed.
Print Assumptions C50_batch_reader_refuted.
Example ex_C50 : aligned 2 [[1;2;3;4];[5;6];[7]] /\ reads (open_reader [[1;2;3;4];[5;6];[7]] 2) [[1;2];[3;4];[5;6];[7]] /\
  Forall filled [[1];[2;3]] /\ (Z.of_nat (length (concat [[1];[2;3]])) < 10)%Z /\ reads (open_reader [[1;2;3];[4;5]] 2) [[1;2];[3];[5]].
Proof.
  split.
  { intros u x v E N. destruct u as [|? [|? [|? u]]]; injection E; intros; subst; try congruence; [exists 2|exists 1|]; try reflexivity. destruct u; discriminate. }
  split; [repeat (eapply R_batch; [reflexivity|]); eapply R_end; reflexivity|].
  split; [repeat constructor; discriminate|]. split; [cbn; lia|].
  repeat (eapply R_batch; [reflexivity|]); eapply R_end; reflexivity.
Qed.

(** ** C51 *)
(** Rows are never misaligned: whatever is written of each table is a prefix of what its reader
    delivers, in pieces of equal height, and a successful write exhausts at least one table. *)
Theorem C183_never_misaligned : forall (A : Type) D (ts : list (table A)) fmt f outs, fmt <> Json -> ts <> [] ->
  write D ts fmt None true (Some f) ->
  length outs = length ts -> (forall i, i < length ts -> reads (open_table D (1 <? length ts) (nth i ts (InMemory []))) (nth i outs [])) ->
  (forall b, In b f -> length b = length ts /\ exists n, Forall (fun p => length p = n) b) /\
  (forall i, i < length ts -> exists lost, nth i outs [] = pieces i f ++ lost) /\
  (exists i, i < length ts /\ nth i outs [] = pieces i f).
Proof.
  intros A D ts fmt f outs NJ N W L R. remember true as ok eqn:Ho. remember (Some f) as ff eqn:Hf. destruct W as [bs e Dr].
  assert (e = false /\ bs = f) as [-> ->] by (destruct fmt, e; cbn in *; try congruence; split; congruence).
  destruct (drains_prefix _ _ _ Dr) as [P1 P2]. unfold open_all in *. rewrite map_length in *.
  assert (Nn : forall i, i < length ts -> nth i (map (open_table D (1 <? length ts)) ts) (open_reader [] 0) = open_table D (1 <? length ts) (nth i ts (InMemory []))).
  { intros i Hi. rewrite nth_indep with (d' := open_table D (1 <? length ts) (InMemory [])) by (rewrite map_length; auto). apply map_nth. }
  destruct (P2 outs L) as [P3 P4]; [intros i Hi; rewrite Nn; auto|]. auto.
Qed.
Print Assumptions C183_never_misaligned.
(** in-memory tables with the same chunk sizes are written completely *)
Theorem C183_same_chunks_complete : forall (A : Type) D (cs : list (list (list A))) lens fmt prev, fmt <> Json -> cs <> [] ->
  (forall c, In c cs -> map (@length A) c = lens) ->
  exists f, write D (map InMemory cs) fmt prev true (Some f) /\
    (forall ok f', write D (map InMemory cs) fmt prev ok f' -> ok = true /\ f' = Some f) /\
    forall i, i < length cs -> pieces i f = nth i cs [].
Proof.
  intros A D cs lens fmt prev NJ N Le.
  assert (O : forall i, i < length cs -> nth i (open_all D (map InMemory cs)) (open_reader (@nil (list A)) 0) = open_reader (nth i cs []) (-1)).
  { intros i Hi. unfold open_all. rewrite map_map. rewrite nth_indep with (d' := open_reader [] (-1)) by (rewrite map_length; auto). cbn.
    exact (map_nth (fun c => open_reader c (-1)) cs [] i). }
  assert (Ll : length (open_all D (map InMemory cs)) = length cs) by (unfold open_all; now rewrite !map_length).
  destruct (drains_equal lens (open_all D (map InMemory cs)) cs) as (bs & Dr & Q).
  - intros E. rewrite E in Ll. destruct cs; [congruence|discriminate].
  - auto.
  - intros i Hi. rewrite Ll in Hi. rewrite O by auto. apply reads_native. lia.
  - intros i Hi. rewrite Ll in Hi. apply Le, nth_In. auto.
  - assert (X : forall ok f', write D (map InMemory cs) fmt prev ok f' -> ok = true /\ f' = Some bs).
    { intros ok f' W. destruct W as [bs' e Dr']. destruct (drains_det _ _ _ Dr _ _ Dr') as [<- <-]. destruct fmt; cbn; auto; congruence. }
    exists bs. split; [|split; [exact X|intros i Hi; apply Q; lia]]. pose proof (Write D (map InMemory cs) fmt prev bs false Dr) as W. destruct fmt; auto; congruence.
Qed.
Print Assumptions C183_same_chunks_complete.
(** Unequal row counts are not always detected: if the tables agree up to a chunk boundary the
    longer one is cut silently, for every such pair of tables. *)
Theorem C51_silent_truncation_refuted : forall (A : Type) D (c1 c2 extra : list (list A)) prev, same_heights c1 c2 ->
  exists f, write D [InMemory (c1 ++ extra); InMemory c2] Parquet prev true (Some f) /\ pieces 0 f = c1 /\ pieces 1 f = c2.
Proof.
  intros A D c1 c2 extra prev S.
  assert (X : exists f, drains [open_reader (c1 ++ extra) (-1); open_reader c2 (-1)] f false /\ pieces 0 f = c1 /\ pieces 1 f = c2).
  { induction S as [|x y c1 c2 E S (f & Df & P0 & P1)].
    - exists []. split; [|auto]. destruct extra as [|e extra]; eapply D_stop; cbn; reflexivity.
    - exists ([x; y] :: f). split; [|unfold pieces in *; cbn; rewrite P0, P1; auto]. eapply D_batch; [|exact Df]. cbn. rewrite E, Nat.eqb_refl. reflexivity. }
  destruct X as (f & Df & P). exists f. split; [|auto]. exact (Write D [InMemory (c1 ++ extra); InMemory c2] Parquet prev f false Df).
Qed.
Print Assumptions C51_silent_truncation_refuted.
(** tables with the same rows in different chunks are rejected *)
Theorem C51_chunking_rejected_refuted : forall (A : Type) D (x y : list A) prev ok f, y <> [] ->
  write D [InMemory [x ++ y]; InMemory [x; y]] Parquet prev ok f -> ok = false.
Proof.
  intros A D x y prev ok f N W. destruct W as [bs e Dr]. unfold open_all in Dr. cbn in Dr.
  assert (L : (length (x ++ y) =? length x) = false) by (apply Nat.eqb_neq; rewrite app_length; destruct y; [congruence|cbn; lia]).
  assert (E : next_batch [open_reader [x ++ y] (-1); open_reader [x; y] (-1)] = (MErr, [Reader [] None false (-1); Reader [y] None false (-1)])) by (cbn; rewrite L; reflexivity).
  inversion Dr; subst; try congruence. reflexivity.
Qed.
Print Assumptions C51_chunking_rejected_refuted.
(** files read in several blocks lose everything but the first block *)
Theorem C51_file_sources_refuted : forall (A : Type) D (x y : list A) prev, x <> [] -> y <> [] -> (Z.of_nat (length (x ++ y)) < D)%Z ->
  exists f, write D [FileSource [x; y]; FileSource [x; y]] Parquet prev true (Some f) /\ pieces 0 f = [x] /\ pieces 1 f = [x].
Proof.
  intros A D x y prev Nx Ny L.
  assert (R : reads (open_reader [x; y] D) [x]) by (apply reads_lossy; [cbn; rewrite app_nil_r; exact L|repeat constructor; auto]).
  destruct (drains_equal [length x] [open_reader [x; y] D; open_reader [x; y] D] [[x]; [x]]) as (f & Df & Q); [discriminate|reflexivity| | |].
  - intros [|[|i]] Hi; cbn in *; auto; lia.
  - intros [|[|i]] Hi; cbn in *; auto; lia.
  - exists f. split; [exact (Write D [FileSource [x; y]; FileSource [x; y]] Parquet prev f false Df)|]. split; [apply (Q 0)|apply (Q 1)]; cbn; lia.
Qed.
Print Assumptions C51_file_sources_refuted.
Example ex_C51 : same_heights [[1;2];[3]] [[4;5];[6]] /\ (forall c, In c [[[1;2];[3]];[[4;5];[6]]] -> map (@length nat) c = [2;1]).
Proof. split; [repeat constructor|]. intros c [<-|[<-|[]]]; reflexivity. Qed.

(** ** C57 *)
(** Parquet and CSV: a failed write leaves no file, a successful one the batches that were read *)
Theorem C57_written_completely_or_removed : forall (A : Type) D (ts : list (table A)) fmt prev ok f, fmt <> Json ->
  write D ts fmt prev ok f ->
  (ok = false -> f = None) /\ (ok = true -> exists bs, f = Some bs /\ drains (open_all D ts) bs false).
Proof. intros A D ts fmt prev ok f N W. destruct W as [bs e Dr]. destruct fmt, e; cbn; try congruence; split; intros; try discriminate; eauto. Qed.
Print Assumptions C57_written_completely_or_removed.
(** JSON: close() writes the rows read so far after the file was removed *)
Theorem C126_json_refuted : forall (A : Type) D (x y z : list A) prev, length y <> length z ->
  (forall ok f, write D [InMemory [x; y]; InMemory [x; z]] Json prev ok f -> ok = false /\ f = Some [[x; x]]) /\
  write D [InMemory [x; y]; InMemory [x; z]] Json prev false (Some [[x; x]]).
Proof.
  intros A D x y z prev N.
  assert (Df : drains [open_reader [x; y] (-1); open_reader [x; z] (-1)] [[x; x]] true).
  { eapply D_batch; [cbn; rewrite Nat.eqb_refl; reflexivity|]. eapply D_err. cbn. rewrite (proj2 (Nat.eqb_neq _ _) N). reflexivity. }
  split.
  - intros ok f W. destruct W as [bs e Dr]. destruct (drains_det _ _ _ Df _ _ Dr) as [<- <-]. auto.
  - exact (Write D [InMemory [x; y]; InMemory [x; z]] Json prev _ _ Df).
Qed.
Print Assumptions C126_json_refuted.
(** JSON: a failure before any row was read removes the old file and writes nothing *)
Theorem C126_json_early_failure : forall (A : Type) D (ts : list (table A)) prev ok f, drains (open_all D ts) [] true ->
  write D ts Json prev ok f -> ok = false /\ f = None.
Proof. intros A D ts prev ok f Df W. destruct W as [bs e Dr]. destruct (drains_det _ _ _ Df _ _ Dr) as [<- <-]. auto. Qed.
Print Assumptions C126_json_early_failure.
(** JSON: a table without rows cannot be written at all *)
Theorem C126_empty_json_refuted : forall (A : Type) D prev ok f, write D [@InMemory A []] Json prev ok f -> ok = false /\ f = prev.
Proof.
  intros A D prev ok f W. destruct W as [bs e Dr]. assert (Df : drains [open_reader (@nil (list A)) (-1)] [] false) by (eapply D_stop; reflexivity).
  destruct (drains_det _ _ _ Df _ _ Dr) as [<- <-]. auto.
Qed.
Print Assumptions C126_empty_json_refuted.
(** JSON: if all rows can be read and there is a batch, the file holds the batches that were read *)
Theorem C57_json_written : forall (A : Type) D (ts : list (table A)) prev b bs, drains (open_all D ts) (b :: bs) false ->
  write D ts Json prev true (Some (b :: bs)) /\ forall ok f, write D ts Json prev ok f -> ok = true /\ f = Some (b :: bs).
Proof.
  intros A D ts prev b bs Df. split; [exact (Write D ts Json prev _ _ Df)|].
  intros ok f W. destruct W as [bs' e Dr]. destruct (drains_det _ _ _ Df _ _ Dr) as [<- <-]. auto.
Qed.
Print Assumptions C57_json_written.
Example ex_C57 : write 1000 [InMemory [[1;2];[3]]; InMemory [[4;5];[6;7]]] Json None false (Some [[[1;2];[4;5]]]) /\
  write 1000 [InMemory [[1;2];[3]]; InMemory [[4;5];[6;7]]] Csv None false None.
Proof.
  assert (D : drains (open_all 1000 [InMemory [[1;2];[3]]; InMemory [[4;5];[6;7]]]) [[[1;2];[4;5]]] true) by (eapply D_batch; [reflexivity|]; eapply D_err; reflexivity).
  split; [exact (Write _ _ Json None _ _ D)|exact (Write _ _ Csv None _ _ D)].
Qed.
