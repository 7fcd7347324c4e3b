(** C48, C49: asynchronous jobs of a worker.  [run ... init evs] is what any interleaving [evs] of
    submissions, polls, event-loop steps and pool threads does to a fresh server; [log] is the
    sequence of answers the server has given; [accepted log] the accepted jobs with the outcomes
    their executions have. *)
From Coq Require Import List Bool Arith Lia.
From Verif Require Import JobModel JobProofs.
Import ListNotations.
Local Open Scope nat_scope.

Notation nrun := (run nat nat nat (fun r : nat => Some r) 0).
Notation ninit := (init nat nat nat).
(** two jobs; the second is refused while the first runs, accepted afterwards *)
Definition job_evs : list (event nat nat) :=
  [Submit _ _ 7 (Ok _ _ 70); Submit _ _ 8 (Err _ _ 80); Pool _ _ 0; Submit _ _ 8 (Err _ _ 80); Pool _ _ 0; Pool _ _ 0; Poll_ _ _ 7; Loop _ _; Loop _ _; Loop _ _; Submit _ _ 8 (Err _ _ 80); Pool _ _ 1; Pool _ _ 1; Pool _ _ 1; Poll_ _ _ 8; Loop _ _; Loop _ _; Loop _ _].
Example C49_history_ex : option_map (log nat nat nat) (nrun ninit job_evs) =
  Some [Accepted _ _ _ 7 (Ok _ _ 70); Conflict _ _ _ 8; Conflict _ _ _ 8; Response _ _ _ 7 SUCCESS (Some 70) None; Accepted _ _ _ 8 (Err _ _ 80); Response _ _ _ 8 FAILED None (Some 80)].
Proof. vm_compute. reflexivity. Qed.

(** At any time at most one accepted job is queued or running. *)
Theorem C49_exclusive : forall (R S E : Type) (dumps : R -> option S) (dump_error : E) (evs : list (event R E)) (sv : server R S E) (k k' : nat) (th th' : thread R E),
  (forall r, dumps r <> None) -> run R S E dumps dump_error (init R S E) evs = Some sv ->
  nth_error (threads _ _ _ sv) k = Some th -> nth_error (threads _ _ _ sv) k' = Some th' -> active (th_pc _ _ th) -> active (th_pc _ _ th') -> k = k'.
Proof. intros R S E dumps de evs sv k k' th th' Ht H. exact (i_one sv (inv1_run dumps de Ht evs _ _ (inv1_init) H) k k' th th'). Qed.
Print Assumptions C49_exclusive.
(** A submission is accepted exactly if no job is queued or running, and answered 409 otherwise. *)
Theorem C49_accepted_iff_idle : forall (R S E : Type) (dumps : R -> option S) (dump_error : E) (evs : list (event R E)) (sv sv' : server R S E) (id : nat) (o : outcome R E),
  (forall r, dumps r <> None) -> run R S E dumps dump_error (init R S E) evs = Some sv -> step R S E dumps dump_error sv (Submit _ _ id o) = Some sv' ->
  ((exists k th, nth_error (threads _ _ _ sv) k = Some th /\ active (th_pc _ _ th)) /\ log _ _ _ sv' = log _ _ _ sv ++ [Conflict _ _ _ id] /\ threads _ _ _ sv' = threads _ _ _ sv /\ heap _ _ _ sv' = heap _ _ _ sv /\ tasks _ _ _ sv' = tasks _ _ _ sv)
  \/ ((forall k th, nth_error (threads _ _ _ sv) k = Some th -> ~ active (th_pc _ _ th)) /\ log _ _ _ sv' = log _ _ _ sv ++ [Accepted _ _ _ id o] /\ threads _ _ _ sv' = threads _ _ _ sv ++ [Thread _ _ id (Queued _ _ o)]).
Proof.
  intros R S E dumps de evs sv sv' id o Ht H Hs. pose proof (inv1_run dumps de Ht evs _ _ inv1_init H) as I. cbn [step] in Hs. destruct (polling _ _ _ sv); [discriminate Hs|]. injection Hs as <-. unfold submit.
  destruct (existsb (unfinished S E) (current R S E sv)) eqn:Ex.
  - left. split; [|repeat split; reflexivity]. apply existsb_exists in Ex. destruct Ex as (t & Ht' & U). apply in_current in Ht'. destruct Ht' as (id' & i & G & N). destruct (i_unf sv I id' i t G N U) as (k & th & Hk & Ha & _). eauto.
  - right. split; [exact (proj1 (no_active sv I) Ex)|split; reflexivity].
Qed.
Print Assumptions C49_accepted_iff_idle.
Example C49_accepted_iff_idle_ex : exists sv, nrun ninit [Submit _ _ 7 (Ok _ _ 70); Pool _ _ 0] = Some sv /\ exists k th, nth_error (threads _ _ _ sv) k = Some th /\ active (th_pc _ _ th).
Proof. eexists. split; [vm_compute; reflexivity|]. exists 0. eexists. split; [reflexivity|exact I]. Qed.
(** The worker never stays busy by itself: from any state it can reach, the pool threads alone lead
    to a state in which every accepted job has finished, and the next job is accepted. *)
Theorem C49_accepts_again : forall (R S E : Type) (dumps : R -> option S) (dump_error : E) (evs : list (event R E)) (sv : server R S E) (id : nat) (o : outcome R E),
  (forall r, dumps r <> None) -> run R S E dumps dump_error (init R S E) evs = Some sv -> polling _ _ _ sv = None ->
  exists (ks : list nat) (sv' : server R S E), run R S E dumps dump_error sv (map (Pool _ _) ks ++ [Submit _ _ id o]) = Some sv' /\ log _ _ _ sv' = log _ _ _ sv ++ [Accepted _ _ _ id o] /\
    forall k th, nth_error (threads _ _ _ sv') k = Some th -> k < length (threads _ _ _ sv) -> th_pc _ _ th = Finished _ _.
Proof.
  intros R S E dumps de evs sv id o Ht H P. destruct (drain dumps de Ht _ sv (le_n _)) as (ks & s1 & S1 & T1 & G1 & P1). exists ks.
  assert (run R S E dumps de (init R S E) (evs ++ map (Pool _ _) ks) = Some s1) as H1 by (rewrite run_app, H; exact S1).
  pose proof (inv1_run dumps de Ht _ _ _ inv1_init H1) as I1. pose proof (none_left _ T1) as F.
  assert (existsb (unfinished S E) (current R S E s1) = false) as Ex by (apply (no_active s1 I1); intros k th Hk A; rewrite (F k th Hk) in A; exact A).
  eexists. split; [rewrite run_app, S1; cbn [run step]; rewrite P1, P; unfold submit; rewrite Ex; reflexivity|]. cbn [log threads]. split; [rewrite G1; reflexivity|].
  intros k th Hk Lk. assert (length (threads R S E s1) = length (threads R S E sv)) as EL.
  { clear - S1. revert sv S1. induction ks as [|k ks IH]; intros sv S1; cbn [map run] in S1; [injection S1 as <-; reflexivity|]. destruct (step R S E dumps de sv (Pool R E k)) as [s'|] eqn:Es; [|discriminate S1]. rewrite (IH s' S1). cbn [step] in Es. unfold thread_step in Es. destruct (nth_error (threads R S E sv) k) as [[i p]|]; [|discriminate Es]. destruct p as [o|[r|e]|r|e|]; [| | |destruct (dumps r)| |discriminate Es]; injection Es as <-; cbn [threads]; apply set_len. }
  rewrite nth_error_app1 in Hk by lia. exact (F k th Hk).
Qed.
Print Assumptions C49_accepts_again.
Example C49_accepts_again_ex : exists sv, nrun ninit [Submit _ _ 7 (Ok _ _ 70); Pool _ _ 0; Poll_ _ _ 7; Loop _ _; Loop _ _; Loop _ _] = Some sv /\ polling _ _ _ sv = None /\ step nat nat nat (fun r => Some r) 0 sv (Submit _ _ 8 (Ok _ _ 80)) = Some (Server _ _ _ (heap _ _ _ sv) (tasks _ _ _ sv) (threads _ _ _ sv) None (log _ _ _ sv ++ [Conflict _ _ _ 8])).
Proof. eexists. split; [vm_compute; reflexivity|]. split; reflexivity. Qed.
(** Job ids do not identify jobs: an id may be used again as soon as its job is no longer queued
    or running, while the thread of the old job has not finished yet. *)
Theorem C123_id_reuse_refuted :
  exists evs (sv : server nat nat nat), nrun ninit evs = Some sv /\ accepted (log _ _ _ sv) = [(7, Ok _ _ 70); (7, Ok _ _ 71)] /\
    nth_error (threads _ _ _ sv) 0 = Some (Thread _ _ 7 (Serializing _ _ 70)) /\ nth_error (threads _ _ _ sv) 1 = Some (Thread _ _ 7 (Queued _ _ (Ok _ _ 71))).
Proof. exists [Submit _ _ 7 (Ok _ _ 70); Pool _ _ 0; Pool _ _ 0; Submit _ _ 7 (Ok _ _ 71)]. eexists. split; [vm_compute; reflexivity|]. repeat split; reflexivity. Qed.
Print Assumptions C123_id_reuse_refuted.

(** A poll may answer SUCCESS without a result although the job has one: the status is stored
    before the result. *)
Theorem C149_race_refuted :
  exists evs (sv : server nat nat nat), nrun ninit evs = Some sv /\ log _ _ _ sv = [Accepted _ _ _ 7 (Ok _ _ 70); Response _ _ _ 7 SUCCESS None None].
Proof. exists [Submit _ _ 7 (Ok _ _ 70); Pool _ _ 0; Pool _ _ 0; Poll_ _ _ 7; Loop _ _; Loop _ _; Loop _ _]. eexists. split; vm_compute; reflexivity. Qed.
Print Assumptions C149_race_refuted.
(** It may even answer RUNNING together with a result, or FAILED without an error. *)
Theorem C149_mixed_response_refuted :
  exists evs (sv : server nat nat nat), nrun ninit evs = Some sv /\ log _ _ _ sv = [Accepted _ _ _ 7 (Ok _ _ 70); Response _ _ _ 7 RUNNING (Some 70) None; Accepted _ _ _ 8 (Err _ _ 80); Response _ _ _ 8 FAILED None None].
Proof. exists [Submit _ _ 7 (Ok _ _ 70); Pool _ _ 0; Poll_ _ _ 7; Loop _ _; Pool _ _ 0; Loop _ _; Pool _ _ 0; Loop _ _; Submit _ _ 8 (Err _ _ 80); Pool _ _ 1; Pool _ _ 1; Poll_ _ _ 8; Loop _ _; Loop _ _; Loop _ _]. eexists. split; vm_compute; reflexivity. Qed.
Print Assumptions C149_mixed_response_refuted.
(** If an id is used again, a poll may answer with the old job's result for the new job. *)
Theorem C149_stale_result_refuted :
  exists evs (sv : server nat nat nat), nrun ninit evs = Some sv /\ log _ _ _ sv = [Accepted _ _ _ 7 (Ok _ _ 70); Accepted _ _ _ 7 (Ok _ _ 71); Response _ _ _ 7 SUCCESS (Some 70) None].
Proof. exists [Submit _ _ 7 (Ok _ _ 70); Pool _ _ 0; Pool _ _ 0; Submit _ _ 7 (Ok _ _ 71); Pool _ _ 0; Pool _ _ 1; Pool _ _ 1; Poll_ _ _ 7; Loop _ _; Loop _ _; Loop _ _]. eexists. split; vm_compute; reflexivity. Qed.
Print Assumptions C149_stale_result_refuted.
(** What holds: if ids are not reused, no answer says anything false about the job it is about
    (status SUCCESS and a result only for a job that returned, with its result; FAILED and an
    error only for one that raised, with its error). *)
Theorem C48_truthful : forall (R S E : Type) (dumps : R -> option S) (dump_error : E) (evs : list (event R E)) (sv : server R S E) (id : nat) (s : status) (res : option S) (err : option E),
  (forall r, dumps r <> None) -> run R S E dumps dump_error (init R S E) evs = Some sv -> NoDup (map fst (accepted (log _ _ _ sv))) ->
  In (Response _ _ _ id s res err) (log _ _ _ sv) -> exists o, In (id, o) (accepted (log _ _ _ sv)) /\ truthful dumps o s res err.
Proof. intros R S E dumps de evs sv id s res err Ht H ND. exact (j_log dumps sv (inv2_run dumps de Ht evs _ _ (inv2_init dumps) H ND) id s res err). Qed.
Print Assumptions C48_truthful.
Example C48_truthful_ex : exists sv, nrun ninit job_evs = Some sv /\ NoDup (map fst (accepted (log _ _ _ sv))) /\ In (Response _ _ _ 7 SUCCESS (Some 70) None) (log _ _ _ sv).
Proof. eexists. split; [vm_compute; reflexivity|]. cbn. split; [|right; right; right; left; reflexivity]. repeat constructor; cbn; intros H; repeat destruct H as [H|H]; try discriminate H; contradiction. Qed.
(** Once the thread of a job has finished, a poll answers with its final status and its result or
    error; this is so whatever else happens to other jobs. *)
Theorem C48_finished : forall (R S E : Type) (dumps : R -> option S) (dump_error : E) (evs : list (event R E)) (sv : server R S E) (id : nat) (o : outcome R E),
  (forall r, dumps r <> None) -> run R S E dumps dump_error (init R S E) evs = Some sv -> NoDup (map fst (accepted (log _ _ _ sv))) ->
  In (id, o) (accepted (log _ _ _ sv)) -> polling _ _ _ sv = None -> (forall k p, nth_error (threads _ _ _ sv) k = Some (Thread _ _ id p) -> p = Finished _ _) ->
  exists sv', run R S E dumps dump_error sv [Poll_ _ _ id; Loop _ _; Loop _ _; Loop _ _] = Some sv' /\
    log _ _ _ sv' = log _ _ _ sv ++ [match o with Ok _ _ r => Response _ _ _ id SUCCESS (dumps r) None | Err _ _ e => Response _ _ _ id FAILED None (Some e) end].
Proof. intros R S E dumps de evs sv id o Ht H ND. exact (final_poll dumps de sv id o (inv2_run dumps de Ht evs _ _ (inv2_init dumps) H ND)). Qed.
Print Assumptions C48_finished.
Example C48_finished_ex : exists sv, nrun ninit job_evs = Some sv /\ In (8, Err _ _ 80) (accepted (log _ _ _ sv)) /\ polling _ _ _ sv = None /\ (forall k p, nth_error (threads _ _ _ sv) k = Some (Thread _ _ 8 p) -> p = Finished _ _).
Proof.
  eexists. split; [vm_compute; reflexivity|]. cbn. split; [right; left; reflexivity|]. split; [reflexivity|].
  intros [|[|[|k]]] p H; cbn in H; [discriminate H|injection H as <-; reflexivity|discriminate H|discriminate H].
Qed.
