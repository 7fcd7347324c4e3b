(** Properties C204, C205, C206: a whole program run by all workers at once. *)
From stdpp Require Import gmap.
From Coq Require Import List Bool Arith Lia.
From Verif Require Import NetSpec NetModel NetProofs CollModel CollProofs FaultModel FaultProofs SpmdModel SpmdSpec SpmdProofs.
From Verif Require SimpModel SimpSpec SimpProofs SimpProofs2 SimpProps.
Import ListNotations.
Local Open Scope nat_scope.

(** every party r below n runs its own copy of the program on its own local values *)
Definition workers {VT V : Type} (truthy : V -> bool) (n fuel : nat) (g : SimpModel.region VT V) (env : list (nat -> option V)) :=
  group (M := val (option V)) (X := cexn) (seq 0 n) (fun r => wregion truthy n fuel r g (at_party r env)).

(* ================================================================ C204 *)

(** Whatever the order in which the workers proceed and the messages arrive, every execution of a
    program is finite and ends with every party holding its local values of what the program
    means, no message left over; sequence numbers agree again, so that programs can follow each
    other. *)
Theorem C204_workers : forall (VT V : Type) (truthy : V -> bool) (n : nat) (g : SimpModel.region VT V) (env vs : list (nat -> option V)),
  means truthy n g env (Done vs) ->
  exists bound, forall fuel c, bound <= fuel -> matched c ->
  exists c', matched c' /\
    every_schedule_ends_in net_step (start (workers truthy n fuel g env) c)
      (start (group (seq 0 n) (fun r => NetSpec.Ret (Some (at_party r vs)))) c').
Proof.
  intros VT V truthy n g env vs H. destruct (workers_follow_meaning (VT := VT) truthy n) as [W _]. destruct (W _ _ _ H) as [k0 R].
  exists k0. intros fuel c L HM. apply (runs_ends (seq 0 n) _ _ c (R fuel L)); [intros; exact I|exact HM].
Qed.
Print Assumptions C204_workers.

(** When the parties do not agree on a predicate, every execution is finite and ends with the
    error at every party. *)
Theorem C204_disagreement : forall (VT V : Type) (truthy : V -> bool) (n : nat) (g : SimpModel.region VT V) (env : list (nat -> option V)),
  means truthy n g env NotUniform ->
  exists bound, forall fuel c, bound <= fuel -> matched c ->
  exists c', matched c' /\
    every_schedule_ends_in net_step (start (workers truthy n fuel g env) c)
      (start (group (seq 0 n) (fun r => Throw CollModel.NotUniform)) c').
Proof.
  intros VT V truthy n g env H. destruct (workers_follow_meaning (VT := VT) truthy n) as [W _]. destruct (W _ _ _ H) as [k0 R].
  exists k0. intros fuel c L HM. apply (runs_ends (seq 0 n) _ _ c (R fuel L)); [intros; exact I|exact HM].
Qed.
Print Assumptions C204_disagreement.

(** A program has one outcome. *)
Lemma ends_unique {S : Type} (R : relation S) s f g : every_schedule_ends_in R s f -> every_schedule_ends_in R s g -> f = g.
Proof.
  intros [Nf [m Hf]] [Ng [k Hg]]. destruct (Hf 0 s (nsteps_O _ _)) as [_ Rf]. apply rtc_nsteps in Rf. destruct Rf as [j Rf].
  destruct (Hg j f Rf) as [_ Rg]. inversion Rg as [|x y z X]; [reflexivity|]. exfalso. apply Nf. exists y. exact X.
Qed.
Theorem C204_one_outcome : forall (VT V : Type) (truthy : V -> bool) (n : nat) (g : SimpModel.region VT V) (env : list (nat -> option V)) (a b : outcome (list (nat -> option V))),
  0 < n -> means truthy n g env a -> means truthy n g env b ->
  match a, b with
  | Done vs, Done ws => forall r, r < n -> at_party r vs = at_party r ws
  | NotUniform, NotUniform => True
  | _, _ => False
  end.
Proof.
  intros VT V truthy n g env a b Hn Ha Hb.
  assert (exists q q', group (X := cexn) (M := val (option V)) (seq 0 n) (result a) = q /\ group (seq 0 n) (result b) = q' /\ q = q') as (q & q' & Q1 & Q2 & E).
  { destruct (workers_follow_meaning (VT := VT) truthy n) as [W _]. destruct (W _ _ _ Ha) as [k1 R1]. destruct (W _ _ _ Hb) as [k2 R2].
    assert (matched ∅) as HM by (intros x y; reflexivity).
    assert (forall o (r : nat), In r (seq 0 n) -> finished (M := val (option V)) (X := cexn) (result (V := V) o r)) as F by (intros [vs|] r _; exact I).
    destruct (runs_ends (seq 0 n) _ _ ∅ (R1 (max k1 k2) ltac:(lia)) (F a) HM) as (c1 & _ & E1).
    destruct (runs_ends (seq 0 n) _ _ ∅ (R2 (max k1 k2) ltac:(lia)) (F b) HM) as (c2 & _ & E2).
    pose proof (ends_unique _ _ _ _ E1 E2) as E. injection E as E _. eauto. }
  subst q. subst q'. assert (forall r, r < n -> result a r = result b r) as P.
  { intros r Hr. assert (In r (seq 0 n)) as I by (apply in_seq; lia). pose proof (f_equal (fun m => m !! r) E) as L. cbn beta in L. rewrite !group_in in L by exact I. injection L as L. exact L. }
  destruct a as [vs|], b as [ws|]; [|specialize (P 0 Hn); discriminate P|specialize (P 0 Hn); discriminate P|exact I].
  intros r Hr. specialize (P r Hr). injection P as P. exact P.
Qed.
Print Assumptions C204_one_outcome.

(** In a program that traces, no party is left with a value its static type gives to others only. *)
Theorem C204_confined : forall (VT V : Type) (vt_eqb : VT -> VT -> bool) (truthy : V -> bool) (n : nat)
    (g : SimpModel.region VT V) (ts tso : list (SimpModel.mptype VT)) (env vs : list (nat -> option V)),
  0 < n -> means truthy n g env (Done vs) ->
  SimpModel.type_region VT V vt_eqb g ts = Some tso ->
  SimpSpec.env_is (SimpSpec.confined (VT := VT)) n (fun _ => true) ts env ->
  exists bound, forall fuel c, bound <= fuel -> matched c ->
  exists c' (out : nat -> list (option V)),
    every_schedule_ends_in net_step (start (workers truthy n fuel g env) c)
      (start (group (seq 0 n) (fun r => NetSpec.Ret (Some (out r)))) c') /\
    forall r i t P, r < n -> nth_error tso i = Some t -> SimpModel.parties _ t = Some P -> ~ In r P ->
      nth_error (out r) i = Some None.
Proof.
  intros VT V e truthy n g ts tso env vs Hn H T E. destruct (joint_run_follows_meaning (VT := VT) truthy n Hn) as [J _]. destruct (J _ _ _ H vs eq_refl) as [k1 J1].
  destruct (J1 k1 (fun _ => true) env (le_n _) (fun _ _ => eq_refl) (same_refl n env)) as (vs' & R & Sm).
  pose proof (SimpProps.C38_confined VT V e truthy n k1 g ts tso env vs' E T R) as CF.
  destruct (C204_workers VT V truthy n g env vs H) as [k2 K]. exists k2. intros fuel c L HM. destruct (K fuel c L HM) as (c' & _ & Ends).
  exists c', (fun r => at_party r vs). split; [exact Ends|]. intros r i t P Hr Ht HP NI.
  clear - CF Sm Hr Ht HP NI. unfold SimpSpec.env_is in CF. revert i vs Sm Ht. induction CF as [|t0 v0 tso vs' C0 CF IH]; intros [|i] vs Sm Ht; try discriminate Ht; inversion Sm as [|w ? ws ? E1 E2]; subst.
  - injection Ht as ->. cbn. f_equal. rewrite (E1 r Hr). apply (C0 r Hr eq_refl P HP NI).
  - cbn. apply (IH i ws E2 Ht).
Qed.
Print Assumptions C204_confined.

(** Every loop-free program that traces and whose shuffles are without mutual exchange ends, in
    every schedule: either all parties return, with as many values as the program has results, or
    all parties raise the disagreement on a predicate.  In particular it never deadlocks. *)
Theorem C204_loop_free_ends : forall (VT V : Type) (vt_eqb : VT -> VT -> bool) (truthy : V -> bool) (n : nat)
    (g : SimpModel.region VT V) (ts tso : list (SimpModel.mptype VT)) (env : list (nat -> option V)),
  SimpModel.type_region VT V vt_eqb g ts = Some tso -> loop_free n g -> length env = length ts ->
  exists bound, forall fuel c, bound <= fuel -> matched c ->
  exists c' (final : nat -> prog (val (option V)) cexn (option (list (option V)))),
    every_schedule_ends_in net_step (start (workers truthy n fuel g env) c) (start (group (seq 0 n) final) c') /\
    ((exists out, forall r, final r = NetSpec.Ret (Some (out r)) /\ length (out r) = length tso) \/
     (forall r, final r = Throw CollModel.NotUniform)).
Proof.
  intros VT V e truthy n g ts tso env T LF L. destruct (loop_free_outcome (VT := VT) (V := V) e truthy n) as [O _]. destruct (O g ts tso env LF T L) as ([vs|] & M & K).
  - destruct (C204_workers VT V truthy n g env vs M) as [b H]. exists b. intros fuel c Lb HM. destruct (H fuel c Lb HM) as (c' & _ & E). exists c'. eexists. split; [exact E|]. left.
    exists (fun r => at_party r vs). intros r. split; [reflexivity|]. unfold at_party. rewrite map_length. apply K. reflexivity.
  - destruct (C204_disagreement VT V truthy n g env M) as [b H]. exists b. intros fuel c Lb HM. destruct (H fuel c Lb HM) as (c' & _ & E). exists c'. eexists. split; [exact E|]. right. reflexivity.
Qed.
Print Assumptions C204_loop_free_ends.
Example C204_loop_free_ex :
  loop_free 2 (SimpModel.Let _ _ (SimpModel.Shuffle nat nat 0 [(1, 0)]) (SimpModel.Let _ _ (SimpModel.UniformCond _ _ 0 [1] (SimpModel.Ret _ _ [0]) (SimpModel.Ret _ _ [0])) (SimpModel.Ret _ _ [2]))) /\
  SimpModel.type_region nat nat Nat.eqb (SimpModel.Let _ _ (SimpModel.Shuffle _ _ 0 [(1, 0)]) (SimpModel.Let _ _ (SimpModel.UniformCond _ _ 0 [1] (SimpModel.Ret _ _ [0]) (SimpModel.Ret _ _ [0])) (SimpModel.Ret _ _ [2]))) [SimpModel.MP _ 7 (Some [0])] = Some [SimpModel.MP _ 7 (Some [1])].
Proof.
  split; [|reflexivity]. repeat split.
  - repeat constructor; cbn; tauto.
  - intros; cbn in *; destruct H as [H|[]]; injection H; lia.
  - intros; cbn in *; destruct H as [H|[]]; injection H; lia.
  - intros a b N [H|[]] [G|[]]. congruence.
Qed.

(** A program of three parties: the values travel round a cycle, the branch is chosen together,
    a loop counts down to zero. *)
Definition cycle : list (nat * nat) := [(0, 1); (1, 2); (2, 0)].
Definition prog204 : SimpModel.region nat nat :=
  SimpModel.Let _ _ (SimpModel.Shuffle _ _ 0 cycle)
  (SimpModel.Let _ _ (SimpModel.UniformCond _ _ 1 [2] (SimpModel.Ret _ _ [0]) (SimpModel.Ret _ _ [0]))
  (SimpModel.Let _ _ (SimpModel.WhileLoop _ _ [1] [] None (SimpModel.Ret _ _ [0]) (SimpModel.Let _ _ (SimpModel.PCallStatic _ _ [0; 1; 2] [0] (SimpProps.tot pred)) (SimpModel.Ret _ _ [1])))
  (SimpModel.Ret _ _ [3; 4]))).
Ltac picks := repeat constructor.
Example C204_ex : exists vs, means SimpProps.nz 3 prog204 [fun r => Some (10 * r); fun _ => Some 1] (Done vs) /\
  map (fun r => at_party r vs) [0; 1; 2] = [[Some 10; Some 0]; [Some 20; Some 0]; [Some 0; Some 0]].
Proof.
  eexists. split.
  - eapply m_let.
    { apply (m_shuffle _ _ _ _ _ (fun r => Some (10 * r)) (fun r => match r with 0 => Some 10 | 1 => Some 20 | 2 => Some 0 | _ => None end)); [reflexivity| | |].
      - split; [repeat constructor; cbn; intuition discriminate|]. split; [|]; unfold cycle; cbn; intros; intuition (try congruence); repeat match goal with H : (_, _) = _ |- _ => injection H as <- <- end; try lia.
      - cbn. intros t s [H|[H|[H|[]]]]; injection H as <- <-; reflexivity.
      - cbn. intros [|[|[|t]]] H; try reflexivity; exfalso; apply H; auto. }
    eapply m_let.
    { eapply m_cond_true; [reflexivity|picks| |apply m_ret; picks]. intros r _. exists 1. split; reflexivity. }
    eapply m_let.
    { eapply m_while; [picks|picks|]. eapply m_turn; [apply m_ret; picks| | | |].
      - intros r _. exists 1. split; reflexivity.
      - eapply m_let; [apply m_pcall_static; picks|]. apply m_ret. picks.
      - reflexivity.
      - eapply m_leave; [apply m_ret; picks|]. intros r Hr [x [E T]]. cbn in E. destruct r as [|[|[|r]]]; cbn in E; try lia; injection E as <-; discriminate T. }
    apply m_ret. picks.
  - reflexivity.
Qed.
Example C204_confined_ex : option_map (map (SimpModel.parties nat)) (SimpModel.type_region nat nat Nat.eqb
  (SimpModel.Let _ _ (SimpModel.Shuffle _ _ 0 [(1, 0)]) (SimpModel.Ret _ _ [1])) [SimpModel.MP _ 7 (Some [0])]) = Some [Some [1]].
Proof. reflexivity. Qed.

(* ================================================================ C205 *)

(** Two parties leave a loop after different numbers of turns; nothing checks that.  A message of
    the last turn of party 1 stays in the mailbox of party 0, and the shuffle after the loop hands
    it to party 0 instead of the value it is asked to deliver (77): in every schedule, without an
    error. *)
Definition prog205 : SimpModel.region nat nat :=
  SimpModel.Let _ _ (SimpModel.WhileLoop _ _ [0] [1] None (SimpModel.Ret _ _ [0])
     (SimpModel.Let _ _ (SimpModel.Shuffle _ _ 1 [(0, 1)])
     (SimpModel.Let _ _ (SimpModel.PCallStatic _ _ [0; 1] [0] (SimpProps.tot pred)) (SimpModel.Ret _ _ [3]))))
  (SimpModel.Let _ _ (SimpModel.Shuffle _ _ 2 [(0, 1)]) (SimpModel.Ret _ _ [4])).
Definition env205 : list (nat -> option nat) := [fun r => Some (S r); fun _ => Some 5; fun _ => Some 77].
Lemma nf_finished {M X A} (P : gmap nat (prog M X A)) c I B o : (forall r p, P !! r = Some p -> finished p) -> (forall k, I !! k = None) -> nf net_step (Net P c I B o).
Proof.
  intros F E [t Ht]. inversion Ht; subst; repeat match goal with
    | G : P !! _ = Some _ |- _ => apply F in G; exact G
    | G : I !! _ = Some _ |- _ => rewrite E in G; discriminate G
    end.
Qed.
Ltac send1 r := eapply rtc_l; [eapply (net_send _ _ _ _ _ r); vm_compute; reflexivity|].
Ltac arrive k := eapply rtc_l; [eapply (net_deliver _ _ _ _ _ k); vm_compute; reflexivity|].
Ltac recv1 r := eapply rtc_l; [eapply (net_recv _ _ _ _ _ r); vm_compute; reflexivity|].
Theorem C205_stale_message_refuted : exists final : net (val (option nat)) cexn (option (list (option nat))),
  every_schedule_ends_in net_step (start (workers SimpProps.nz 2 5 prog205 env205) ∅) final /\
  parties final !! 0 = Some (NetSpec.Ret (Some [Some 5])) /\ parties final !! 1 = Some (NetSpec.Ret (Some [None])) /\
  mbox final !! (1, 0, 2) = Some (VObj (Some 77)).
Proof.
  eexists. split.
  - apply net_determinate; [apply wf_start| |].
    + unfold start. send1 1. send1 1. send1 1. arrive (1, 0, 0). arrive (1, 0, 1). arrive (1, 0, 2). recv1 0. recv1 0. apply rtc_refl.
    + apply nf_finished.
      * intros r p H. unfold workers, group in H. cbn [seq map list_to_map fst snd foldr uncurry] in H.
        repeat (apply lookup_insert_Some in H; destruct H as [[? ?]|[? H]]; [subst; first [exact I | congruence]|]). cbn in H.
        repeat (apply lookup_insert_Some in H; destruct H as [[? ?]|[? H]]; [subst; first [exact I | congruence]|]). rewrite lookup_empty in H. discriminate H.
      * intros k. destruct (_ !! k) eqn:E; [|reflexivity]. exfalso.
        repeat first [apply lookup_delete_Some in E; destruct E as [? E] | apply lookup_insert_Some in E; destruct E as [[? ?]|[? E]]; [subst; match goal with N : _ <> _ |- _ => apply N; vm_compute; reflexivity end|]].
        rewrite lookup_empty in E. discriminate E.
  - split; [|split]; vm_compute; reflexivity.
Qed.
Print Assumptions C205_stale_message_refuted.

(* ================================================================ C206 *)

(** Parties die at any points (a process is killed, a local function raises, a receive times out)
    and messages get lost: a party that returns all the same returns its values of what the
    program means. *)
Theorem C206_survivors_are_right : forall (VT V : Type) (truthy : V -> bool) (n : nat) (g : SimpModel.region VT V) (env vs : list (nat -> option V)),
  means truthy n g env (Done vs) ->
  exists bound, forall fuel c state r out, bound <= fuel -> matched c -> r < n ->
  rtc faulty_step (start (workers truthy n fuel g env) c) state ->
  parties state !! r = Some (NetSpec.Ret (Some out)) -> out = at_party r vs.
Proof.
  intros VT V truthy n g env vs H. destruct (C204_workers VT V truthy n g env vs H) as [b K]. exists b. intros fuel c s r out L HM Hr S R.
  destruct (K fuel c L HM) as (c' & _ & E). pose proof (returned_despite_faults _ _ _ _ _ _ E S R) as F. unfold start in F. cbn in F.
  rewrite group_in in F by (apply in_seq; lia). injection F as F. symmetry. exact F.
Qed.
Print Assumptions C206_survivors_are_right.

(** When the parties disagree on a predicate, faults make no party return a value. *)
Theorem C206_disagreement_stays : forall (VT V : Type) (truthy : V -> bool) (n : nat) (g : SimpModel.region VT V) (env : list (nat -> option V)),
  means truthy n g env NotUniform ->
  exists bound, forall fuel c state r o, bound <= fuel -> matched c -> r < n ->
  rtc faulty_step (start (workers truthy n fuel g env) c) state ->
  parties state !! r <> Some (NetSpec.Ret o).
Proof.
  intros VT V truthy n g env H. destruct (C204_disagreement VT V truthy n g env H) as [b K]. exists b. intros fuel c s r out L HM Hr S R.
  destruct (K fuel c L HM) as (c' & _ & E). pose proof (returned_despite_faults _ _ _ _ _ _ E S R) as F. unfold start in F. cbn in F.
  rewrite group_in in F by (apply in_seq; lia). discriminate F.
Qed.
Print Assumptions C206_disagreement_stays.

(** Party 0 sends to party 1 and dies; party 1 still returns the right value. *)
Example C206_ex : exists vs state, means SimpProps.nz 2 (SimpModel.Let nat nat (SimpModel.Shuffle _ _ 0 [(1, 0)]) (SimpModel.Ret _ _ [1])) [fun r => Some (7 + r)] (Done vs) /\
  rtc faulty_step (start (workers SimpProps.nz 2 0 (SimpModel.Let nat nat (SimpModel.Shuffle _ _ 0 [(1, 0)]) (SimpModel.Ret _ _ [1])) [fun r => Some (7 + r)]) ∅) state /\
  parties state !! 0 = Some (Throw NotAList) /\ parties state !! 1 = Some (NetSpec.Ret (Some [Some 7])).
Proof.
  eexists. eexists. split; [|split].
  - eapply m_let.
    { apply (m_shuffle _ _ _ _ _ (fun r => Some (7 + r)) (fun r => match r with 1 => Some 7 | _ => None end)); [reflexivity| | |].
    + split; [repeat constructor; cbn; tauto|]. split.
      * intros t s [H|[]]. injection H as <- <-. lia.
      * intros a b N H G. destruct H as [H|[]]. destruct G as [G|[]]. congruence.
    + intros t s [H|[]]. injection H as <- <-. reflexivity.
    + intros [|[|t]] H; try reflexivity. exfalso. apply H. left. reflexivity. }
    apply m_ret. picks.
  - unfold start. eapply rtc_l; [apply f_step; eapply (net_send _ _ _ _ _ 0); vm_compute; reflexivity|].
    eapply rtc_l; [eapply (f_dies _ _ _ _ _ 0 _ NotAList); vm_compute; reflexivity|].
    eapply rtc_l; [apply f_step; eapply (net_deliver _ _ _ _ _ (0, 1, 0)); vm_compute; reflexivity|].
    eapply rtc_l; [apply f_step; eapply (net_recv _ _ _ _ _ 1); vm_compute; reflexivity|]. apply rtc_refl.
  - split; vm_compute; reflexivity.
Qed.
