(** C47: life cycle of non-blocking requests.  [fate evs] (RequestProofs.v) says what the
    history [evs] did to the operation; [none] is Python's None. *)
From Coq Require Import List Bool Arith Lia.
From Verif Require Import RequestModel RequestProofs.
Import ListNotations.
Local Open Scope nat_scope.

(** A history with a wait that timed out, a success, and observations around it. *)
Definition ex_evs : list (event nat) := [Status _; Start _; Wait _ true; Test _; Finish _ (inl 42); Status _; Cancel _; Test _; Wait _ false].
Example C47_history_ex : exists r, run nat 0 (new nat 0) ex_evs =
  Some (r, [OStatus _ (Ret PENDING); ONothing _; OWait _ (Raise TimedOut); OTest _ (Ret (false, 0)); ONothing _; OStatus _ (Ret COMPLETED); OCancel _ false; OTest _ (Ret (true, 42)); OWait _ (Ret 42)]) /\ ordinary ex_evs /\ fate ex_evs = FOk _ 42.
Proof. eexists. split; [vm_compute; reflexivity|]. split; [|reflexivity]. intros e H. cbn in H. repeat destruct H as [H|H]; try discriminate H; contradiction. Qed.

(** The status seen after any history is the fate of the operation. *)
Theorem C47_status : forall (V : Type) (none : V) (evs : list (event V)) (r : request V) (os : list (obs V)),
  ordinary evs -> run V none (new V none) evs = Some (r, os) -> snd (get_status V r) = Ret (expected (fate evs)).
Proof. intros V none evs r os Ho H. destruct (run_inv none evs _ r os Ho (inv_new none) H) as [I F]. rewrite (status_of none r I), F. reflexivity. Qed.
Print Assumptions C47_status.
(** It is monotone: once different from PENDING it never changes. *)
Theorem C47_monotone : forall (V : Type) (none : V) (evs evs' : list (event V)) (r r' : request V) (os os' : list (obs V)) (s : status),
  ordinary (evs ++ evs') -> run V none (new V none) evs = Some (r, os) -> run V none (new V none) (evs ++ evs') = Some (r', os') ->
  snd (get_status V r) = Ret s -> s <> PENDING -> snd (get_status V r') = Ret s.
Proof.
  intros V none evs evs' r r' os os' s Ho H H' E N. assert (ordinary evs) as Ho1 by (intros e He; apply Ho, in_app_iff; left; exact He).
  rewrite (C47_status V none evs r os Ho1 H) in E. injection E as E. rewrite (C47_status V none (evs ++ evs') r' os' Ho H'). f_equal. rewrite <- E. unfold fate in *. rewrite fate_app, fate_final; [reflexivity|]. destruct (fate_from (FPending V) evs); try reflexivity; exfalso; apply N; rewrite <- E; reflexivity.
Qed.
Print Assumptions C47_monotone.
(** wait returns the value of the operation, raises its error, or raises CancelledError; it
    raises TimeoutError only if the operation is not done and the timeout has expired --- or if
    the operation itself raised a TimeoutError (see below).  It blocks only while the operation
    is not done. *)
Theorem C47_wait : forall (V : Type) (none : V) (evs : list (event V)) (r : request V) (os : list (obs V)) (expires : bool),
  ordinary evs -> run V none (new V none) evs = Some (r, os) ->
  option_map snd (wait V expires r) =
  match fate evs with
  | FOk _ v => Some (Ret v)
  | FErr _ (ETimeout _) => Some (Raise TimedOut)
  | FErr _ e => Some (Raise (Op e))
  | FCancelled _ => Some (Raise CancelledError)
  | FPending _ | FRunning _ => if expires then Some (Raise TimedOut) else None
  end.
Proof.
  intros V none evs r os x Ho H. destruct (run_inv none evs _ r os Ho (inv_new none) H) as [I F]. change (fate_from _ evs) with (fate evs) in F. unfold wait. rewrite F.
  destruct (fate evs) as [| | |v|[n| |n|n]]; try reflexivity; destruct x; reflexivity.
Qed.
Print Assumptions C47_wait.
(** test: not yet, the value, or the error; for a cancelled request see below. *)
Theorem C47_test : forall (V : Type) (none : V) (evs : list (event V)) (r : request V) (os : list (obs V)),
  ordinary evs -> run V none (new V none) evs = Some (r, os) ->
  snd (test V none r) = match fate evs with
                        | FPending _ | FRunning _ => Ret (false, none)
                        | FOk _ v => Ret (true, v)
                        | FErr _ e => Raise (Op e)
                        | FCancelled _ => Ret (true, none)
                        end.
Proof.
  intros V none evs r os Ho H. destruct (run_inv none evs _ r os Ho (inv_new none) H) as [I F]. change (fate_from _ evs) with (fate evs) in F. unfold test. pose proof (conclude_of none r I) as C. rewrite F in *.
  destruct (fate evs) as [| | |v|e]; try reflexivity; cbn [done] in *; specialize (C eq_refl); destruct (conclude V r) as [r' [v'|x]]; cbn [snd] in *; congruence.
Qed.
Print Assumptions C47_test.
(** The result of a batch: the first error in list order, otherwise all values in order (None
    for a cancelled request); wait_any and testany answer for the first request that is done. *)
Definition value_of {V : Type} (none : V) (f : fut V) : outcome V := match f with FOk _ v => Ret v | FErr _ e => Raise (Op e) | _ => Ret none end.
Fixpoint all_values {V : Type} (none : V) (fs : list (fut V)) : outcome (list V) :=
  match fs with
  | [] => Ret []
  | f :: fs => match value_of none f with Raise x => Raise x | Ret v => match all_values none fs with Ret vs => Ret (v :: vs) | Raise x => Raise x end end
  end.
Definition reached {V : Type} (none : V) (r : request V) (evs : list (event V)) : Prop := ordinary evs /\ exists os, run V none (new V none) evs = Some (r, os).
Theorem C47_wait_all : forall (V : Type) (none : V) (rs : list (request V)) (hs : list (list (event V))) (expires : bool),
  Forall2 (reached none) rs hs ->
  wait_all V expires rs = (if forallb (fun h => done V (fate h)) hs then Some (all_values none (map fate hs)) else if expires then Some (Raise TimedOut) else None) /\
  testall V rs = (if forallb (fun h => done V (fate h)) hs then match all_values none (map fate hs) with Ret vs => Ret (true, vs) | Raise x => Raise x end else Ret (false, [])).
Proof.
  intros V none rs hs x F.
  assert (forallb (fun r => done V (r_fut _ r)) rs = forallb (fun h => done V (fate h)) hs) as D.
  { induction F as [|r h rs hs [Ho (os & H)] F IH]; [reflexivity|]. cbn. destruct (run_inv none h _ r os Ho (inv_new none) H) as [_ Fr]. rewrite Fr, IH. reflexivity. }
  unfold wait_all, testall. rewrite D. destruct (forallb (fun h => done V (fate h)) hs) eqn:A; [|split; reflexivity].
  assert (collect V rs = all_values none (map fate hs)) as ->; [|split; reflexivity].
  clear D x. induction F as [|r h rs hs [Ho (os & H)] F IH]; [reflexivity|]. cbn in A. apply andb_true_iff in A. destruct A as [A1 A2]. cbn [collect map all_values].
  destruct (run_inv none h _ r os Ho (inv_new none) H) as [I Fr]. change (fate_from _ h) with (fate h) in Fr. rewrite (conclude_of none r I) by (rewrite Fr; exact A1). rewrite Fr, (IH A2). unfold value_of. destruct (fate h); reflexivity.
Qed.
Print Assumptions C47_wait_all.
Lemma first_done_spec {V : Type} none (rs : list (request V)) hs k : Forall2 (reached none) rs hs ->
  match first_done V k rs with
  | Some (i, r) => exists j h, i = k + j /\ nth_error rs j = Some r /\ nth_error hs j = Some h /\ done V (fate h) = true /\ forall j' h', j' < j -> nth_error hs j' = Some h' -> done V (fate h') = false
  | None => forall h, In h hs -> done V (fate h) = false
  end.
Proof.
  intros F. revert k. induction F as [|r h rs hs [Ho (os & H)] F IH]; intros k; cbn; [intros h []|].
  destruct (run_inv none h _ r os Ho (inv_new none) H) as [_ Fr]. change (fate_from _ h) with (fate h) in Fr. rewrite Fr. destruct (done V (fate h)) eqn:D.
  - exists 0, h. rewrite Nat.add_0_r. repeat split; auto. intros j' h' Hj. lia.
  - specialize (IH (S k)). destruct (first_done V (S k) rs) as [[i r']|].
    + destruct IH as (j & h' & -> & A & B & C & E). exists (S j), h'. split; [lia|]. repeat split; auto. intros [|j'] h2 Hj Hh; [injection Hh as <-; exact D|]. apply (E j' h2); [lia|exact Hh].
    + intros h' [<-|Hh]; [exact D|apply IH, Hh].
Qed.
Theorem C47_wait_any : forall (V : Type) (none : V) (rs : list (request V)) (hs : list (list (event V))) (expires : bool),
  Forall2 (reached none) rs hs ->
  (exists (i : nat) (h : list (event V)), nth_error hs i = Some h /\ done V (fate h) = true /\ (forall j h', j < i -> nth_error hs j = Some h' -> done V (fate h') = false) /\
     wait_any V expires rs = Some (match value_of none (fate h) with Ret v => Ret (i, v) | Raise x => Raise x end) /\
     testany V rs = match value_of none (fate h) with Ret v => Ret (Some (i, v)) | Raise x => Raise x end) \/
  ((forall h, In h hs -> done V (fate h) = false) /\ wait_any V expires rs = (if expires then Some (Raise TimedOut) else None) /\ testany V rs = Ret None).
Proof.
  intros V none rs hs x F. pose proof (first_done_spec none rs hs 0 F) as S. unfold wait_any, testany. destruct (first_done V 0 rs) as [[i r]|] eqn:E.
  - left. destruct S as (j & h & -> & A & B & C & D). cbn [plus]. exists j, h. split; [exact B|]. split; [exact C|]. split; [exact D|].
    assert (reached none r h) as [Ho (os & H)].
    { clear -F A B. revert j A B. induction F as [|r0 h0 rs hs R F IH]; intros [|j] A B; try discriminate A; [cbn in A, B; congruence|exact (IH j A B)]. }
    destruct (run_inv none h _ r os Ho (inv_new none) H) as [I Fr]. change (fate_from _ h) with (fate h) in Fr. rewrite (conclude_of none r I) by (rewrite Fr; exact C). rewrite Fr.
    unfold value_of. destruct (fate h); split; reflexivity.
  - right. split; [exact S|]. split; reflexivity.
Qed.
Print Assumptions C47_wait_any.

(** Not what the property promises, 1: a cancelled request looks like a successful one returning
    None to test and to every batch operation. *)
Theorem C122_cancelled_refuted : forall (V : Type) (none : V), exists (rc rs : request V) (oc os : list (obs V)),
  run V none (new V none) [Cancel V] = Some (rc, oc) /\ oc = [OCancel V true] /\ run V none (new V none) [Start V; Finish V (inl none)] = Some (rs, os) /\
  snd (test V none rc) = Ret (true, none) /\ snd (test V none rs) = Ret (true, none) /\
  wait_all V false [rc] = Some (Ret [none]) /\ wait_all V false [rs] = Some (Ret [none]) /\ testany V [rc] = Ret (Some (0, none)) /\ wait_any V false [rc] = Some (Ret (0, none)).
Proof. intros V none. do 4 eexists. split; [reflexivity|]. repeat split; reflexivity. Qed.
Print Assumptions C122_cancelled_refuted.
(** 2: when the operation fails with a TimeoutError (as recv does), wait reports its own timeout,
    even without one, and not the recorded error. *)
Theorem C122_timeout_error_refuted : forall (V : Type) (none : V) (n : nat), exists (r : request V) (os : list (obs V)),
  run V none (new V none) [Start V; Finish V (inr (ETimeout n)); Status V] = Some (r, os) /\ snd (get_status V r) = Ret ERROR /\ r_error V r = Some (ETimeout n) /\
  option_map snd (wait V false r) = Some (Raise TimedOut).
Proof. intros V none n. do 2 eexists. split; [reflexivity|]. repeat split; reflexivity. Qed.
Print Assumptions C122_timeout_error_refuted.
(** 3: when the operation fails with a CancelledError, the status goes from ERROR to CANCELLED. *)
Theorem C122_monotone_refuted : forall (V : Type) (none : V), exists r : request V,
  run V none (new V none) [Start V; Finish V (inr ECancelled); Status V; Wait V false; Status V] =
  Some (r, [ONothing V; ONothing V; OStatus V (Ret ERROR); OWait V (Raise (Op ECancelled)); OStatus V (Ret CANCELLED)]).
Proof. intros V none. eexists. reflexivity. Qed.
Print Assumptions C122_monotone_refuted.

(** cancel: it answers True exactly if the operation has not started yet (a second cancel
    included); answering False it changes nothing; after True the operation never starts. *)
Theorem C47_cancel : forall (V : Type) (none : V) (evs : list (event V)) (r : request V) (os : list (obs V)),
  run V none (new V none) evs = Some (r, os) ->
  (snd (cancel V r) = true <-> ~ In (Start V) evs) /\
  (snd (cancel V r) = false -> fst (cancel V r) = r) /\
  (snd (cancel V r) = true -> forall evs' r' os', run V none (new V none) (evs ++ Cancel V :: evs') = Some (r', os') -> ~ In (Start V) evs').
Proof.
  assert (G : forall (V : Type) (none : V) evs (r0 r : request V) os, run V none r0 evs = Some (r, os) ->
    (match r_fut V r0 with FPending _ | FCancelled _ => True | _ => False end -> (match r_fut V r with FPending _ | FCancelled _ => True | _ => False end <-> ~ In (Start V) evs)) /\
    (match r_fut V r0 with FPending _ | FCancelled _ => False | _ => True end -> match r_fut V r with FPending _ | FCancelled _ => False | _ => True end) /\
    (r_fut V r0 = FCancelled V -> ~ In (Start V) evs)).
  { intros V none evs. induction evs as [|ev evs IH]; intros r0 r os H; cbn in H.
    - injection H as <- <-. split; [|split]; [intros Q; split; [intros _ []|intros _; exact Q]|auto|intros _ []].
    - destruct (step V none r0 ev) as [[r1 o]|] eqn:E; [|discriminate]. destruct (run V none r1 evs) as [[r2 os2]|] eqn:R; [|discriminate]. injection H as <- <-.
      destruct (IH _ _ _ R) as (I1 & I2 & I3). destruct r0 as [f s v e].
      assert (K : match ev with Start _ => f = FPending V /\ r_fut V r1 = FRunning V
                  | Cancel _ => match f with FPending _ | FCancelled _ => r_fut V r1 = FCancelled V | _ => r_fut V r1 = f end
                  | Finish _ _ => f = FRunning V /\ (match r_fut V r1 with FPending _ | FCancelled _ => False | _ => True end) | _ => r_fut V r1 = f end).
      { destruct ev; cbn in E.
        - destruct f; try discriminate. injection E as <- <-. auto.
        - destruct f; try discriminate. injection E as <- <-. split; [reflexivity|]. destruct o0; exact I.
        - unfold get_status in E. cbn in E. destruct s, f as [| | | |[]]; cbn in E; injection E as <- <-; reflexivity.
        - unfold wait in E. cbn in E. destruct f as [| | | |[]]; try (destruct expires); try discriminate; injection E as <- <-; reflexivity.
        - destruct (test V none _) as [r3 o3] eqn:T in E. injection E as <- <-. apply (f_equal (fun x => r_fut V (fst x))) in T. cbn in T. rewrite <- T. clear. unfold test, conclude, finalize. cbn. destruct f as [| | | |[]], s, e; reflexivity.
        - unfold cancel in E. cbn in E. destruct f; injection E as <- <-; reflexivity. }
      cbn [r_fut]. destruct ev; cbn [In].
      + destruct K as [-> K]. rewrite K in *. split; [|split]; [|intros []|discriminate]. intros _. split; [|intros N; exfalso; apply N; left; reflexivity]. specialize (I2 I). intros X; destruct (r_fut V r2); contradiction.
      + destruct K as [-> K]. split; [|split]; [intros []| |discriminate]. intros _. apply I2. destruct (r_fut V r1); tauto.
      + rewrite K in *. split; [|split]; [|exact I2|]; intros Q; [rewrite (I1 Q)|specialize (I3 Q)]; clear -I3; intuition discriminate.
      + rewrite K in *. split; [|split]; [|exact I2|]; intros Q; [rewrite (I1 Q)|specialize (I3 Q)]; clear -I3; intuition discriminate.
      + rewrite K in *. split; [|split]; [|exact I2|]; intros Q; [rewrite (I1 Q)|specialize (I3 Q)]; clear -I3; intuition discriminate.
      + split; [|split].
        * intros Q. assert (K' : r_fut V r1 = FCancelled V) by (destruct f; tauto). rewrite K' in I1. rewrite (I1 I). clear; intuition discriminate.
        * intros Q. apply I2. destruct f; try contradiction; rewrite K; exact I.
        * intros ->. specialize (I3 K). intros [X|X]; [discriminate|exact (I3 X)]. }
  intros V none evs r os H. destruct (G V none evs _ _ _ H) as (G1 & _ & _). specialize (G1 I). split; [|split].
  - rewrite <- G1. unfold cancel. destruct (r_fut V r); cbn; split; intros; try tauto; discriminate.
  - unfold cancel. destruct (r_fut V r); cbn; intros; try reflexivity; discriminate.
  - intros Hc evs' r' os' H'. assert (A : forall a b (x : request V) y o, run V none x (a ++ b) = Some (y, o) -> exists z p q, run V none x a = Some (z, p) /\ run V none z b = Some (y, q)).
    { clear. induction a as [|e a IH]; intros b x y o H; cbn in *; [eauto|]. destruct (step V none x e) as [[x1 o1]|]; [|discriminate].
      destruct (run V none x1 (a ++ b)) as [[x2 o2]|] eqn:R; [|discriminate]. injection H as <- <-. destruct (IH _ _ _ _ R) as (z & p & q & -> & Q). eauto. }
    destruct (A evs (Cancel V :: evs') _ _ _ H') as (z & p & q & Z & W). rewrite H in Z. injection Z as <- <-. cbn in W.
    destruct (cancel V r) as [r1 b] eqn:C. destruct (run V none r1 evs') as [[r2 o2]|] eqn:R; [|discriminate].
    apply (proj2 (proj2 (G V none evs' _ _ _ R))). unfold cancel in C. cbn in Hc. subst b. destruct (r_fut V r); injection C; intros; subst; try discriminate; reflexivity.
Qed.
Print Assumptions C47_cancel.
