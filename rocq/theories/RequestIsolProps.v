(** C104: a request is not disturbed by other requests. *)
From Coq Require Import String.
From Coq Require Import List Arith Bool Lia.
From Verif Require Import RequestIsolModel RequestIsolSpec RequestIsolProofs.
Import ListNotations.
Local Open Scope nat_scope.

(** Whatever happens (failures, losses, late and reordered deliveries, timeouts, any
    number of concurrent requests): if the requests have different job ids, a
    request receives only its own messages. *)
Theorem C104_isolated_by_job_id : forall V (reqs : nat -> request V) h c,
  (forall i, exists id, job_id (reqs i) = Some id /\ id <> ""%string) ->
  (forall i j, job_id (reqs i) = job_id (reqs j) -> i = j) ->
  runs reqs h c -> isolated h /\ genuine h.
Proof.
  intros V reqs h c Hn Hu R.
  assert (Hid : forall i j, context (reqs i) = context (reqs j) -> i = j).
  { intros i j E. destruct (Hn i) as [a [Ea Na]], (Hn j) as [b [Eb Nb]]. apply Hu. unfold context in E. rewrite Ea, Eb in *.
    apply String.eqb_neq in Na, Nb. rewrite Na, Nb in E. rewrite E. reflexivity. }
  split; [eapply runs_isolated_by_id; eauto | eapply runs_honest; eauto].
Qed.
Print Assumptions C104_isolated_by_job_id.

(** Without job ids (what the driver does): if requests are posted one at a time and
    none leaves an unread message behind, a request receives only its own messages. *)
Theorem C104_isolated_when_clean : forall V (reqs : nat -> request V) h c,
  runs reqs h c -> one_at_a_time h -> clean h -> isolated h /\ genuine h.
Proof.
  intros V reqs h c R O C. split; [eapply (runs_owner reqs); eauto | eapply runs_honest; eauto].
Qed.
Print Assumptions C104_isolated_when_clean.

(** ** Executions *)
Lemma runs_app : forall V (reqs : nat -> request V) h c e c',
  runs reqs h c -> step reqs c e c' -> (forall i r, e = Started i r -> ~ In (Started i r) h) ->
  runs reqs (h ++ [e]) c'.
Proof. intros; eapply runs_snoc; eauto. Qed.

Lemma one_snoc : forall V (h : list (event V)) e, one_at_a_time h ->
  (forall i r, e = Started i r -> forall j, j <> i -> over h j) -> one_at_a_time (h ++ [e]).
Proof.
  intros V h e O He h1 i r h2 E j Hj.
  destruct h2 as [|x h2] using rev_ind.
  - apply app_inj_tail in E. destruct E as [-> ->]. eapply He; eauto.
  - rewrite app_comm_cons, app_assoc in E. apply app_inj_tail in E. destruct E as [-> _].
    eapply O; eauto.
Qed.

Lemma over_mono : forall V (h h' : list (event V)) j,
  over h j -> (forall r, ~ In (Started j r) h') -> over (h ++ h') j.
Proof.
  intros V h h' j H N r Hr. apply in_app_iff in Hr. destruct Hr as [Hr|Hr]; [|contradiction (N r Hr)].
  destruct (H r Hr) as [res Hres]. exists res. apply in_app_iff; auto.
Qed.

Section Stale.
Context {V : Type} (vs : nat -> V).
(** request 0 fails at rank 1; requests 1, 2, ... are shuffles of [vs 1], [vs 2], ... *)
Definition requests (i : nat) : request V :=
  if i =? 0 then fails_at_1 (vs 0) else shuffle_0_to_1 (vs i).

Definition segment (k : nat) : list (event V) :=
  [Started k 0; Started k 1; Got k 1 0 (vs (k - 1)) (k - 1); Sent k 0 1 (vs k); Stored;
   Ended k 0 (Some (vs k)); Ended k 1 (Some (vs (k - 1)))].
Definition segment0 : list (event V) :=
  [Started 0 0; Started 0 1; Sent 0 0 1 (vs 0); Stored; Ended 0 0 (Some (vs 0)); Ended 0 1 None].
Fixpoint story (n : nat) : list (event V) :=
  match n with O => segment0 | S n' => story n' ++ segment (S n') end.
Definition left_over (n : nat) : packet V := Pk 0 1 ("anonymous"%string, 0) (vs n) n.

Lemma story_started : forall n i r, In (Started i r) (story n) -> i <= n /\ r < 2.
Proof.
  induction n as [|n IH]; intros i r H.
  - simpl in H. repeat (destruct H as [H|H]; [try discriminate; injection H; intros; subst; lia|]). contradiction.
  - cbn [story] in H. apply in_app_iff in H. destruct H as [H|H]; [apply IH in H; lia|].
    unfold segment in H. cbn [In] in H.
    repeat (destruct H as [H|H]; [try discriminate; injection H; intros; subst; lia|]). contradiction.
Qed.
Lemma story_over : forall n j, over (story n) j.
Proof.
  induction n as [|n IH]; intros j r H.
  - assert (j = 0) by (apply story_started in H; lia). assert (r < 2) by (apply story_started in H; lia). subst.
    destruct r as [|[|r]]; [exists (Some (vs 0)) | exists None | lia]; simpl; tauto.
  - cbn [story] in *. apply in_app_iff in H. destruct H as [H|H].
    + destruct (IH j r H) as [res Hr]. exists res. apply in_app_iff; auto.
    + unfold segment in H. cbn [In] in H.
      destruct H as [H|[H|H]];
        [ injection H as <- <-; exists (Some (vs (S n))); apply in_app_iff; right; simpl; tauto
        | injection H as <- <-; exists (Some (vs (S n - 1))); apply in_app_iff; right; unfold segment; cbn [In]; tauto |].
      repeat (destruct H as [H|H]; [discriminate|]). contradiction.
Qed.

Ltac fin := intros ? ? HE; inversion HE; subst; intros HI;
  repeat (rewrite in_app_iff in HI; cbn [In] in HI);
  repeat (destruct HI as [HI|HI]; try discriminate); try contradiction; auto;
  try (apply story_started in HI; lia).
Lemma app7 : forall A (h : list A) a b c d e f g, h ++ [a; b; c; d; e; f; g] =
  ((((((h ++ [a]) ++ [b]) ++ [c]) ++ [d]) ++ [e]) ++ [f]) ++ [g].
Proof. intros. rewrite <- !app_assoc. reflexivity. Qed.

Lemma story_runs : forall n, runs requests (story n) (Cl [] [left_over n] []).
Proof.
  induction n as [|n IH].
  - cbn [story]. change segment0 with ((((((([] ++ [Started 0 0]) ++ [Started 0 1]) ++ [Sent 0 0 1 (vs 0)]) ++ [Stored])
      ++ [Ended 0 0 (Some (vs 0))]) ++ [Ended 0 1 None])).
    eapply runs_app with (c := Cl [] [left_over 0] [Tk 0 1 (fun _ => 0) Raise]).
    2:{ apply (s_raise requests [] _ [] [] 0 1). }
    2:{ discriminate. }
    eapply runs_app with (c := Cl [] [left_over 0] [Tk 0 1 (fun _ => 0) Raise; Tk 0 0 (bump (fun _ => 0) 1) (Ret (vs 0))]).
    2:{ apply (s_return requests [] _ [_] [] 0 0). }
    2:{ discriminate. }
    eapply runs_app with (c := Cl [left_over 0] [] [Tk 0 1 (fun _ => 0) Raise; Tk 0 0 (bump (fun _ => 0) 1) (Ret (vs 0))]).
    2:{ apply (s_store requests [] [] [] _ (left_over 0)). reflexivity. }
    2:{ discriminate. }
    eapply runs_app with (c := Cl [] [] [Tk 0 1 (fun _ => 0) Raise; Tk 0 0 (fun _ => 0) (Send 1 (vs 0) (Ret (vs 0)))]).
    2:{ apply (s_send requests [] [] [_] [] 0 0 (fun _ => 0) 1). }
    2:{ discriminate. }
    eapply runs_app with (c := Cl [] [] [Tk 0 0 (fun _ => 0) (Send 1 (vs 0) (Ret (vs 0)))]).
    2:{ apply (s_start requests [] [] _ 0 1). }
    2:{ fin. }
    eapply runs_app with (c := idle).
    2:{ apply (s_start requests [] [] _ 0 0). }
    2:{ fin. }
    constructor.
  - cbn [story]. unfold segment. replace (S n - 1) with n by lia. rewrite app7.
    set (h := story n) in *. set (k := S n) in *.
    assert (Hfresh : forall r, ~ In (Started k r) h).
    { intros r Hr. apply story_started in Hr. unfold k in Hr; lia. }
    eapply runs_app with (c := Cl [] [left_over k] [Tk k 1 (bump (fun _ => 0) 0) (Ret (vs n))]).
    2:{ apply (s_return requests [] _ [] [] k 1). }
    2:{ discriminate. }
    eapply runs_app with (c := Cl [] [left_over k]
         [Tk k 1 (bump (fun _ => 0) 0) (Ret (vs n)); Tk k 0 (bump (fun _ => 0) 1) (Ret (vs k))]).
    2:{ apply (s_return requests [] _ [_] [] k 0). }
    2:{ discriminate. }
    eapply runs_app with (c := Cl [left_over k] []
         [Tk k 1 (bump (fun _ => 0) 0) (Ret (vs n)); Tk k 0 (bump (fun _ => 0) 1) (Ret (vs k))]).
    2:{ apply (s_store requests [] [] [] _ (left_over k)). reflexivity. }
    2:{ discriminate. }
    eapply runs_app with (c := Cl [] []
         [Tk k 1 (bump (fun _ => 0) 0) (Ret (vs n)); Tk k 0 (fun _ => 0) (Send 1 (vs k) (Ret (vs k)))]).
    2:{ apply (s_send requests [] [] [_] [] k 0 (fun _ => 0) 1). }
    2:{ discriminate. }
    eapply runs_app with (c := Cl [] [left_over n]
         [Tk k 1 (fun _ => 0) (Recv 0 (fun x => Ret x)); Tk k 0 (fun _ => 0) (Send 1 (vs k) (Ret (vs k)))]).
    2:{ apply (s_recv requests [] [] [] [] [Tk k 0 (fun _ => 0) (Send 1 (vs k) (Ret (vs k)))] k 1 (fun _ => 0) 0
                 (fun x => Ret x) (left_over n)). reflexivity. }
    2:{ discriminate. }
    eapply runs_app with (c := Cl [] [left_over n] [Tk k 0 (fun _ => 0) (Send 1 (vs k) (Ret (vs k)))]).
    2:{ apply (s_start requests [] _ _ k 1). }
    2:{ intros i r E HI. injection E as <- <-. apply in_app_iff in HI. cbn [In] in HI.
        destruct HI as [HI|[HI|[]]]; [apply (Hfresh 1); assumption | discriminate]. }
    eapply runs_app with (c := Cl [] [left_over n] []).
    2:{ apply (s_start requests [] _ _ k 0). }
    2:{ intros i r E HI. injection E as <- <-. apply (Hfresh 0); assumption. }
    exact IH.
Qed.

Lemma story_one : forall n, one_at_a_time (story n).
Proof.
  assert (S0 : forall (n : nat) (h : list (event V)) (k : nat), one_at_a_time h -> (forall j, over h j) ->
     (forall r, ~ In (Started k r) h) -> forall t,
     (forall x, In x t -> forall i r, x <> Started i r) ->
     one_at_a_time (h ++ Started k 0 :: Started k 1 :: t)).
  { intros _ h k O Ov Fr t. induction t as [|x t IH] using rev_ind; intros Ht.
    - change (h ++ [Started k 0; Started k 1]) with (h ++ ([Started k 0] ++ [Started k 1])). rewrite app_assoc.
      apply one_snoc.
      + apply one_snoc; [assumption|]. intros; apply Ov.
      + intros i r E j Hj. injection E as <- <-. apply over_mono; [apply Ov|].
        intros r [H|[]]. congruence.
    - replace (h ++ Started k 0 :: Started k 1 :: t ++ [x]) with ((h ++ Started k 0 :: Started k 1 :: t) ++ [x])
        by (rewrite <- app_assoc; reflexivity).
      apply one_snoc.
      + apply IH. intros y Hy. apply Ht. apply in_app_iff; auto.
      + intros i r E. exfalso. apply (Ht x) with (i := i) (r := r); [apply in_app_iff; simpl; auto | assumption]. }
  induction n as [|n IH].
  - apply (S0 0 [] 0); [intros h1 i r h2 E; destruct h1; discriminate | intros j r [] | intros r [] |].
    intros x Hx i r ->. simpl in Hx. intuition discriminate.
  - apply (S0 0 (story n) (S n)); [assumption | apply story_over | intros r Hr; apply story_started in Hr; lia |].
    intros x Hx i r ->. cbn [In] in Hx. intuition discriminate.
Qed.

Lemma story_results : forall n k, 1 <= k <= n -> result (story n) k 0 (vs k) /\ result (story n) k 1 (vs (k - 1)).
Proof.
  induction n as [|n IH]; intros k Hk; [lia|].
  cbn [story]. unfold result. rewrite !in_app_iff.
  destruct (Nat.eq_dec k (S n)) as [->|Hne].
  - unfold segment. cbn [In]. split; right; tauto.
  - destruct (IH k) as [H1 H2]; [lia|]. unfold result in *. auto.
Qed.

Lemma story_no_fault : forall n, Forall no_fault (story n).
Proof.
  induction n; cbn [story]; [repeat constructor|]. apply Forall_app. split; [assumption | repeat constructor].
Qed.
End Stale.

(** One request that fails at rank 1 after rank 0 has sent makes every later shuffle
    of the cluster, all reported as successful, deliver the value of the one before:
    for any values and any number of later shuffles, posted one at a time by a driver
    that waits for each, with a perfect network. *)
Theorem C142_stale_messages_refuted : forall V (vs : nat -> V) n,
  exists reqs h c,
    reqs 0 = fails_at_1 (vs 0) /\ (forall i, 1 <= i -> reqs i = shuffle_0_to_1 (vs i)) /\
    runs reqs h c /\ one_at_a_time h /\ Forall no_fault h /\
    forall k, 1 <= k <= n -> result h k 0 (vs k) /\ result h k 1 (vs (k - 1)).
Proof.
  intros V vs n. exists (requests vs), (story vs n), (Cl [] [left_over vs n] []).
  split; [reflexivity|]. split; [intros i Hi; destruct i; [lia | reflexivity]|].
  split; [apply story_runs|]. split; [apply story_one|]. split; [apply story_no_fault|]. apply story_results.
Qed.
Print Assumptions C142_stale_messages_refuted.

(** Two shuffles of two clients at the same time: each gets the other's value. *)
Theorem C142_concurrent_clients_refuted : forall V (v w : V),
  exists h c, runs (fun i => if i =? 0 then shuffle_0_to_1 v else shuffle_0_to_1 w) h c /\
    Forall no_fault h /\ tasks c = [] /\ wire c = [] /\ boxes c = [] /\
    result h 0 1 w /\ result h 1 1 v.
Proof.
  intros V v w.
  set (reqs := fun i => if i =? 0 then shuffle_0_to_1 v else shuffle_0_to_1 w).
  exists ((((((((((((([] ++ [Started 0 0]) ++ [Started 0 1]) ++ [Started 1 0]) ++ [Started 1 1])
      ++ [Sent 0 0 1 v]) ++ [Stored]) ++ [Got 1 1 0 v 0]) ++ [Sent 1 0 1 w]) ++ [Stored]) ++ [Got 0 1 0 w 1])
      ++ [Ended 0 0 (Some v); Ended 0 1 (Some w)]) ++ [Ended 1 0 (Some w); Ended 1 1 (Some v)])), (Cl [] [] []).
  set (z := fun _ : nat => 0).
  set (A (p : prog V) (s : nat -> nat) := Tk 0 0 s p).
  set (b0 := bump z 0). set (b1 := bump z 1). set (kk := fun x : V => Ret x).
  split; [|repeat split; auto; try (unfold result; rewrite !in_app_iff; simpl; tauto);
           rewrite <- ?app_assoc; repeat constructor].
  rewrite <- !app_assoc. cbn [app].
  pose (h0 := @nil (event V)).
  assert (R : forall h c e c', runs reqs h c -> step reqs c e c' -> (forall i r, e = Started i r -> ~ In (Started i r) h) ->
     runs reqs (h ++ [e]) c') by (intros; eapply runs_snoc; eauto).
  assert (R1 : runs reqs ([] ++ [Started 0 0]) (Cl [] [] [Tk 0 0 z (Send 1 v (Ret v))])).
  { eapply R; [constructor | apply (s_start reqs [] [] [] 0 0) | intros i r E []]. }
  assert (R2 : runs reqs (([] ++ [Started 0 0]) ++ [Started 0 1])
      (Cl [] [] [Tk 0 1 z (Recv 0 kk); Tk 0 0 z (Send 1 v (Ret v))])).
  { eapply R; [exact R1 | apply (s_start reqs [] [] _ 0 1) | intros i r E HI; injection E as <- <-; simpl in HI; intuition discriminate]. }
  eapply R in R2; [|apply (s_start reqs [] [] _ 1 0) | intros i r E HI; injection E as <- <-; simpl in HI; intuition discriminate].
  eapply R in R2; [|apply (s_start reqs [] [] _ 1 1) | intros i r E HI; injection E as <- <-; simpl in HI; intuition discriminate].
  eapply R in R2; [|apply (s_send reqs [] [] [_; _; _] [] 0 0 z 1 v) | discriminate].
  eapply R in R2; [|apply (s_store reqs [] [] []); reflexivity | discriminate].
  eapply R in R2; [|apply (s_recv reqs [] [] [] [] _ 1 1 z 0 kk); reflexivity | discriminate].
  eapply R in R2; [|apply (s_send reqs [] [] [_] _ 1 0 z 1 w) | discriminate].
  eapply R in R2; [|apply (s_store reqs [] [] []); reflexivity | discriminate].
  eapply R in R2; [|apply (s_recv reqs [] [] [] [_; _] _ 0 1 z 0 kk); reflexivity | discriminate].
  cbn [app p_val p_req kk] in R2.
  eapply R in R2; [|apply (s_return reqs [] [] [_; _; _] [] 0 0) | discriminate].
  eapply R in R2; [|apply (s_return reqs [] [] [_; _] [] 0 1) | discriminate].
  eapply R in R2; [|apply (s_return reqs [] [] [_] [] 1 0) | discriminate].
  eapply R in R2; [|apply (s_return reqs [] [] [] [] 1 1) | discriminate].
  rewrite <- !app_assoc in R2. cbn [app] in R2. exact R2.
Qed.
Print Assumptions C142_concurrent_clients_refuted.

(** The hypotheses of the positive theorems are met by real executions: a shuffle that
    succeeds, after another one; with job ids and without. *)
Definition good_requests (named : bool) (i : nat) : request nat :=
  let q := shuffle_0_to_1 (10 + i) in
  if named then Rq (Some (String.string_of_list_ascii (repeat Ascii.zero (S i)))) (work q) else q.
Example C104_case_ids :
  (forall i, exists id, job_id (good_requests true i) = Some id /\ id <> ""%string) /\
  forall i j, job_id (good_requests true i) = job_id (good_requests true j) -> i = j.
Proof.
  split; [intros i; eexists; split; [reflexivity|discriminate]|].
  intros i j H. unfold good_requests in H. cbn [job_id] in H. simpl in H.
  injection H as H. apply (f_equal String.list_ascii_of_string) in H.
  rewrite !String.list_ascii_of_string_of_list_ascii in H.
  apply (f_equal (@List.length _)) in H. rewrite !repeat_length in H. exact H.
Qed.
Definition good_story (k : nat) : list (event nat) :=
  [Started k 0; Started k 1; Sent k 0 1 (10 + k); Stored; Got k 1 0 (10 + k) k;
   Ended k 0 (Some (10 + k)); Ended k 1 (Some (10 + k))].
Example C104_case_clean : forall named,
  runs (good_requests named) (good_story 0 ++ good_story 1) (Cl [] [] []).
Proof.
  intros named.
  assert (G : forall k h, (forall r, ~ In (Started k r) h) -> runs (good_requests named) h (Cl [] [] []) ->
     runs (good_requests named) (h ++ good_story k) (Cl [] [] [])).
  { intros k h Fr R0. set (z := fun _ : nat => 0). set (x := 10 + k).
    assert (W : forall r, work (good_requests named k) r = if r =? 0 then Send 1 x (Ret x) else Recv 0 (fun y => Ret y))
      by (destruct named; reflexivity).
    assert (R : forall h c e c', runs (good_requests named) h c -> step (good_requests named) c e c' ->
       (forall i r, e = Started i r -> ~ In (Started i r) h) ->
       runs (good_requests named) (h ++ [e]) c') by (intros; eapply runs_snoc; eauto).
    eapply R in R0; [|apply (s_start _ [] [] _ k 0) | intros i r E; injection E as <- <-; apply Fr].
    eapply R in R0; [|apply (s_start _ [] [] _ k 1) | intros i r E HI; injection E as <- <-;
       apply in_app_iff in HI; destruct HI as [HI|[HI|[]]]; [apply (Fr 1 HI) | discriminate]].
    rewrite !W in R0. cbn [Nat.eqb] in R0.
    eapply R in R0; [|apply (s_send _ [] [] [_] [] k 0 z 1 x) | discriminate].
    eapply R in R0; [|apply (s_store _ [] [] []); reflexivity | discriminate].
    eapply R in R0; [|apply (s_recv _ [] [] [] [] _ k 1 z 0 (fun y => Ret y));
       unfold slot_is, key_eqb; simpl; rewrite String.eqb_refl; reflexivity | discriminate].
    cbn [app p_val p_req] in R0.
    eapply R in R0; [|apply (s_return _ [] [] [_] [] k 0) | discriminate].
    eapply R in R0; [|apply (s_return _ [] [] [] [] k 1) | discriminate].
    rewrite <- !app_assoc in R0. exact R0. }
  apply G; [intros r H; simpl in H; intuition discriminate|]. apply (G 0 []); [intros r []|constructor].
Qed.
Example C104_case_clean_conditions :
  one_at_a_time (good_story 0 ++ good_story 1) /\ clean (good_story 0 ++ good_story 1).
Proof.
  assert (D : forall (P : list (event nat) -> nat -> Prop),
     (forall j, j <> 0 -> P [] j) -> (forall j, j <> 0 -> P [Started 0 0] j) ->
     (forall j, j <> 1 -> P (good_story 0) j) -> (forall j, j <> 1 -> P (good_story 0 ++ [Started 1 0]) j) ->
     forall h1 i r h2, good_story 0 ++ good_story 1 = h1 ++ Started i r :: h2 -> forall j, j <> i -> P h1 j).
  { intros P P1 P2 P3 P4 h1 i r h2 E j Hj. simpl in E.
    do 14 (destruct h1 as [|? h1]; simpl in E;
      [injection E; intros; subst; try discriminate; auto | injection E as <- E]); try discriminate.
    destruct h1; discriminate. }
  split.
  - intros h1 i r h2 E. revert h1 i r h2 E. apply (D (fun h j => over h j)).
    + intros j _ r [].
    + intros j Hj r [H|[]]. congruence.
    + intros j Hj r H. simpl in H.
      repeat (destruct H as [H|H]; [try discriminate; injection H; intros; subst; try congruence;
                                    eexists; simpl; eauto 10|]). contradiction.
    + intros j Hj r H. simpl in H.
      repeat (destruct H as [H|H]; [try discriminate; injection H; intros; subst; try congruence;
                                    eexists; simpl; eauto 10|]). contradiction.
  - intros h1 i r h2 E. revert h1 i r h2 E. apply (D (fun h j => all_received h j)).
    + intros j _ f r; reflexivity.
    + intros j _ f r; reflexivity.
    + intros j _ f r. cbn. destruct j; cbn; [|reflexivity]. destruct f; cbn; [|reflexivity]. destruct r as [|[|r]]; reflexivity.
    + intros j _ f r. cbn. destruct j; cbn; [|reflexivity]. destruct f; cbn; [|reflexivity]. destruct r as [|[|r]]; reflexivity.
Qed.

(** The in-memory simulator: after one failing request every request raises, whatever
    it is; before it, requests are what their workers return. *)
Theorem C142_simulator_stops_refuted : forall V (before later : list (list (option V))) bad,
  (forall w, In w before -> all_some w <> None) -> all_some bad = None ->
  simulate false (before ++ bad :: later) = map all_some before ++ None :: map (fun _ => None) later.
Proof.
  intros V before later bad Hb Hbad.
  assert (C : forall l : list (list (option V)), simulate true l = map (fun _ => None) l).
  { induction l as [|x l IH]; [reflexivity|]. simpl. rewrite IH. reflexivity. }
  induction before as [|w before IH]; simpl.
  - unfold sim_request. rewrite Hbad. rewrite C. reflexivity.
  - unfold sim_request. destruct (all_some w) as [vs|] eqn:E; [|contradiction (Hb w (or_introl eq_refl))].
    rewrite IH; [reflexivity|]. intros x Hx. apply Hb. right; assumption.
Qed.
Print Assumptions C142_simulator_stops_refuted.
Example C104_simulator_case :
  simulate false [[Some 1; Some 2]; [Some 3; None]; [Some 5; Some 6]] = [Some [1; 2]; None; None].
Proof. reflexivity. Qed.
