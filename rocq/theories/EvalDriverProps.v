(** C173-C175: evaluations on a simulator or over HTTP. *)
From stdpp Require Import gmap relations.
From Verif Require Import NetSpec NetModel NetProofs EvalDriverModel EvalDriverSpec EvalDriverProofs.

(** C173.  On a simulator with one thread per party, an evaluation of programs that would all return if each
    had its own thread returns, in every schedule, their results in rank order. *)
Theorem C173_simulator_returns_results : forall (M X A : Type) n (P f : gmap nat (prog M X A)) v,
  per_rank n P -> parties_end_in P f -> (forall t, t < n -> f !! t = Some (Ret (v t))) ->
  always_answers (mem_step n (seq 0 n)) (submitted (seq 0 n) P) (fun a => a = Results (map v (seq 0 n))) /\
  rtc (mem_step n (seq 0 n)) (submitted (seq 0 n) P) (Answered (Results (map v (seq 0 n)))).
Proof.
  intros M X A n P f v Hper Hend Hv. split.
  - destruct (mem_answers n n P f (le_n n) Hper Hend) as [Hb [Ht Ha]]; [left; eauto|].
    split; [exact Hb|]. split; [exact Ht|]. intros a Hr. specialize (Ha a Hr). destruct a as [l|x].
    + f_equal. assert (Hin : forall t, t ∈ seq 0 n -> t < n) by (intros t Hs; apply elem_of_seq in Hs; lia).
      revert Hin Ha. clear -Hv. generalize (seq 0 n). intros l0 Hin HF. induction HF as [|t a l0 l Hta HF IH]; [reflexivity|].
      cbn [map]. rewrite (Hv t) in Hta by (apply Hin; left). injection Hta as <-. f_equal. apply IH. intros u Hu. apply Hin. right. assumption.
    + destruct Ha as [t [Hlt Ht']]. rewrite Hv in Ht' by assumption. discriminate.
  - destruct (mem_reaches_end n n P f (le_n n) Hper Hend) as [p [Hr [Hf Hs]]]. eapply rtc_r; [exact Hr|]. apply mem_all.
    assert (Hin : forall t, t ∈ seq 0 n -> t < n) by (intros t Ht; apply elem_of_seq in Ht; lia).
    revert Hin. generalize (seq 0 n). intros l0. induction l0 as [|t l0 IH]; intros Hin; [constructor|]. cbn [map]. constructor.
    + split; [apply Hs, Hin; left|rewrite Hf; apply Hv, Hin; left].
    + apply IH. intros u Hu. apply Hin. right. assumption.
Qed.
Print Assumptions C173_simulator_returns_results.

(** C173.  If a party throws, whatever the others do (return, throw or wait for ever), every schedule of the
    evaluation ends, and raises an exception thrown by one of the parties' programs. *)
Theorem C173_simulator_reports_failure : forall (M X A : Type) n (P f : gmap nat (prog M X A)) t0 x0,
  per_rank n P -> parties_end_in P f -> t0 < n -> f !! t0 = Some (Throw x0) ->
  always_answers (mem_step n (seq 0 n)) (submitted (seq 0 n) P) (fun a => exists t x, a = Raised x /\ t < n /\ f !! t = Some (Throw x)) /\
  rtc (mem_step n (seq 0 n)) (submitted (seq 0 n) P) (Answered (Raised x0)).
Proof.
  intros M X A n P f t0 x0 Hper Hend Ht0 Hx0. split.
  - destruct (mem_answers n n P f (le_n n) Hper Hend) as [Hb [Ht Ha]]; [right; eauto|].
    split; [exact Hb|]. split; [exact Ht|]. intros a Hr. specialize (Ha a Hr). destruct a as [l|x].
    + exfalso. assert (Hi : seq 0 n !! t0 = Some t0) by (apply lookup_seq; lia).
      destruct (Forall2_lookup_l _ _ _ _ _ Ha Hi) as [w [_ Hw]]. congruence.
    + destruct Ha as [t [Hlt Ht']]. eauto.
  - destruct (mem_reaches_end n n P f (le_n n) Hper Hend) as [p [Hr [Hf Hs]]]. eapply rtc_r; [exact Hr|]. eapply mem_fail.
    + apply elem_of_seq with (j := 0) (n := n) (k := t0). lia.
    + split; [apply Hs; assumption|rewrite Hf; assumption].
Qed.
Print Assumptions C173_simulator_reports_failure.

(** C173.  Any number of such evaluations, one after the other, each returns its own results. *)
Theorem C173_simulator_sequence : forall (M X A : Type) n (Ps : list (gmap nat (prog M X A))) vs As b,
  Forall2 (fun P v => per_rank n P /\ exists f, parties_end_in P f /\ forall t, t < n -> f !! t = Some (Ret (v t))) Ps vs ->
  sim_calls n false Ps As b -> b = false /\ As = map (fun v => Answer (Results (map v (seq 0 n)))) vs.
Proof.
  intros M X A n Ps vs As b HF. revert As b. induction HF as [|P v Ps vs [Hper [f [Hend Hv]]] HF IH]; intros As b H; inversion H; subst; [split; reflexivity|].
  match goal with H : sim_call _ _ _ _ _ |- _ => inversion H; subst end.
  destruct (C173_simulator_returns_results M X A n P f v Hper Hend Hv) as [[_ [_ Ha]] _]. match goal with H : rtc _ _ (Answered _) |- _ => apply Ha in H; subst end.
  match goal with H : sim_calls _ _ _ _ _ |- _ => apply IH in H; destruct H as [-> ->] end. split; reflexivity.
Qed.
Print Assumptions C173_simulator_sequence.

(** C173.  Over HTTP (no receive time-outs), if no party before the first failing one waits for ever, every
    schedule ends with the results, or with the exception of the first failing rank. *)
Theorem C173_http_answers : forall (M X A : Type) n (P f : gmap nat (prog M X A)),
  per_rank n P -> parties_end_in P f ->
  (forall t, t < n -> exists v, f !! t = Some (Ret v)) \/
  (exists t x, t < n /\ f !! t = Some (Throw x) /\ forall u, u < t -> exists v, f !! u = Some (Ret v)) ->
  always_answers (http_step None n (seq 0 n)) (submitted (seq 0 n) P)
    (fun a => match a with
       | Results l => Forall2 (fun t v => f !! t = Some (Ret v)) (seq 0 n) l
       | Raised x => exists t, t < n /\ f !! t = Some (Throw x) /\ (forall u, u < t -> exists v, f !! u = Some (Ret v)) end).
Proof. intros M X A n P f Hper Hend H. apply (http_answers n n P f (le_n n) Hper Hend H). Qed.
Print Assumptions C173_http_answers.

(** rank 1 sends 7 to rank 0, which returns it; rank 1 returns 5 *)
Definition pair_ok : gmap nat (prog nat nat nat) := {[ 0 := Recv 1 (fun m => Ret m); 1 := Send 0 7 (Ret 5) ]}.
Definition pair_bad : gmap nat (prog nat nat nat) := {[ 0 := Recv 1 (fun m => Ret m); 1 := Throw 9 ]}.
Lemma pair_ok_ends : exists f, parties_end_in pair_ok f /\ f !! 0 = Some (Ret 7) /\ f !! 1 = Some (Ret 5).
Proof.
  eexists. split.
  - do 4 eexists. apply net_determinate; [apply wf_start| |].
    + eapply rtc_l; [apply net_send with (r := 1); reflexivity|]. eapply rtc_l; [apply net_deliver with (key := (1, 0, 0)) (m := 7); reflexivity|].
      eapply rtc_l; [apply net_recv with (r := 0) (frm := 1) (m := 7); reflexivity|]. apply rtc_refl.
    + intros [N H]. apply net_task in H. destruct H as [H|[t [Ht H]]].
      * inversion H; subst; match goal with H : delete _ _ !! _ = Some _ |- _ => apply lookup_delete_Some in H; destruct H as [Hk H]; apply lookup_insert_Some in H; destruct H as [[H _]|[_ H]]; [apply Hk; exact H|rewrite lookup_empty in H; discriminate] end.
      * assert (Hc : t = 0 \/ t = 1 \/ (t <> 0 /\ t <> 1)) by lia. destruct Hc as [->|[->|[H0 H1]]].
        -- inversion H; subst; match goal with H : _ !! 0 = Some _ |- _ => vm_compute in H; discriminate end.
        -- inversion H; subst; match goal with H : _ !! 1 = Some _ |- _ => vm_compute in H; discriminate end.
        -- cbn in Ht. unfold pair_ok in Ht. rewrite !lookup_insert_ne in Ht by congruence. rewrite lookup_singleton_ne in Ht by congruence. destruct Ht as [? Ht]. discriminate.
  - split; reflexivity.
Qed.
Lemma pair_bad_ends : parties_end_in pair_bad pair_bad.
Proof.
  do 4 eexists. apply net_determinate; [apply wf_start|apply rtc_refl|]. intros [N H]. apply net_task in H. destruct H as [H|[t [Ht H]]].
  - inversion H; subst; match goal with H : ∅ !! _ = Some _ |- _ => rewrite lookup_empty in H; discriminate end.
  - inversion H; subst; [|match goal with H : ∅ !! _ = Some _ |- _ => rewrite lookup_empty in H; discriminate end].
    match goal with H : pair_bad !! _ = Some _ |- _ => unfold pair_bad in H; apply lookup_insert_Some in H; destruct H as [[_ H]|[_ H]]; [discriminate|apply lookup_singleton_Some in H; destruct H; discriminate] end.
Qed.
Lemma pair_rank (p q : prog nat nat nat) : per_rank 2 {[ 0 := p; 1 := q ]}.
Proof.
  intros t. assert (Hc : t = 0 \/ t = 1 \/ (t <> 0 /\ t <> 1)) by lia. destruct Hc as [->|[->|[H0 H1]]].
  - split; [lia|]. intros _. eexists. reflexivity.
  - split; [lia|]. intros _. eexists. reflexivity.
  - rewrite lookup_insert_ne by congruence. rewrite lookup_singleton_ne by congruence. split; [intros [? ?]; discriminate|lia].
Qed.
Example C173_example :
  always_answers (mem_step 2 [0; 1]) (submitted [0; 1] pair_ok) (fun a => a = Results [7; 5]) /\
  always_answers (mem_step 2 [0; 1]) (submitted [0; 1] pair_bad) (fun a => a = Raised 9).
Proof.
  split.
  - destruct pair_ok_ends as [f [He [H0 H1]]].
    apply (C173_simulator_returns_results nat nat nat 2 pair_ok f (fun t => match t with 0 => 7 | _ => 5 end) (pair_rank _ _) He).
    intros t Ht. destruct t as [|[|t]]; [assumption|assumption|lia].
  - destruct (C173_simulator_reports_failure nat nat nat 2 pair_bad pair_bad 1 9 (pair_rank _ _) pair_bad_ends) as [[Hb [Ht Ha]] _]; [lia|reflexivity|].
    split; [exact Hb|]. split; [exact Ht|]. intros a Hr. destruct (Ha a Hr) as [t [x [-> [Hlt Hf]]]].
    destruct t as [|[|t]]; [vm_compute in Hf; discriminate|vm_compute in Hf; congruence|lia].
Qed.

(** C173.  A thread that finished its task serves the next one: with at least one thread, any number of
    tasks that wait for nobody are all finished when nothing moves any more. *)
Theorem C173_threads_are_reused : forall (M X A : Type) (threads : nat) (tasks : list nat) (P : gmap nat (prog M X A)) (s : pool M X A),
  1 <= threads -> (forall t, t ∈ tasks -> exists p, P !! t = Some p /\ waits_for_nobody p) ->
  rtc (pool_step threads) (Pool (start P ∅) tasks []) s -> nf (pool_step threads) s ->
  waiting s = [] /\ forall t, t ∈ tasks -> (exists a, returned s t a) \/ (exists x, threw s t x).
Proof.
  intros M X A threads tasks P s H1 HP Hr Hn.
  assert (G : accounted tasks s /\ forall t, t ∈ tasks -> exists p, parties (pnet s) !! t = Some p /\ waits_for_nobody p).
  { assert (G0 : accounted tasks (Pool (start P ∅) tasks []) /\ forall t, t ∈ tasks -> exists p, parties (pnet (Pool (start P ∅) tasks [])) !! t = Some p /\ waits_for_nobody p).
    { split; [split; [intros t; cbn; rewrite elem_of_nil; tauto|cbn; lia]|exact HP]. }
    revert G0. clear HP Hn. generalize (Pool (start P ∅) tasks []) Hr. clear Hr. intros p0 Hr. induction Hr as [|p0 p1 p2 St Hr IH]; [auto|].
    intros [Ac HW]. apply IH. split; [eapply accounted_step; eassumption|]. destruct St; cbn [pnet] in *; [exact HW| |].
    - intros u Hu. destruct (HW u Hu) as (p & Ep & Wp). match goal with H : task_step _ _ _ |- _ => destruct H; cbn in * end;
      (destruct (decide (t = u)) as [->|Hd]; [rewrite lookup_insert|rewrite lookup_insert_ne by assumption; eauto]).
      + match goal with H : P0 !! u = Some (Send _ _ _) |- _ => rewrite H in Ep; injection Ep as <- end. eauto.
      + match goal with H : P0 !! u = Some (Recv _ _) |- _ => rewrite H in Ep; injection Ep as <- end. destruct Wp.
    - match goal with H : transport_step _ _ |- _ => destruct H; exact HW end. }
  destruct G as [[Ac _] HW]. destruct s as [N q l]. cbn [waiting started pnet] in *.
  assert (Fin : forall t, t ∈ l -> alive N t = false).
  { intros t Ht. destruct (HW t) as (p & Ep & Wp); [apply Ac; right; exact Ht|]. unfold alive. rewrite Ep. destruct p; [reflexivity|reflexivity| |destruct Wp].
    exfalso. apply Hn. destruct N as [P' c I B o]. cbn in Ep. eexists. eapply pool_task; [exact Ht|]. apply task_send. exact Ep. }
  assert (Hb : busy N l = 0).
  { unfold busy. clear -Fin. induction l as [|t l IH]; [reflexivity|]. cbn. rewrite Fin by left. apply IH. intros u Hu. apply Fin. right. exact Hu. }
  assert (Hq : q = []). { destruct q as [|t q]; [reflexivity|]. exfalso. apply Hn. eexists. apply pool_start. lia. }
  split; [exact Hq|]. intros t Ht. assert (Hl : t ∈ l) by (apply Ac in Ht; destruct Ht as [Ht|Ht]; [subst q; apply elem_of_nil in Ht; destruct Ht|exact Ht]).
  specialize (Fin t Hl). destruct (HW t Ht) as (p & Ep & Wp). unfold alive in Fin. rewrite Ep in Fin. destruct p; try discriminate Fin; [left|right]; eexists; split; eassumption.
Qed.
Print Assumptions C173_threads_are_reused.
Example C173_reuse_example : forall t, t ∈ [0; 1; 2] -> exists p, ({[ 0 := Ret 5; 1 := Send 0 7 (Ret 6); 2 := Throw 9 ]} : gmap nat (prog nat nat nat)) !! t = Some p /\ waits_for_nobody p.
Proof. intros t Ht. apply elem_of_list_In in Ht. destruct Ht as [<-|[<-|[<-|[]]]]; eexists; split; try reflexivity; exact I. Qed.

(** C174 (refuted): evaluations from two threads need not end.  Whatever the programs, if all parties but the
    last of one evaluation and the first party of the other start by waiting for their last party, there is an
    order of submission in which all threads of the pool wait for tasks that are never started. *)
Theorem C174_two_evaluations_deadlock_refuted : forall (M X A : Type) n (P : gmap nat (prog M X A)), 2 <= n ->
  (forall r, r < n - 1 -> exists k, P !! r = Some (Recv (n - 1) k)) ->
  (exists k, P !! n = Some (Recv (2 * n - 1) k)) ->
  exists order s, interleave (seq 0 n) (seq n n) order /\
    rtc (pool_step n) (Pool (start P ∅) order []) s /\ nf (pool_step n) s /\ parties (pnet s) = P /\ waiting s <> [].
Proof.
  intros M X A n P Hn HA HB. set (first := seq 0 (n - 1) ++ [n]). set (rest := (n - 1) :: seq (S n) (n - 1)).
  exists (first ++ rest), (Pool (start P ∅) rest (rev first ++ [])). split; [|split; [|split; [|split; [reflexivity|discriminate]]]].
  - replace (seq 0 n) with (seq 0 (n - 1) ++ [n - 1]) by (replace n with (S (n - 1)) at 3 by lia; rewrite seq_S; reflexivity).
    replace (seq n n) with ([] ++ (n :: seq (S n) (n - 1))) by (replace n with (S (n - 1)) at 5 by lia; reflexivity).
    unfold first, rest. rewrite <- app_assoc. apply interleave_app; [apply interleave_l|]. cbn [app]. apply inter_r, inter_l, interleave_r.
  - apply start_many. cbn. unfold first. rewrite app_length, seq_length. cbn. lia.
  - assert (Hw : forall t, t ∈ rev first ++ [] -> exists frm k, P !! t = Some (Recv frm k)).
    { intros t Ht. rewrite app_nil_r in Ht. apply elem_of_list_In, in_rev, in_app_or in Ht. destruct Ht as [Ht|[<-|[]]].
      - apply in_seq in Ht. destruct (HA t) as [k Hk]; [lia|eauto].
      - destruct HB as [k Hk]. eauto. }
    assert (Hbusy : busy (start P ∅) (rev first ++ []) = n).
    { assert (Hall : forall l, (forall t, t ∈ l -> exists frm k, P !! t = Some (Recv frm k)) -> busy (start P ∅) l = length l).
      { unfold busy. induction l as [|t l IH]; intros Hl; [reflexivity|]. cbn [List.filter]. destruct (Hl t) as [frm [k Hk]]; [left|].
        unfold alive at 1. cbn [start parties]. rewrite Hk. cbn [length]. f_equal. apply IH. intros u Hu. apply Hl. right. assumption. }
      rewrite Hall by assumption. rewrite app_nil_r, rev_length. unfold first. rewrite app_length, seq_length. cbn. lia. }
    intros [s Hs]. clearbody first rest. inversion Hs; subst.
    + lia.
    + match goal with H : task_step _ _ _ |- _ => inversion H; subst end.
      * destruct (Hw t) as [frm [k' Hk]]; [assumption|]. congruence.
      * match goal with H : ∅ !! _ = Some _ |- _ => rewrite lookup_empty in H; discriminate end.
    + match goal with H : transport_step _ _ |- _ => inversion H; subst end; match goal with H : ∅ !! _ = Some _ |- _ => rewrite lookup_empty in H; discriminate end.
Qed.
Print Assumptions C174_two_evaluations_deadlock_refuted.

(** two copies of the two-party program, each of which completes alone (C173_example) *)
Definition two_pairs : gmap nat (prog nat nat nat) :=
  {[ 0 := Recv 1 (fun m => Ret m); 1 := Send 0 7 (Ret 5); 2 := Recv 3 (fun m => Ret m); 3 := Send 2 7 (Ret 5) ]}.
Example C174_example : exists order s, interleave [0; 1] [2; 3] order /\
  rtc (pool_step 2) (Pool (start two_pairs ∅) order []) s /\ nf (pool_step 2) s /\ parties (pnet s) = two_pairs /\ waiting s <> [].
Proof.
  apply (C174_two_evaluations_deadlock_refuted nat nat nat 2 two_pairs); [lia| |].
  - intros r Hr. assert (r = 0) as -> by lia. eexists. reflexivity.
  - eexists. reflexivity.
Qed.

(** C175 (refuted): after an evaluation in which a party failed, every later evaluation and every fetch on
    that simulator fails, also of objects computed before. *)
Theorem C175_simulator_closed_refuted : forall (M X A V : Type) n (P f : gmap nat (prog M X A)) t0 x0 Ps As b,
  per_rank n P -> parties_end_in P f -> t0 < n -> f !! t0 = Some (Throw x0) ->
  sim_calls n false (P :: Ps) As b ->
  (exists x, As = Answer (Raised x) :: repeat Closed (length Ps)) /\ forall (get : nat -> option V) rank, sim_fetch b get rank = None.
Proof.
  intros M X A V n P f t0 x0 Ps As b Hper Hend Ht0 Hx0 H. inversion H; subst.
  match goal with H : sim_call _ _ _ _ _ |- _ => inversion H; subst end.
  destruct (C173_simulator_reports_failure M X A n P f t0 x0 Hper Hend Ht0 Hx0) as [[_ [_ Ha]] _].
  match goal with H : rtc _ _ (Answered _) |- _ => apply Ha in H; destruct H as [t [x [-> _]]] end. cbn [closes] in *.
  assert (Hc : forall (Ps : list (gmap nat (prog M X A))) As b, sim_calls n true Ps As b -> b = true /\ As = repeat Closed (length Ps)).
  { clear. induction Ps as [|P Ps IH]; intros As b H; inversion H; subst; [split; reflexivity|].
    match goal with H : sim_call _ _ _ _ _ |- _ => inversion H; subst end. match goal with H : sim_calls _ _ _ _ _ |- _ => apply IH in H; destruct H as [-> ->] end. split; reflexivity. }
  match goal with H : sim_calls _ true _ _ _ |- _ => apply Hc in H; destruct H as [-> ->] end.
  split; [eauto|]. reflexivity.
Qed.
Print Assumptions C175_simulator_closed_refuted.

(** C175 (refuted): over HTTP, when rank 1 fails while rank 0 waits for it, the evaluation never answers
    without a receive time-out, and with one it raises the time-out of rank 0, never the failure. *)
Theorem C175_http_hides_failure_refuted : forall (M X A : Type) n timeout (P : gmap nat (prog M X A)) k x a, 2 <= n ->
  P !! 0 = Some (Recv 1 k) -> P !! 1 = Some (Throw x) ->
  rtc (http_step timeout n (seq 0 n)) (submitted (seq 0 n) P) (Answered a) -> exists e, timeout = Some e /\ a = Raised e.
Proof.
  intros M X A n timeout P k x a Hn H0 H1 H.
  apply (hid_answer n n timeout x k _ a H); [lia| |discriminate].
  intros p E. injection E as <-. split; [exact H1|]. split; [left; exact H0|]. split; intros i; apply lookup_empty.
Qed.
Print Assumptions C175_http_hides_failure_refuted.
Example C175_example : pair_bad !! 0 = Some (Recv 1 (fun m => Ret m)) /\ pair_bad !! 1 = Some (Throw 9) /\
  (forall As b, sim_calls 2 false [pair_bad; pair_ok] As b -> exists x, As = [Answer (Raised x); Closed]) /\
  exists As b, sim_calls 2 false [pair_bad; pair_ok] As b.
Proof.
  split; [reflexivity|]. split; [reflexivity|]. split.
  - intros As b H. destruct (C175_simulator_closed_refuted nat nat nat nat 2 pair_bad pair_bad 1 9 [pair_ok] As b (pair_rank _ _) pair_bad_ends) as [Ha _]; [lia|reflexivity|exact H|exact Ha].
  - destruct (C173_simulator_reports_failure nat nat nat 2 pair_bad pair_bad 1 9 (pair_rank _ _) pair_bad_ends) as [_ Hr]; [lia|reflexivity|].
    eexists. eexists. eapply sim_cons; [apply sim_runs; exact Hr|]. cbn [closes]. eapply sim_cons; [apply sim_closed|]. apply sim_nil.
Qed.
