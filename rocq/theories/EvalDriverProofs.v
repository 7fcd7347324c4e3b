(** Proofs about EvalDriverModel. *)
From stdpp Require Import gmap relations.
From Verif Require Import NetSpec NetModel NetProofs EvalDriverModel EvalDriverSpec.

Section Pool.
Context {M X A : Type}.
Implicit Types (N : net M X A) (p : pool M X A).

Lemma task_net t N N' : task_step t N N' -> net_step N N'.
Proof. intros H. destruct H; [apply net_send; assumption|apply net_recv; assumption]. Qed.
Lemma transport_net N N' : transport_step N N' -> net_step N N'.
Proof. intros H. destruct H; [apply net_deliver; assumption|eapply net_overflow; eassumption]. Qed.
Lemma net_task N N' : net_step N N' -> transport_step N N' \/ exists t, is_Some (parties N !! t) /\ task_step t N N'.
Proof.
  intros H. destruct H.
  - right. exists r. split; [cbn; rewrite H; eauto|]. apply task_send. assumption.
  - left. apply transport_deliver; assumption.
  - left. eapply transport_overflow; eassumption.
  - right. exists r. split; [cbn; rewrite H; eauto|]. apply task_recv; assumption.
Qed.
Lemma finished_stable N N' t q : net_step N N' -> parties N !! t = Some q -> finished q -> parties N' !! t = Some q.
Proof.
  intros H Ht Hf. destruct H; cbn in *; try assumption.
  - destruct (decide (r = t)) as [->|Hn]; [|rewrite lookup_insert_ne by assumption; assumption].
    rewrite H in Ht. injection Ht as <-. destruct Hf.
  - destruct (decide (r = t)) as [->|Hn]; [|rewrite lookup_insert_ne by assumption; assumption].
    rewrite H in Ht. injection Ht as <-. destruct Hf.
Qed.
Lemma finished_stable_rtc N N' t q : rtc net_step N N' -> parties N !! t = Some q -> finished q -> parties N' !! t = Some q.
Proof. intros H. induction H; intros Ht Hf; [assumption|]. apply IHrtc; [|assumption]. eapply finished_stable; eassumption. Qed.
Lemma dom_stable N N' t : net_step N N' -> is_Some (parties N' !! t) <-> is_Some (parties N !! t).
Proof.
  intros H. destruct H; cbn; try tauto;
  (destruct (decide (r = t)) as [->|Hn]; [rewrite lookup_insert, H; split; eauto|rewrite lookup_insert_ne by assumption; tauto]).
Qed.

(** a pool execution is an execution of the network, plus starts *)
Lemma pool_project T k p p' : nsteps (pool_step T) k p p' ->
  exists j, nsteps net_step j (pnet p) (pnet p') /\ k = j + (length (waiting p) - length (waiting p')) /\ length (waiting p') <= length (waiting p).
Proof.
  intros H. induction H as [p|k p p1 p2 H1 H2 IH].
  - exists 0. split; [constructor|]. lia.
  - destruct IH as [j [Hj [Hk Hl]]]. destruct H1; cbn [pnet waiting] in *.
    + exists j. split; [assumption|]. cbn [length]. lia.
    + exists (S j). split; [|lia]. econstructor; [eapply task_net; eassumption|assumption].
    + exists (S j). split; [|lia]. econstructor; [eapply transport_net; eassumption|assumption].
Qed.
(** every task is waiting or started *)
Definition accounted (tasks : list nat) (p : pool M X A) : Prop :=
  (forall t, t ∈ tasks <-> t ∈ waiting p \/ t ∈ started p) /\ length (waiting p) + length (started p) = length tasks.
Lemma accounted_step T tasks p p' : pool_step T p p' -> accounted tasks p -> accounted tasks p'.
Proof.
  intros H [Ha Hb]. destruct H; cbn [waiting started] in *; try (split; assumption).
  split; [|cbn in *; lia]. intros u. cbn. rewrite Ha. rewrite !elem_of_cons. tauto.
Qed.
Lemma busy_le N l : busy N l <= length l.
Proof. unfold busy. induction l as [|x l IH]; [reflexivity|]. cbn. destruct (alive N x); cbn; lia. Qed.

Definition pdom (tasks : list nat) (N : net M X A) : Prop := forall t, is_Some (parties N !! t) <-> t ∈ tasks.
Lemma pdom_step T tasks p p' : pool_step T p p' -> pdom tasks (pnet p) -> pdom tasks (pnet p').
Proof.
  intros H Hd. destruct H; cbn [pnet] in *; [assumption| |]; intros u.
  - rewrite (dom_stable _ _ u (task_net _ _ _ H0)). apply Hd.
  - rewrite (dom_stable _ _ u (transport_net _ _ H)). apply Hd.
Qed.

(** a pool with enough threads that cannot move has started everything and its network cannot move *)
Lemma pool_stuck T tasks p : length tasks <= T -> accounted tasks p -> pdom tasks (pnet p) -> nf (pool_step T) p ->
  (forall t, t ∈ tasks -> t ∈ started p) /\ nf net_step (pnet p).
Proof.
  intros HT [Ha Hb] Hd Hn. destruct p as [N q l]. cbn [waiting started pnet] in *.
  assert (Hq : q = []).
  { destruct q as [|t q]; [reflexivity|]. exfalso. apply Hn. eexists. apply pool_start. pose proof (busy_le N l). cbn in Hb. lia. }
  subst q. assert (Hs : forall t, t ∈ tasks -> t ∈ l).
  { intros t Ht. apply Ha in Ht. destruct Ht as [Ht|Ht]; [apply elem_of_nil in Ht; destruct Ht|assumption]. }
  split; [assumption|]. intros [N' HN]. apply Hn. destruct (net_task _ _ HN) as [Ht|[t [Hi Ht]]].
  - eexists. apply pool_transport. eassumption.
  - eexists. eapply pool_task; [|eassumption]. apply Hs, Hd, Hi.
Qed.

Lemma parties_reach P f N : parties_end_in P f -> rtc net_step (start P ∅) N ->
  exists N', rtc net_step N N' /\ parties N' = f /\ nf net_step N'.
Proof.
  intros [c [I [B [o [Hnf [n Hn]]]]]] HN. apply rtc_nsteps in HN as [k HN]. destruct (Hn _ _ HN) as [_ Hr].
  exists (Net f c I B o). split; [assumption|split; [reflexivity|assumption]].
Qed.
Lemma parties_stuck P f N : parties_end_in P f -> rtc net_step (start P ∅) N -> nf net_step N -> parties N = f.
Proof.
  intros H HN Hnf. destruct (parties_reach _ _ _ H HN) as [N' [Hr [Hf _]]].
  inversion Hr; subst; [reflexivity|]. exfalso. apply Hnf. eexists. eassumption.
Qed.
Lemma parties_bound P f : parties_end_in P f -> exists n, forall k N, nsteps net_step k (start P ∅) N -> k <= n.
Proof. intros [c [I [B [o [Hnf [n Hn]]]]]]. exists n. intros k N H. destruct (Hn _ _ H). assumption. Qed.

(** executions of an evaluation *)
Lemma nsteps_pool (R : relation (evaluation M X A)) T
  (HR : forall s t, R s t -> (exists p p', s = Running p /\ t = Running p' /\ pool_step T p p') \/ (exists p a, s = Running p /\ t = Answered a)) :
  forall k p t, nsteps R k (Running p) t -> (exists p', t = Running p' /\ nsteps (pool_step T) k p p') \/
    (exists k' p' a, k = S k' /\ t = Answered a /\ nsteps (pool_step T) k' p p' /\ R (Running p') (Answered a)).
Proof.
  induction k as [|k IH]; intros p t H.
  - inversion H; subst. left. exists p. split; [reflexivity|constructor].
  - inversion H as [|k0 x y z Hxy Hyz]; subst. destruct (HR _ _ Hxy) as [[q [q' [E1 [E2 Hs]]]]|[q [a [E1 E2]]]]; injection E1 as <-; subst y.
    + destruct (IH _ _ Hyz) as [[p' [-> Hp]]|[k' [p' [a [-> [-> [Hp Hl]]]]]]].
      * left. exists p'. split; [reflexivity|]. econstructor; eassumption.
      * right. exists (S k'), p', a. split; [reflexivity|]. split; [reflexivity|]. split; [econstructor; eassumption|assumption].
    + assert (Ek : k = 0 /\ t = Answered a).
      { inversion Hyz as [|k1 x y' z Hxy' Hyz']; subst; [split; reflexivity|]. destruct (HR _ _ Hxy') as [[? [? [? _]]]|[? [? [? _]]]]; discriminate. }
      destruct Ek as [-> ->]. right. exists 0, p, a. split; [reflexivity|]. split; [reflexivity|]. split; [constructor|assumption].
Qed.
Lemma mem_shape T tasks s t : mem_step T tasks s t -> (exists p p', s = Running p /\ t = Running p' /\ pool_step (M:=M) (X:=X) (A:=A) T p p') \/ (exists p a, s = Running p /\ t = Answered a).
Proof. intros H. destruct H; [left|right|right]; eauto 6. Qed.

Section One.
Variables (n T : nat) (P f : gmap nat (prog M X A)).
Hypothesis HnT : n <= T.
Hypothesis Hper : per_rank n P.
Hypothesis Hend : parties_end_in P f.
Let tasks := seq 0 n.
Let p0 : pool M X A := Pool (start P ∅) tasks [].

Lemma reach_inv k p : nsteps (pool_step T) k p0 p ->
  accounted tasks p /\ pdom tasks (pnet p) /\ rtc net_step (start P ∅) (pnet p).
Proof.
  intros H. split; [|split].
  - assert (Hr : rtc (pool_step T) p0 p) by (apply rtc_nsteps; exists k; assumption). clear H.
    assert (H0 : accounted tasks p0).
    { split; [|cbn; lia]. intros t. cbn. split; [intros Ht; left; assumption|intros [Ht|Ht]; [assumption|apply elem_of_nil in Ht; destruct Ht]]. }
    revert H0. induction Hr; intros H0; [assumption|]. apply IHHr. eapply accounted_step; eassumption.
  - assert (Hr : rtc (pool_step T) p0 p) by (apply rtc_nsteps; exists k; assumption). clear H.
    assert (H0 : pdom tasks (pnet p0)).
    { intros t. cbn. unfold tasks. rewrite elem_of_seq. rewrite (Hper t). lia. }
    revert H0. induction Hr; intros H0; [assumption|]. apply IHHr. eapply pdom_step; eassumption.
  - destruct (pool_project _ _ _ _ H) as [j [Hj _]]. apply rtc_nsteps; exists j; assumption.
Qed.
Lemma reach_finished k p t q : nsteps (pool_step T) k p0 p -> parties (pnet p) !! t = Some q -> finished q -> f !! t = Some q.
Proof.
  intros H Ht Hf. destruct (reach_inv _ _ H) as [_ [_ Hr]]. destruct (parties_reach _ _ _ Hend Hr) as [N' [Hn [<- _]]].
  eapply finished_stable_rtc; eassumption.
Qed.
Lemma returned_final k p t a : nsteps (pool_step T) k p0 p -> returned p t a -> f !! t = Some (Ret a).
Proof. intros H [_ Hr]. eapply reach_finished; [eassumption|eassumption|exact I]. Qed.
Lemma threw_final k p t x : nsteps (pool_step T) k p0 p -> threw p t x -> f !! t = Some (Throw x).
Proof. intros H [_ Hr]. eapply reach_finished; [eassumption|eassumption|exact I]. Qed.
Lemma pool_bound : exists b, forall k p, nsteps (pool_step T) k p0 p -> k <= b.
Proof.
  destruct (parties_bound _ _ Hend) as [b Hb]. exists (b + n). intros k p H.
  destruct (pool_project _ _ _ _ H) as [j [Hj [-> Hl]]]. specialize (Hb _ _ Hj). unfold p0, tasks in *. cbn [waiting] in *. rewrite seq_length. lia.
Qed.
Lemma stuck_final k p : nsteps (pool_step T) k p0 p -> nf (pool_step T) p ->
  (forall t, t < n -> t ∈ started p) /\ parties (pnet p) = f.
Proof.
  intros H Hn. destruct (reach_inv _ _ H) as [Ha [Hd Hr]].
  destruct (pool_stuck T tasks p) as [Hs Hnf]; [unfold tasks; rewrite seq_length; assumption|assumption|assumption|assumption|].
  split; [|eapply parties_stuck; eassumption]. intros t Ht. apply Hs. unfold tasks. apply elem_of_seq. lia.
Qed.

Lemma mem_answers :
  (forall t, t < n -> exists a, f !! t = Some (Ret a)) \/ (exists t x, t < n /\ f !! t = Some (Throw x)) ->
  always_answers (mem_step T tasks) (submitted tasks P)
    (fun ans => match ans with
       | Results l => Forall2 (fun t a => f !! t = Some (Ret a)) tasks l
       | Raised x => exists t, t < n /\ f !! t = Some (Throw x) end).
Proof.
  intros Hcase. unfold submitted. change (Pool (start P ∅) tasks []) with p0. split; [|split].
  - destruct pool_bound as [b Hb]. exists (S b). intros k t H.
    destruct (nsteps_pool _ T (mem_shape T tasks) _ _ _ H) as [[p' [-> Hp]]|[k' [p' [a [-> [-> [Hp Hl]]]]]]]; specialize (Hb _ _ Hp); lia.
  - intros t Ht Hnf. apply rtc_nsteps in Ht as [k Ht].
    destruct (nsteps_pool _ T (mem_shape T tasks) _ _ _ Ht) as [[p' [-> Hp]]|[k' [p' [a [-> [-> [Hp Hl]]]]]]]; [|eauto].
    exfalso. apply Hnf.
    assert (Hp' : nf (pool_step T) p') by (intros [p2 Hp2]; apply Hnf; eexists; apply mem_run; eassumption).
    destruct (stuck_final _ _ Hp Hp') as [Hs Hf]. destruct Hcase as [Hall|[u [x [Hu Hx]]]].
    + assert (HF : exists l, Forall2 (returned p') tasks l).
      { assert (Hg : forall l0, (forall u, u ∈ l0 -> u < n) -> exists l, Forall2 (returned p') l0 l).
        { induction l0 as [|u l0 IH]; intros Hl0; [exists []; constructor|]. destruct IH as [l Hl]; [intros; apply Hl0; right; assumption|].
          destruct (Hall u) as [a Ha]; [apply Hl0; left|]. exists (a :: l). constructor; [|assumption]. split; [apply Hs, Hl0; left|rewrite Hf; assumption]. }
        apply Hg. intros u Hu. apply elem_of_seq in Hu. lia. }
      destruct HF as [l Hl]. eexists. eapply mem_all. eassumption.
    + eexists. eapply mem_fail; [apply elem_of_seq with (j := 0) (n := n) (k := u); lia|]. split; [apply Hs; assumption|rewrite Hf; eassumption].
  - intros a Ha. apply rtc_nsteps in Ha as [k Ha].
    destruct (nsteps_pool _ T (mem_shape T tasks) _ _ _ Ha) as [[p' [E _]]|[k' [p' [a' [-> [E [Hp Hl]]]]]]]; [discriminate|].
    injection E as <-. inversion Hl; subst.
    + eapply Forall2_impl; [eassumption|]. intros t v Hv. eapply returned_final; eassumption.
    + exists t. split; [match goal with H : t ∈ tasks |- _ => apply elem_of_seq in H end; lia|eapply threw_final; eassumption].
Qed.

Lemma http_shape s t : http_step None T tasks s t -> (exists p p', s = Running p /\ t = Running p' /\ pool_step (M:=M) (X:=X) (A:=A) T p p') \/ (exists p a, s = Running p /\ t = Answered a).
Proof. intros H. destruct H; [left|discriminate|right|right]; eauto 6. Qed.
Lemma returned_all p l0 : (forall u, u ∈ l0 -> exists a, returned p u a) -> exists l, Forall2 (returned p) l0 l.
Proof.
  induction l0 as [|u l0 IH]; intros Hl0; [exists []; constructor|]. destruct IH as [l Hl]; [intros; apply Hl0; right; assumption|].
  destruct (Hl0 u) as [a Ha]; [left|]. exists (a :: l). constructor; assumption.
Qed.
Lemma http_sound a : rtc (http_step None T tasks) (submitted tasks P) (Answered a) ->
  match a with
  | Results l => Forall2 (fun t a => f !! t = Some (Ret a)) tasks l
  | Raised x => exists t, t < n /\ f !! t = Some (Throw x) /\ (forall u, u < t -> exists v, f !! u = Some (Ret v)) end.
Proof.
  intros Ha. apply rtc_nsteps in Ha as [k Ha]. unfold submitted in Ha. change (Pool (start P ∅) tasks []) with p0 in Ha.
  destruct (nsteps_pool _ T http_shape _ _ _ Ha) as [[p' [E _]]|[k' [p' [a' [-> [E [Hp Hl]]]]]]]; [discriminate|].
  injection E as <-. inversion Hl; subst.
  - eapply Forall2_impl; [eassumption|]. intros t v Hv. eapply returned_final; eassumption.
  - assert (Hlen : t = length pre /\ t < n /\ forall u, u < t -> u ∈ pre).
    { match goal with H : tasks = _ |- _ => rename H into E end. unfold tasks in E.
      assert (E1 : seq 0 n !! length pre = Some t) by (rewrite E, list_lookup_middle; reflexivity).
      apply lookup_seq in E1 as [E1 E2]. split; [lia|]. split; [lia|]. intros u Hu.
      assert (Eu : seq 0 n !! u = Some u) by (apply lookup_seq; lia). rewrite E in Eu. rewrite lookup_app_l in Eu by lia.
      apply elem_of_list_lookup. eauto. }
    destruct Hlen as [_ [Htn Hpre]]. exists t. split; [assumption|]. split; [eapply threw_final; eassumption|].
    intros u Hu. match goal with H : Forall2 (returned p') pre _ |- _ => rename H into HF end.
    specialize (Hpre u Hu). apply elem_of_list_lookup in Hpre. destruct Hpre as [i Hi].
    destruct (Forall2_lookup_l _ _ _ _ _ HF Hi) as [v [_ Hv]]. exists v. eapply returned_final; eassumption.
Qed.
Lemma http_answers :
  (forall t, t < n -> exists a, f !! t = Some (Ret a)) \/
  (exists t x, t < n /\ f !! t = Some (Throw x) /\ forall u, u < t -> exists v, f !! u = Some (Ret v)) ->
  always_answers (http_step None T tasks) (submitted tasks P)
    (fun ans => match ans with
       | Results l => Forall2 (fun t a => f !! t = Some (Ret a)) tasks l
       | Raised x => exists t, t < n /\ f !! t = Some (Throw x) /\ (forall u, u < t -> exists v, f !! u = Some (Ret v)) end).
Proof.
  intros Hcase. split; [|split; [|intros a Ha; apply http_sound; assumption]]; unfold submitted; change (Pool (start P ∅) tasks []) with p0.
  - destruct pool_bound as [b Hb]. exists (S b). intros k t H.
    destruct (nsteps_pool _ T http_shape _ _ _ H) as [[p' [-> Hp]]|[k' [p' [a [-> [-> [Hp Hl]]]]]]]; specialize (Hb _ _ Hp); lia.
  - intros t Ht Hnf. apply rtc_nsteps in Ht as [k Ht].
    destruct (nsteps_pool _ T http_shape _ _ _ Ht) as [[p' [-> Hp]]|[k' [p' [a [-> [-> [Hp Hl]]]]]]]; [|eauto].
    exfalso. apply Hnf.
    assert (Hp' : nf (pool_step T) p') by (intros [p2 Hp2]; apply Hnf; eexists; apply http_run; eassumption).
    destruct (stuck_final _ _ Hp Hp') as [Hs Hf]. destruct Hcase as [Hall|[u [x [Hu [Hx Hlow]]]]].
    + destruct (returned_all p' tasks) as [l Hl].
      { intros u Hu. apply elem_of_seq in Hu. destruct (Hall u) as [a Ha]; [lia|]. exists a. split; [apply Hs; lia|rewrite Hf; assumption]. }
      eexists. eapply http_all. eassumption.
    + destruct (returned_all p' (seq 0 u)) as [l Hl].
      { intros w Hw. apply elem_of_seq in Hw. destruct (Hlow w) as [a Ha]; [lia|]. exists a. split; [apply Hs; lia|rewrite Hf; assumption]. }
      exists (Answered (Raised x)). apply (http_fail None T tasks p' (seq 0 u) u (seq (S u) (n - S u)) l x); [|exact Hl|split; [apply Hs; assumption|rewrite Hf; exact Hx]].
      unfold tasks. replace n with (u + S (n - S u)) at 1 by lia. rewrite seq_app. reflexivity.
Qed.
End One.

(** HTTP: rank 0 waits for rank 1, which throws *)
Section Hidden.
Variables (n T : nat) (timeout : option X) (x : X) (k0 : M -> prog M X A).
Definition hid (p : pool M X A) : Prop :=
  parties (pnet p) !! 1 = Some (Throw x) /\
  (parties (pnet p) !! 0 = Some (Recv 1 k0) \/ exists e, timeout = Some e /\ parties (pnet p) !! 0 = Some (Throw e)) /\
  (forall i, infl (pnet p) !! (1, 0, i) = None) /\ (forall i, mbox (pnet p) !! (1, 0, i) = None).
Lemma hid_task t N N' q l : task_step t N N' -> hid (Pool N q l) -> hid (Pool N' q l).
Proof.
  intros H [H1 [H0 [Hi Hb]]]. destruct H; cbn [pnet parties infl mbox] in *.
  - assert (t <> 1) by (intros ->; congruence). assert (t <> 0) by (intros ->; destruct H0 as [H0|[e [_ H0]]]; congruence).
    split; [cbn; rewrite lookup_insert_ne by congruence; assumption|]. split; [cbn; rewrite lookup_insert_ne by congruence; assumption|].
    split; [|assumption]. intros i. cbn. rewrite lookup_insert_ne by congruence. apply Hi.
  - assert (t <> 1) by (intros ->; congruence).
    assert (t <> 0). { intros ->. destruct H0 as [H0|[e [_ H0]]]; [|congruence]. rewrite H in H0. injection H0 as -> _. rewrite Hb in *. discriminate. }
    split; [cbn; rewrite lookup_insert_ne by congruence; assumption|]. split; [cbn; rewrite lookup_insert_ne by congruence; assumption|].
    split; [assumption|]. intros i. cbn. destruct (decide ((frm, t, cget c (t, frm)) = (1, 0, i))) as [E|E]; [congruence|]. rewrite lookup_delete_ne by assumption. apply Hb.
Qed.
Lemma hid_transport N N' q l : transport_step N N' -> hid (Pool N q l) -> hid (Pool N' q l).
Proof.
  intros H [H1 [H0 [Hi Hb]]]. destruct H; cbn [pnet parties infl mbox] in *; (split; [assumption|split; [assumption|]]).
  - assert (Hk : forall i, key <> (1, 0, i)) by (intros i ->; rewrite Hi in *; discriminate).
    split; intros i; cbn; [rewrite lookup_delete_ne by (apply Hk); apply Hi|rewrite lookup_insert_ne by (apply Hk); apply Hb].
  - assert (Hk : forall i, key <> (1, 0, i)) by (intros i ->; rewrite Hi in *; discriminate).
    split; intros i; cbn; [rewrite lookup_delete_ne by (apply Hk); apply Hi|apply Hb].
Qed.
Lemma hid_answer s a : rtc (http_step timeout T (seq 0 n)) s (Answered a) -> 0 < n ->
  (forall p, s = Running p -> hid p) -> (forall b, s = Answered b -> exists e, timeout = Some e /\ b = Raised e) ->
  exists e, timeout = Some e /\ a = Raised e.
Proof.
  intros H Hn. remember (Answered a) as z eqn:Ez. induction H as [|s s1 z Hs Hr IH]; intros Hp Ha; [apply Ha; assumption|].
  apply IH; [assumption| |].
  - intros p ->. inversion Hs; subst.
    + specialize (Hp _ eq_refl). match goal with H : pool_step _ _ _ |- _ => destruct H end; [exact Hp|eapply hid_task; eassumption|eapply hid_transport; eassumption].
    + specialize (Hp _ eq_refl). destruct Hp as [P1 [P0 [Pi Pb]]]. cbn [pnet parties infl mbox] in *.
      assert (t <> 1) by (intros ->; congruence).
      split; [cbn; rewrite lookup_insert_ne by congruence; assumption|]. split; [|split; assumption]. cbn.
      destruct (decide (t = 0)) as [->|Hne]; [right; eexists; split; [eassumption|apply lookup_insert]|]. rewrite lookup_insert_ne by assumption. assumption.
  - intros b ->. destruct n as [|n']; [lia|]. inversion Hs; subst.
    + specialize (Hp _ eq_refl). destruct Hp as [_ [P0 _]]. match goal with H : Forall2 _ _ _ |- _ => inversion H; subst end.
      match goal with H : returned _ 0 _ |- _ => destruct H as [_ H] end. destruct P0 as [P0|[e [_ P0]]]; congruence.
    + specialize (Hp _ eq_refl). destruct Hp as [_ [P0 _]].
      match goal with H : seq 0 (S n') = _ |- _ => rename H into E end. destruct pre as [|u pre]; cbn in E.
      * injection E as <- _. match goal with H : threw _ 0 _ |- _ => destruct H as [_ H] end. destruct P0 as [P0|[e [He P0]]]; [congruence|]. exists e. split; [assumption|congruence].
      * injection E as <- _. match goal with H : Forall2 _ _ _ |- _ => inversion H; subst end.
        match goal with H : returned _ 0 _ |- _ => destruct H as [_ H] end. destruct P0 as [P0|[e [_ P0]]]; congruence.
Qed.
End Hidden.

(** starting the head of the queue while threads are free *)
Lemma start_many T N : forall l q st, length st + length l <= T ->
  rtc (pool_step T) (Pool N (l ++ q) st) (Pool (M:=M) (X:=X) (A:=A) N q (rev l ++ st)).
Proof.
  induction l as [|t l IH]; intros q st H; [apply rtc_refl|]. cbn [app]. eapply rtc_l.
  - apply pool_start. pose proof (busy_le N st). cbn in H. lia.
  - cbn [rev]. rewrite <- app_assoc. apply IH. cbn in *. lia.
Qed.
Lemma lift_net T q l N N' : (forall t, is_Some (parties N !! t) -> t ∈ l) -> rtc net_step N N' ->
  rtc (pool_step T) (Pool N q l) (Pool N' q l).
Proof.
  intros Hl H. induction H as [|N N1 N2 H1 H2 IH]; [apply rtc_refl|]. eapply rtc_l.
  - destruct (net_task _ _ H1) as [Ht|[t [Hi Ht]]]; [apply pool_transport; eassumption|eapply pool_task; [apply Hl; exact Hi|eassumption]].
  - apply IH. intros t Ht. apply Hl. apply (dom_stable _ _ t H1). exact Ht.
Qed.
Lemma mem_reaches_end n T (P f : gmap nat (prog M X A)) : n <= T -> per_rank n P -> parties_end_in P f ->
  exists p, rtc (mem_step T (seq 0 n)) (submitted (seq 0 n) P) (Running p) /\ parties (pnet p) = f /\ forall t, t < n -> t ∈ started p.
Proof.
  intros HT Hper Hend. destruct (parties_reach _ _ _ Hend (rtc_refl _ _)) as [N' [Hr [Hf _]]].
  exists (Pool N' [] (rev (seq 0 n) ++ [])). split; [|split; [assumption|]].
  - unfold submitted. assert (Hrun : forall p p', rtc (pool_step T) p p' -> rtc (mem_step T (seq 0 n)) (Running p) (Running p')).
    { intros p p' H. induction H; [apply rtc_refl|]. eapply rtc_l; [apply mem_run; eassumption|assumption]. }
    apply Hrun. eapply rtc_transitive.
    + rewrite <- (app_nil_r (seq 0 n)) at 1. apply start_many. rewrite seq_length. cbn. lia.
    + apply lift_net; [|assumption]. intros t Ht. rewrite app_nil_r. apply elem_of_list_In, in_rev. rewrite rev_involutive. apply in_seq. apply Hper in Ht. lia.
  - intros t Ht. cbn. rewrite app_nil_r. apply elem_of_list_In, in_rev. rewrite rev_involutive. apply in_seq. lia.
Qed.
End Pool.

Lemma interleave_r {T : Type} (l : list T) : interleave [] l l.
Proof. induction l; constructor; assumption. Qed.
Lemma interleave_l {T : Type} (l : list T) : interleave l [] l.
Proof. induction l; constructor; assumption. Qed.
Lemma interleave_app {T : Type} (a b c d e g : list T) : interleave a b c -> interleave d e g -> interleave (a ++ d) (b ++ e) (c ++ g).
Proof. intros H Hg. induction H; cbn; [assumption|constructor; assumption|constructor; assumption]. Qed.
