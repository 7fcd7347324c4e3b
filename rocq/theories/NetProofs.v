(** Determinacy of the network and the rendezvous semantics. *)
From stdpp Require Import gmap relations.
From Verif Require Import NetSpec NetModel.

Section Abs.
  Context {S : Type} (R : relation S) (inv : S -> Prop).
  Hypothesis inv_step : forall s t, inv s -> R s t -> inv t.
  Hypothesis diamond : forall s t u, inv s -> R s t -> R s u -> t = u \/ exists w, R t w /\ R u w.
  Lemma strip n : forall s t f, inv s -> nsteps R n s f -> nf R f -> R s t -> exists n', n = Datatypes.S n' /\ nsteps R n' t f.
  Proof.
    induction n as [|n IH]; intros s t f Hs Hn Hf Ht.
    - inversion Hn; subst. destruct Hf. exists t. exact Ht.
    - exists n. split; [reflexivity|]. inversion Hn as [|? ? u ? Hu Hn']; subst.
      destruct (diamond s t u Hs Ht Hu) as [->|[w [W1 W2]]]; [exact Hn'|].
      destruct (IH u w f (inv_step _ _ Hs Hu) Hn' Hf W2) as [n' [-> Hn'']].
      econstructor; [exact W1|exact Hn''].
  Qed.
  Lemma determinate n s f : inv s -> nsteps R n s f -> nf R f ->
    forall k t, nsteps R k s t -> k <= n /\ nsteps R (n - k) t f.
  Proof.
    intros Hs Hn Hf k. revert n s Hs Hn. induction k as [|k IH]; intros n s Hs Hn t Ht.
    - inversion Ht; subst. rewrite Nat.sub_0_r. split; [lia|exact Hn].
    - inversion Ht as [|? ? u ? Hu Ht']; subst. destruct (strip n s u f Hs Hn Hf Hu) as [n' [-> Hn']].
      destruct (IH n' u (inv_step _ _ Hs Hu) Hn' t Ht') as [G1 G2]. split; [lia|exact G2].
  Qed.
  Lemma determinate_ends s f : inv s -> rtc R s f -> nf R f -> every_schedule_ends_in R s f.
  Proof.
    intros Hs Hr Hf. split; [exact Hf|]. apply rtc_nsteps in Hr. destruct Hr as [n Hn]. exists n.
    intros k t Ht. destruct (determinate n s f Hs Hn Hf k t Ht) as [G1 G2]. split; [exact G1|].
    apply rtc_nsteps. eauto.
  Qed.
End Abs.

Section Net.
  Context {M X A : Type}.
  Notation net := (net M X A).
  Notation step := (@net_step M X A).

  Lemma cget_tick_same c k : cget (ctick c k) k = S (cget c k).
  Proof. unfold cget at 1, ctick. by rewrite lookup_insert. Qed.
  Lemma cget_tick_other c k j : k <> j -> cget (ctick c k) j = cget c j.
  Proof. intros H. unfold cget at 1, ctick. by rewrite lookup_insert_ne. Qed.
  Lemma ctick_comm c k j : k <> j -> ctick (ctick c k) j = ctick (ctick c j) k.
  Proof.
    intros H. unfold ctick at 1 3. rewrite !cget_tick_other by congruence. unfold ctick. apply insert_commute. congruence.
  Qed.

  (** Keys are fresh: everything in the network is numbered below the sender's counter, and
      no key is both in flight and in a mailbox. *)
  Definition wf (s : net) : Prop :=
    overflowed s = false /\
    (forall a b q m, infl s !! (a, b, q) = Some m -> q < cget (ctr s) (a, b)) /\
    (forall a b q m, mbox s !! (a, b, q) = Some m -> q < cget (ctr s) (a, b)) /\
    (forall key m, infl s !! key = Some m -> mbox s !! key = None).

  Lemma cget_tick_le c k j : cget c j <= cget (ctick c k) j.
  Proof. destruct (decide (k = j)) as [->|H]; [rewrite cget_tick_same; lia|rewrite cget_tick_other by exact H; lia]. Qed.

  Lemma wf_start P c : wf (start P c).
  Proof. split; [reflexivity|]. split; [|split]; intros; cbn in *; rewrite lookup_empty in *; discriminate. Qed.
  Lemma wf_step s t : wf s -> step s t -> wf t.
  Proof.
    intros [W0 [W1 [W2 W3]]] H. destruct H as [P c I B o r to m k HP|P c I B o key m HI HB|P c I B o key m m' HI HB|P c I B o r frm k m HP HB];
      cbn [overflowed infl mbox ctr] in *.
    - split; [exact W0|]. cbn [overflowed infl mbox ctr]. split; [|split].
      + intros a b q m' H. destruct (decide ((r, to, cget c (r, to)) = (a, b, q))) as [E|E].
        * injection E as <- <- <-. rewrite cget_tick_same. lia.
        * rewrite lookup_insert_ne in H by exact E. apply W1 in H. pose proof (cget_tick_le c (r, to) (a, b)). lia.
      + intros a b q m' H. apply W2 in H. pose proof (cget_tick_le c (r, to) (a, b)). lia.
      + intros key m' H. destruct (decide ((r, to, cget c (r, to)) = key)) as [E|E].
        * subst key. destruct (B !! (r, to, cget c (r, to))) as [x|] eqn:EB; [|reflexivity]. apply W2 in EB. lia.
        * rewrite lookup_insert_ne in H by exact E. eauto.
    - split; [exact W0|]. cbn [overflowed infl mbox ctr]. split; [|split].
      + intros a b q m' H. apply lookup_delete_Some in H. destruct H. eauto.
      + intros a b q m' H. destruct (decide (key = (a, b, q))) as [->|E]; [eauto|]. rewrite lookup_insert_ne in H by exact E. eauto.
      + intros key' m' H. apply lookup_delete_Some in H. destruct H as [N H]. rewrite lookup_insert_ne by congruence. eauto.
    - apply W3 in HI. congruence.
    - split; [exact W0|]. cbn [overflowed infl mbox ctr]. split; [|split].
      + intros a b q m' H. apply W1 in H. pose proof (cget_tick_le c (r, frm) (a, b)). lia.
      + intros a b q m' H. apply lookup_delete_Some in H. destruct H as [_ H]. apply W2 in H. pose proof (cget_tick_le c (r, frm) (a, b)). lia.
      + intros key' m' H. apply W3 in H. rewrite lookup_delete_None. auto.
  Qed.
  Lemma wf_steps s t : wf s -> rtc step s t -> wf t.
  Proof. intros Hw H. induction H as [|s u t H1 _ IH]; [exact Hw|]. apply IH. eapply wf_step; eassumption. Qed.

  Lemma net_diamond s t u : wf s -> step s t -> step s u -> t = u \/ exists w, step t w /\ step u w.
  Proof.
    intros [W0 [W1 [W2 W3]]] H1 H2.
    inversion H1 as [P c I B o r to m k HP|P c I B o key m HI HB|P c I B o key m m' HI HB|P c I B o r frm k m HP HB]; subst; clear H1;
    inversion H2 as [P2 c2 I2 B2 o2 r2 to2 m2 k2 HP2|P2 c2 I2 B2 o2 key2 m2 HI2 HB2|P2 c2 I2 B2 o2 key2 m2 m2' HI2 HB2|P2 c2 I2 B2 o2 r2 frm2 k2 m2 HP2 HB2]; subst; clear H2;
    cbn [overflowed infl mbox ctr] in *; subst;
      try (match goal with Hi : I !! _ = Some _, Hb : B !! _ = Some _ |- _ => apply W3 in Hi; congruence end).
    - destruct (decide (r = r2)) as [->|N].
      + left. rewrite HP in HP2. injection HP2 as <- <- <-. reflexivity.
      + right. exists (Net (<[r2:=k2]> (<[r:=k]> P)) (ctick (ctick c (r, to)) (r2, to2))
                    (<[(r2, to2, cget c (r2, to2)) := m2]> (<[(r, to, cget c (r, to)) := m]> I)) B false). split.
        * rewrite <- (cget_tick_other c (r, to) (r2, to2)) by congruence. apply net_send. by rewrite lookup_insert_ne.
        * rewrite (insert_commute P) by congruence. rewrite ctick_comm by congruence.
          rewrite (insert_commute I) by congruence.
          rewrite <- (cget_tick_other c (r2, to2) (r, to)) by congruence. apply net_send. by rewrite lookup_insert_ne.
    - right. assert (N : key2 <> (r, to, cget c (r, to))) by (intros ->; apply W1 in HI2; lia).
      exists (Net (<[r:=k]> P) (ctick c (r, to)) (<[(r, to, cget c (r, to)) := m]> (delete key2 I)) (<[key2:=m2]> B) false). split.
      + rewrite <- delete_insert_ne by congruence. apply net_deliver; [by rewrite lookup_insert_ne by congruence|exact HB2].
      + apply net_send. exact HP.
    - right. assert (N : r <> r2) by (intros ->; congruence).
      exists (Net (<[r2:=k2 m2]> (<[r:=k]> P)) (ctick (ctick c (r, to)) (r2, frm2)) (<[(r, to, cget c (r, to)) := m]> I)
                  (delete (frm2, r2, cget c (r2, frm2)) B) false). split.
      + rewrite <- (cget_tick_other c (r, to) (r2, frm2)) by congruence. apply net_recv; [by rewrite lookup_insert_ne|].
        by rewrite cget_tick_other by congruence.
      + rewrite (insert_commute P) by congruence. rewrite ctick_comm by congruence.
        rewrite <- (cget_tick_other c (r2, frm2) (r, to)) by congruence. apply net_send. by rewrite lookup_insert_ne.
    - right. assert (N : key <> (r2, to2, cget c (r2, to2))) by (intros ->; apply W1 in HI; lia).
      exists (Net (<[r2:=k2]> P) (ctick c (r2, to2)) (<[(r2, to2, cget c (r2, to2)) := m2]> (delete key I)) (<[key:=m]> B) false). split.
      + apply net_send. exact HP2.
      + rewrite <- delete_insert_ne by congruence. apply net_deliver; [by rewrite lookup_insert_ne by congruence|exact HB].
    - destruct (decide (key = key2)) as [->|N].
      + left. congruence.
      + right. exists (Net P c (delete key2 (delete key I)) (<[key2:=m2]> (<[key:=m]> B)) false). split.
        * apply net_deliver; [by rewrite lookup_delete_ne|by rewrite lookup_insert_ne].
        * rewrite delete_commute, insert_commute by congruence. apply net_deliver; [by rewrite lookup_delete_ne by congruence|by rewrite lookup_insert_ne by congruence].
    - right. assert (N : key <> (frm2, r2, cget c (r2, frm2))) by congruence.
      exists (Net (<[r2:=k2 m2]> P) (ctick c (r2, frm2)) (delete key I) (<[key:=m]> (delete (frm2, r2, cget c (r2, frm2)) B)) false). split.
      + rewrite <- delete_insert_ne by congruence. apply net_recv; [exact HP2|by rewrite lookup_insert_ne].
      + apply net_deliver; [exact HI|]. by rewrite lookup_delete_ne by congruence.
    - right. assert (N : r2 <> r) by (intros ->; congruence).
      exists (Net (<[r2:=k2]> (<[r:=k m]> P)) (ctick (ctick c (r, frm)) (r2, to2)) (<[(r2, to2, cget c (r2, to2)) := m2]> I)
                  (delete (frm, r, cget c (r, frm)) B) false). split.
      + rewrite <- (cget_tick_other c (r, frm) (r2, to2)) by congruence. apply net_send. by rewrite lookup_insert_ne.
      + rewrite (insert_commute P) by congruence. rewrite ctick_comm by congruence.
        rewrite <- (cget_tick_other c (r2, to2) (r, frm)) by congruence. apply net_recv; [by rewrite lookup_insert_ne|].
        by rewrite cget_tick_other by congruence.
    - right. assert (N : key2 <> (frm, r, cget c (r, frm))) by congruence.
      exists (Net (<[r:=k m]> P) (ctick c (r, frm)) (delete key2 I) (<[key2:=m2]> (delete (frm, r, cget c (r, frm)) B)) false). split.
      + apply net_deliver; [exact HI2|]. by rewrite lookup_delete_ne by congruence.
      + rewrite <- delete_insert_ne by congruence. apply net_recv; [exact HP|by rewrite lookup_insert_ne].
    - destruct (decide (r = r2)) as [->|N].
      + left. rewrite HP in HP2. injection HP2 as <- E. rewrite HB in HB2. injection HB2 as <-. by rewrite E.
      + right. exists (Net (<[r2:=k2 m2]> (<[r:=k m]> P)) (ctick (ctick c (r, frm)) (r2, frm2)) I
                  (delete (frm2, r2, cget c (r2, frm2)) (delete (frm, r, cget c (r, frm)) B)) false). split.
        * rewrite <- (cget_tick_other c (r, frm) (r2, frm2)) by congruence. apply net_recv; [by rewrite lookup_insert_ne|].
          rewrite cget_tick_other by congruence. by rewrite lookup_delete_ne by congruence.
        * rewrite (insert_commute P) by congruence. rewrite ctick_comm by congruence. rewrite delete_commute.
          rewrite <- (cget_tick_other c (r2, frm2) (r, frm)) by congruence. apply net_recv; [by rewrite lookup_insert_ne|].
          rewrite cget_tick_other by congruence. by rewrite lookup_delete_ne by congruence.
  Qed.

  Lemma net_determinate s f : wf s -> rtc step s f -> nf step f -> every_schedule_ends_in step s f.
  Proof.
    intros Hs Hr Hf. apply (determinate_ends step wf wf_step).
    - intros a b c. apply net_diamond.
    - exact Hs.
    - exact Hr.
    - exact Hf.
  Qed.

  (** Rendezvous semantics: sender and receiver move together. *)
  Inductive sync : gmap nat (prog M X A) -> gmap nat (prog M X A) -> Prop :=
  | sync_step : forall P a b m ka kb, a <> b ->
      P !! a = Some (Send b m ka) -> P !! b = Some (Recv a kb) ->
      sync P (<[b := kb m]> (<[a := ka]> P)).

  Lemma sync_sound P P' c : sync P P' -> matched c -> exists c', matched c' /\ rtc step (start P c) (start P' c').
  Proof.
    intros H HM. destruct H as [P a b m ka kb N HA HB].
    exists (ctick (ctick c (a, b)) (b, a)). split.
    - intros x y. destruct (decide ((x, y) = (a, b))) as [E1|E1]; [|destruct (decide ((x, y) = (b, a))) as [E2|E2]].
      + injection E1 as -> ->. rewrite (cget_tick_other _ (b, a) (a, b)) by congruence. rewrite !cget_tick_same.
        rewrite cget_tick_other by congruence. f_equal. apply HM.
      + injection E2 as -> ->. rewrite (cget_tick_other _ (b, a) (a, b)) by congruence. rewrite !cget_tick_same.
        rewrite cget_tick_other by congruence. f_equal. apply HM.
      + rewrite !cget_tick_other by congruence. apply HM.
    - unfold start. eapply rtc_l; [apply (net_send P c ∅ ∅ false a b m ka HA)|].
      eapply rtc_l; [apply net_deliver; [apply lookup_insert|apply lookup_empty]|].
      rewrite delete_insert by apply lookup_empty.
      eapply rtc_l; [|apply rtc_refl].
      pose proof (net_recv (<[a:=ka]> P) (ctick c (a, b)) ∅ (<[(a, b, cget c (a, b)):=m]> ∅) false b a kb m) as R.
      rewrite (cget_tick_other c (a, b) (b, a)) in R by congruence. rewrite <- (HM a b) in R.
      rewrite delete_insert in R by apply lookup_empty. apply R; [by rewrite lookup_insert_ne|apply lookup_insert].
  Qed.
  Lemma sync_sound_rtc P P' c : rtc sync P P' -> matched c -> exists c', matched c' /\ rtc step (start P c) (start P' c').
  Proof.
    intros H. revert c. induction H as [P|P Q P' H1 _ IH]; intros c HM; [exists c; split; [exact HM|apply rtc_refl]|].
    destruct (sync_sound P Q c H1 HM) as [c1 [M1 S1]]. destruct (IH c1 M1) as [c2 [M2 S2]].
    exists c2. split; [exact M2|]. eapply rtc_transitive; eassumption.
  Qed.
  Lemma finished_nf P c : (forall r p, P !! r = Some p -> finished p) -> nf step (start P c).
  Proof.
    intros H [t Ht]. unfold start in Ht. inversion Ht; subst.
    - match goal with G : P !! _ = Some _ |- _ => apply H in G; exact G end.
    - match goal with G : ∅ !! _ = Some _ |- _ => rewrite lookup_empty in G; discriminate end.
    - match goal with G : ∅ !! _ = Some _ |- _ => rewrite lookup_empty in G; discriminate end.
    - match goal with G : P !! _ = Some _ |- _ => apply H in G; exact G end.
  Qed.
  Lemma sync_ends P P' c : rtc sync P P' -> matched c -> (forall r p, P' !! r = Some p -> finished p) ->
    exists c', matched c' /\ every_schedule_ends_in step (start P c) (start P' c').
  Proof.
    intros H HM HF. destruct (sync_sound_rtc P P' c H HM) as [c' [M' S']]. exists c'. split; [exact M'|].
    apply net_determinate; [apply wf_start|exact S'|apply finished_nf, HF].
  Qed.
End Net.
