(** What a party returns despite faults is what it returns without. *)
From stdpp Require Import gmap.
From Verif Require Import NetSpec NetModel NetProofs FaultModel.

Section Fault.
Context {M X A : Type}.
Notation net := (net M X A).

(** [s'] is [s] with some parties dead and some messages missing *)
Record weaker (s' s : net) : Prop := Weaker {
  w_parties : forall r, parties s' !! r = parties s !! r \/ exists x, parties s' !! r = Some (Throw x) /\ is_Some (parties s !! r);
  w_ctr : ctr s' = ctr s;
  w_infl : forall k m, infl s' !! k = Some m -> infl s !! k = Some m;
  w_mbox : forall k m, mbox s' !! k = Some m -> mbox s !! k = Some m;
  w_over : overflowed s' = false
}.

Lemma alive_in s' s r p : weaker s' s -> parties s' !! r = Some p -> (forall x, p <> Throw x) -> parties s !! r = Some p.
Proof. intros W E N. destruct (w_parties _ _ W r) as [H|(x & H & _)]; [rewrite <- H; exact E|rewrite E in H; injection H as ->; destruct (N x eq_refl)]. Qed.

Lemma parties_insert (P' P : gmap nat (prog M X A)) r p :
  (forall q, P' !! q = P !! q \/ exists x, P' !! q = Some (Throw x) /\ is_Some (P !! q)) ->
  forall q, <[r := p]> P' !! q = <[r := p]> P !! q \/ exists x, <[r := p]> P' !! q = Some (Throw x) /\ is_Some (<[r := p]> P !! q).
Proof.
  intros H q. destruct (decide (r = q)) as [->|N]; [left; rewrite !lookup_insert; reflexivity|]. rewrite !lookup_insert_ne by exact N. apply H.
Qed.

Lemma weaker_step s' s t' : wf s -> weaker s' s -> faulty_step s' t' -> exists t, rtc net_step s t /\ weaker t' t.
Proof.
  intros [W0 [W1 [W2 W3]]] W H. destruct H as [s' t' H|P c I B o r p x HP|P c I B o key m HI].
  - destruct H as [P c I B o r to m k HP|P c I B o key m HI HB|P c I B o key m m' HI HB|P c I B o r frm k m HP HB]; destruct s as [P0 c0 I0 B0 o0]; pose proof W as [Wp Wc Wi Wb Wo]; cbn in *; subst.
    + pose proof (alive_in _ _ r _ W HP ltac:(discriminate)) as HP0. cbn in HP0.
      exists (Net (<[r := k]> P0) (ctick c0 (r, to)) (<[(r, to, cget c0 (r, to)) := m]> I0) B0 false). split; [apply rtc_once, net_send; exact HP0|].
      constructor; cbn; [apply parties_insert, Wp|reflexivity| |exact Wb|reflexivity].
      intros key m' E. destruct (decide ((r, to, cget c0 (r, to)) = key)) as [<-|N]; [rewrite lookup_insert in E |- *; exact E|]. rewrite lookup_insert_ne in E |- * by exact N. apply Wi, E.
    + exists (Net P0 c0 (delete key I0) (<[key := m]> B0) false). split; [apply rtc_once, net_deliver; [apply Wi, HI|apply (W3 key m), Wi, HI]|].
      constructor; cbn; [exact Wp|reflexivity| | |reflexivity].
      * intros key' m' E. apply lookup_delete_Some in E. destruct E as [N E]. rewrite lookup_delete_ne by exact N. apply Wi, E.
      * intros key' m' E. destruct (decide (key = key')) as [<-|N]; [rewrite lookup_insert in E |- *; exact E|]. rewrite lookup_insert_ne in E |- * by exact N. apply Wb, E.
    + exfalso. pose proof (W3 key m (Wi _ _ HI)) as Z. rewrite (Wb _ _ HB) in Z. discriminate Z.
    + pose proof (alive_in _ _ r _ W HP ltac:(discriminate)) as HP0. cbn in HP0.
      exists (Net (<[r := k m]> P0) (ctick c0 (r, frm)) I0 (delete (frm, r, cget c0 (r, frm)) B0) false). split; [apply rtc_once, net_recv; [exact HP0|apply Wb, HB]|].
      constructor; cbn; [apply parties_insert, Wp|reflexivity|exact Wi| |reflexivity].
      intros key' m' E. apply lookup_delete_Some in E. destruct E as [N E]. rewrite lookup_delete_ne by exact N. apply Wb, E.
  - exists s. split; [apply rtc_refl|]. destruct W as [Wp Wc Wi Wb Wo]. constructor; cbn in *; try assumption.
    intros q. destruct (decide (r = q)) as [->|N]; [|rewrite lookup_insert_ne by exact N; apply Wp]. right. exists x. rewrite lookup_insert. split; [reflexivity|].
    destruct (Wp q) as [E|(y & _ & E)]; [rewrite <- E, HP; eauto|exact E].
  - exists s. split; [apply rtc_refl|]. destruct W as [Wp Wc Wi Wb Wo]. constructor; cbn in *; try assumption.
    intros k' m' E. apply lookup_delete_Some in E. apply Wi, E.
Qed.
Lemma weaker_refl s : overflowed s = false -> weaker s s.
Proof. intros O. constructor; auto. Qed.
Lemma weaker_steps s t' : wf s -> rtc faulty_step s t' -> exists t, rtc net_step s t /\ weaker t' t.
Proof.
  intros Hw H. enough (forall s', rtc faulty_step s' t' -> forall s, wf s -> weaker s' s -> exists t, rtc net_step s t /\ weaker t' t) as G by (apply (G s H s Hw), weaker_refl, Hw).
  clear s Hw H. intros s' H. induction H as [s'|s' u' t' H _ IH]; intros s Hw W; [exists s; split; [apply rtc_refl|exact W]|].
  destruct (weaker_step _ _ _ Hw W H) as (u & R & Wu). destruct (IH u (wf_steps _ _ Hw R) Wu) as (t & Rt & Wt). exists t. split; [eapply rtc_transitive; eassumption|exact Wt].
Qed.

Lemma ret_stays (s t : net) r (a : A) : net_step s t -> parties s !! r = Some (Ret a) -> parties t !! r = Some (Ret a).
Proof.
  intros H E. destruct H as [P c I B o q to m k HP|P c I B o key m HI HB|P c I B o key m m' HI HB|P c I B o q frm k m HP HB]; cbn in *; try exact E;
    (destruct (decide (q = r)) as [->|N]; [rewrite HP in E; discriminate E|rewrite lookup_insert_ne by exact N; exact E]).
Qed.
Lemma ret_stays_rtc (s t : net) r (a : A) : rtc net_step s t -> parties s !! r = Some (Ret a) -> parties t !! r = Some (Ret a).
Proof. intros H. induction H as [|s u t H _ IH]; [auto|]. intros E. apply IH. eapply ret_stays; eassumption. Qed.

Theorem returned_despite_faults (P : gmap nat (prog M X A)) c (f s : net) r (a : A) :
  every_schedule_ends_in net_step (start P c) f -> rtc faulty_step (start P c) s -> parties s !! r = Some (Ret a) -> parties f !! r = Some (Ret (A := A) a).
Proof.
  intros [_ [n E]] H R. destruct (weaker_steps _ _ (wf_start P c) H) as (t & Rt & W).
  pose proof (alive_in _ _ r _ W R ltac:(discriminate)) as R'. apply rtc_nsteps in Rt. destruct Rt as [k Rt]. destruct (E k t Rt) as [_ Rf]. eapply ret_stays_rtc; eassumption.
Qed.
End Fault.
