From Coq Require Import String.
From Coq Require Import List Arith Bool Lia.
From Verif Require Import RequestIsolModel RequestIsolSpec.
Import ListNotations.
Local Open Scope nat_scope.

Section P.
Context {V : Type} (reqs : nat -> request V).

Lemma key_eqb_eq : forall a b, key_eqb a b = true -> a = b.
Proof.
  intros [a1 a2] [b1 b2] H. unfold key_eqb in H; simpl in H. apply andb_true_iff in H.
  destruct H as [H1 H2]. apply String.eqb_eq in H1. apply Nat.eqb_eq in H2. congruence.
Qed.
Lemma slot_is_eq : forall to frm k (q : packet V), slot_is to frm k q = true ->
  p_to q = to /\ p_from q = frm /\ p_key q = k.
Proof.
  intros to frm k q H. unfold slot_is in H. rewrite !andb_true_iff in H. destruct H as [[H1 H2] H3].
  apply Nat.eqb_eq in H1, H2. apply key_eqb_eq in H3. auto.
Qed.

(** every unread message was sent by its request under that request's context *)
Definition honest (h : list (event V)) (c : cluster V) : Prop :=
  forall p, In p (wire c) \/ In p (boxes c) ->
    fst (p_key p) = context (reqs (p_req p)) /\ In (Sent (p_req p) (p_from p) (p_to p) (p_val p)) h.

Ltac ins := repeat match goal with
  | H : In _ (_ ++ _) |- _ => apply in_app_iff in H
  | H : In _ (_ :: _) |- _ => simpl in H
  | H : _ \/ _ |- _ => destruct H
  end.

Lemma runs_honest : forall h c, runs reqs h c -> honest h c /\ genuine h.
Proof.
  induction 1 as [|h c e c' R [IH G] St Fr].
  - split; [intros p [[]|[]]|]. intros h1 i r f v j h2 E. destruct h1; discriminate.
  - split.
    + assert (M : forall p, fst (p_key p) = context (reqs (p_req p)) /\ In (Sent (p_req p) (p_from p) (p_to p) (p_val p)) h ->
          fst (p_key p) = context (reqs (p_req p)) /\ In (Sent (p_req p) (p_from p) (p_to p) (p_val p)) (h ++ [e])).
      { intros p [H1 H2]. split; auto. apply in_app_iff; auto. }
      intros p Hp. unfold honest in IH.
      inversion St; subst; simpl in *;
        try (apply M; apply IH; destruct Hp as [Hp|Hp]; ins; subst; rewrite ?in_app_iff; simpl; tauto).
      destruct Hp as [[<-|Hp]|Hp].
      * simpl. split; auto. apply in_app_iff; simpl; auto.
      * apply M, IH; auto.
      * apply M, IH; auto.
    + intros h1 i r f v j h2 E.
      destruct h2 as [|x h2] using rev_ind.
      * apply app_inj_tail in E. destruct E as [-> E]. subst e. inversion St; subst.
        match goal with H : slot_is _ _ _ _ = true |- _ => apply slot_is_eq in H; destruct H as (E1 & E2 & E3) end.
        destruct (IH p) as [_ H]; [right; simpl; apply in_app_iff; simpl; auto|].
        rewrite E1, E2 in H. exact H.
      * clear IHh2. rewrite app_comm_cons, app_assoc in E. apply app_inj_tail in E. destruct E as [E _].
        eapply G; exact E.
Qed.

Lemma runs_isolated_by_id : (forall i j, context (reqs i) = context (reqs j) -> i = j) ->
  forall h c, runs reqs h c -> isolated h.
Proof.
  intros Hid. induction 1 as [|h c e c' R IH St Fr]; [intros i r f v j []|].
  intros i r f v j H. apply in_app_iff in H. destruct H as [H|[H|[]]]; [eapply IH; exact H|]. subst e.
  destruct (runs_honest _ _ R) as [Ho _]. inversion St; subst.
  match goal with H : slot_is _ _ _ _ = true |- _ => apply slot_is_eq in H; destruct H as (E1 & E2 & E3) end.
  destruct (Ho p) as [H _]; [right; simpl; apply in_app_iff; simpl; auto|].
  apply Hid. rewrite <- H, E3. reflexivity.
Qed.

(** ** counting messages *)
Definition live (i f r : nat) (p : packet V) : bool := (p_req p =? i) && (p_from p =? f) && (p_to p =? r).
Definition is_dropped (i f r : nat) (e : event V) : bool :=
  match e with Dropped i' f' r' _ => (i' =? i) && (f' =? f) && (r' =? r) | _ => false end.
Lemma count_app : forall A (g : A -> bool) l l', count g (l ++ l') = count g l + count g l'.
Proof. induction l; simpl; intros; [reflexivity|]. rewrite IHl. lia. Qed.

Lemma runs_count : forall h c, runs reqs h c -> forall i f r,
  count (is_sent i f r) h = count (is_got_of i f r) h + count (is_dropped i f r) h +
                            count (live i f r) (wire c) + count (live i f r) (boxes c).
Proof.
  induction 1 as [|h c e c' R IH St Fr]; intros i f r; [reflexivity|].
  specialize (IH i f r). rewrite !count_app.
  inversion St; subst; cbn [wire boxes tasks] in *; rewrite ?count_app in *; cbn [count] in *;
    cbn [is_sent is_got_of is_dropped] in *; try lia.
  - unfold live at 1; simpl p_req; simpl p_from; simpl p_to. lia.
  - unfold live at 2 in IH. lia.
  - match goal with H : slot_is _ _ _ _ = true |- _ => apply slot_is_eq in H; destruct H as (E1 & E2 & E3) end.
    unfold live at 3 in IH. rewrite <- E1, <- E2 in *. lia.
Qed.

(** ** tasks *)
Definition tid (t : task V) : nat * nat := (t_req t, t_rank t).
Lemma runs_tasks : forall h c, runs reqs h c ->
  NoDup (map tid (tasks c)) /\
  (forall t, In t (tasks c) -> In (Started (t_req t) (t_rank t)) h) /\
  (forall i r res, In (Ended i r res) h -> In (Started i r) h /\ ~ In (i, r) (map tid (tasks c))) /\
  (forall i f r v, In (Sent i f r v) h -> In (Started i f) h).
Proof.
  induction 1 as [|h c e c' R (ND & IS & IE & IN) St Fr].
  - simpl. repeat split; try constructor; intros; contradiction.
  - assert (INs : forall x, In x h -> In x (h ++ [e])) by (intros; apply in_app_iff; auto).
    assert (Mid : forall ts1 ts2 (t t' : task V), tid t = tid t' ->
              map tid (ts1 ++ t :: ts2) = map tid (ts1 ++ t' :: ts2)).
    { intros. rewrite !map_app. simpl. congruence. }
    inversion St; subst; cbn [tasks] in *.
    + (* start *)
      assert (Fr' : ~ In (Started i r) h) by (apply Fr; reflexivity).
      assert (NT : ~ In (i, r) (map tid ts)).
      { intros H. apply in_map_iff in H. destruct H as (t & Ht & Hin). unfold tid in Ht.
        injection Ht as <- <-. apply Fr'. apply IS; assumption. }
      repeat split.
      * simpl. constructor; assumption.
      * intros t [<-|Ht]; [simpl; apply in_app_iff; simpl; auto | auto].
      * apply in_app_iff in H. destruct H as [H|[H|[]]]; [|discriminate]. apply INs; eapply IE; eauto.
      * intros Hm. apply in_app_iff in H. destruct H as [H|[H|[]]]; [|discriminate].
        destruct (IE _ _ _ H) as [H1 H2]. simpl in Hm. destruct Hm as [Hm|Hm]; [|contradiction].
        unfold tid in Hm; simpl in Hm. injection Hm as <- <-. contradiction.
      * intros ? ? ? ? H. apply in_app_iff in H. destruct H as [H|[H|[]]]; [|discriminate]. apply INs; eapply IN; eauto.
    + (* send *)
      rewrite (Mid ts1 ts2 (Tk i r s (Send to v k)) (Tk i r (bump s to) k)) in * by reflexivity.
      assert (Hst : In (Started i r) h).
      { apply (IS (Tk i r s (Send to v k))). apply in_app_iff; simpl; auto. }
      repeat split; auto.
      * intros t Ht. apply INs. ins; subst; try (apply IS; apply in_app_iff; simpl; auto; fail). exact Hst.
      * apply in_app_iff in H. destruct H as [H|[H|[]]]; [|discriminate]. apply INs; eapply IE; eauto.
      * apply in_app_iff in H. destruct H as [H|[H|[]]]; [|discriminate]. eapply IE; eauto.
      * intros ? ? ? ? H. apply INs. apply in_app_iff in H. destruct H as [H|[H|[]]]; [eapply IN; eauto|].
        injection H as <- <- <- <-. exact Hst.
    + (* store *)
      repeat split; auto.
      * apply in_app_iff in H0. destruct H0 as [H0|[H0|[]]]; [|discriminate]. apply INs; eapply IE; eauto.
      * apply in_app_iff in H0. destruct H0 as [H0|[H0|[]]]; [|discriminate]. eapply IE; eauto.
      * intros ? ? ? ? H0. apply in_app_iff in H0. destruct H0 as [H0|[H0|[]]]; [|discriminate]. apply INs; eapply IN; eauto.
    + (* drop *)
      repeat split; auto.
      * apply in_app_iff in H. destruct H as [H|[H|[]]]; [|discriminate]. apply INs; eapply IE; eauto.
      * apply in_app_iff in H. destruct H as [H|[H|[]]]; [|discriminate]. eapply IE; eauto.
      * intros ? ? ? ? H. apply in_app_iff in H. destruct H as [H|[H|[]]]; [|discriminate]. apply INs; eapply IN; eauto.
    + (* recv *)
      rewrite (Mid ts1 ts2 (Tk i r s (Recv frm k)) (Tk i r (bump s frm) (k (p_val p)))) in * by reflexivity.
      assert (Hst : In (Started i r) h).
      { apply (IS (Tk i r s (Recv frm k))). apply in_app_iff; simpl; auto. }
      repeat split; auto.
      * intros t Ht. apply INs. ins; subst; try (apply IS; apply in_app_iff; simpl; auto; fail). exact Hst.
      * apply in_app_iff in H0. destruct H0 as [H0|[H0|[]]]; [|discriminate]. apply INs; eapply IE; eauto.
      * apply in_app_iff in H0. destruct H0 as [H0|[H0|[]]]; [|discriminate]. eapply IE; eauto.
      * intros ? ? ? ? H0. apply in_app_iff in H0. destruct H0 as [H0|[H0|[]]]; [|discriminate]. apply INs; eapply IN; eauto.
    + (* timeout *)
      rewrite (Mid ts1 ts2 (Tk i r s (Recv frm k)) (Tk i r s Raise)) in * by reflexivity.
      assert (Hst : In (Started i r) h).
      { apply (IS (Tk i r s (Recv frm k))). apply in_app_iff; simpl; auto. }
      repeat split; auto.
      * intros t Ht. apply INs. ins; subst; try (apply IS; apply in_app_iff; simpl; auto; fail). exact Hst.
      * apply in_app_iff in H. destruct H as [H|[H|[]]]; [|discriminate]. apply INs; eapply IE; eauto.
      * apply in_app_iff in H. destruct H as [H|[H|[]]]; [|discriminate]. eapply IE; eauto.
      * intros ? ? ? ? H. apply in_app_iff in H. destruct H as [H|[H|[]]]; [|discriminate]. apply INs; eapply IN; eauto.
    + (* return *)
      assert (Hst : In (Started i r) h).
      { apply (IS (Tk i r s (Ret v))). apply in_app_iff; simpl; auto. }
      rewrite map_app in ND. simpl in ND. rewrite map_app in *.
      pose proof (NoDup_remove_1 _ _ _ ND) as N1. pose proof (NoDup_remove_2 _ _ _ ND) as N2.
      repeat split; auto.
      * intros t Ht. apply INs. apply IS. ins; apply in_app_iff; simpl; auto.
      * apply in_app_iff in H. destruct H as [H|[H|[]]]; apply INs; [eapply IE; eauto | congruence].
      * intros Hm. apply in_app_iff in H. destruct H as [H|[H|[]]].
        -- destruct (IE _ _ _ H) as [_ H2]. apply H2. rewrite ?map_app. simpl. ins; rewrite in_app_iff; simpl; auto.
        -- injection H as <- <- <-. apply N2. exact Hm.
      * intros ? ? ? ? H. apply in_app_iff in H. destruct H as [H|[H|[]]]; [|discriminate]. apply INs; eapply IN; eauto.
    + (* raise *)
      assert (Hst : In (Started i r) h).
      { apply (IS (Tk i r s Raise)). apply in_app_iff; simpl; auto. }
      rewrite map_app in ND. simpl in ND. rewrite map_app in *.
      pose proof (NoDup_remove_1 _ _ _ ND) as N1. pose proof (NoDup_remove_2 _ _ _ ND) as N2.
      repeat split; auto.
      * intros t Ht. apply INs. apply IS. ins; apply in_app_iff; simpl; auto.
      * apply in_app_iff in H. destruct H as [H|[H|[]]]; apply INs; [eapply IE; eauto | congruence].
      * intros Hm. apply in_app_iff in H. destruct H as [H|[H|[]]].
        -- destruct (IE _ _ _ H) as [_ H2]. apply H2. rewrite ?map_app. simpl. ins; rewrite in_app_iff; simpl; auto.
        -- injection H as <- <- <-. apply N2. exact Hm.
      * intros ? ? ? ? H. apply in_app_iff in H. destruct H as [H|[H|[]]]; [|discriminate]. apply INs; eapply IN; eauto.
Qed.

(** ** one request at a time, nothing left behind *)
Definition owner (c : cluster V) (i : nat) : Prop :=
  (forall t, In t (tasks c) -> t_req t = i) /\
  (forall p, In p (wire c) \/ In p (boxes c) -> p_req p = i).

Lemma count_pos : forall A (g : A -> bool) l x, In x l -> g x = true -> 0 < count g l.
Proof.
  induction l as [|y l IH]; simpl; intros x [] Hg; [subst; rewrite Hg; lia|].
  specialize (IH x H Hg). lia.
Qed.

Lemma prefix_cond : forall (P : list (event V) -> nat -> Prop) (h : list (event V)) e,
  (forall h1 i r h2, h ++ [e] = h1 ++ Started i r :: h2 -> forall j, j <> i -> P h1 j) ->
  (forall h1 i r h2, h = h1 ++ Started i r :: h2 -> forall j, j <> i -> P h1 j).
Proof.
  intros P h e H h1 i r h2 -> j Hj. apply (H h1 i r (h2 ++ [e])); [|assumption].
  rewrite <- app_assoc. reflexivity.
Qed.

Lemma runs_owner : forall h c, runs reqs h c -> one_at_a_time h -> clean h ->
  isolated h /\ exists i, owner c i.
Proof.
  induction 1 as [|h c e c' R IH St Fr]; intros O C.
  - split; [intros i r f v j []|]. exists 0. split; simpl; intros; tauto.
  - destruct IH as [I [i0 [OT OP]]].
    { intros h1 i r h2 E. eapply (prefix_cond over) with (e := e); [exact O | exact E]. }
    { intros h1 i r h2 E. eapply (prefix_cond all_received) with (e := e); [exact C | exact E]. }
    assert (Isnoc : (forall i r f v j, e <> Got i r f v j) -> isolated (h ++ [e])).
    { intros Hn i r f v j H. apply in_app_iff in H. destruct H as [H|[H|[]]]; [eapply I; exact H|].
      exfalso; eapply Hn; exact H. }
    inversion St; subst; cbn [tasks wire boxes] in *.
    + split; [apply Isnoc; discriminate|]. exists i. split; cbn [tasks wire boxes].
      * intros t [<-|Ht]; [reflexivity|].
        destruct (Nat.eq_dec (t_req t) i) as [|Hne]; [assumption|exfalso].
        destruct (runs_tasks _ _ R) as (_ & TS & TE & _).
        destruct (O h i r [] eq_refl (t_req t) Hne (t_rank t) (TS t Ht)) as [res Hres].
        destruct (TE _ _ _ Hres) as [_ Hn]. apply Hn. cbn [tasks].
        apply in_map_iff. exists t. auto.
      * intros p Hp. destruct (Nat.eq_dec (p_req p) i) as [|Hne]; [assumption|exfalso].
        pose proof (C h i r [] eq_refl (p_req p) Hne (p_from p) (p_to p)) as E.
        pose proof (runs_count _ _ R (p_req p) (p_from p) (p_to p)) as N. cbn [wire boxes] in N.
        assert (L : live (p_req p) (p_from p) (p_to p) p = true) by (unfold live; rewrite !Nat.eqb_refl; reflexivity).
        destruct Hp as [Hp|Hp]; pose proof (count_pos _ _ _ _ Hp L); lia.
    + split; [apply Isnoc; discriminate|]. exists i0.
      assert (Ei : i = i0) by (apply (OT (Tk i r s (Send to v k))); apply in_app_iff; simpl; auto).
      split; cbn [tasks wire boxes].
      * intros t Ht. ins; subst; auto; apply OT; apply in_app_iff; simpl; auto.
      * intros p [[<-|Hp]|Hp]; [exact Ei | apply OP; auto | apply OP; auto].
    + split; [apply Isnoc; discriminate|]. exists i0. split; cbn [tasks wire boxes]; auto.
      intros q Hq. apply OP. destruct Hq as [Hq|[<-|Hq]]; ins; rewrite in_app_iff; simpl; auto.
    + split; [apply Isnoc; discriminate|]. exists i0. split; cbn [tasks wire boxes]; auto.
      intros q Hq. apply OP. destruct Hq as [Hq|Hq]; ins; rewrite ?in_app_iff; simpl; auto.
    + assert (Ei : i = i0) by (apply (OT (Tk i r s (Recv frm k))); apply in_app_iff; simpl; auto).
      assert (Ep : p_req p = i0) by (apply OP; right; apply in_app_iff; simpl; auto).
      split.
      * intros i1 r1 f1 v1 j1 Hin. apply in_app_iff in Hin. destruct Hin as [Hin|[Hin|[]]]; [eapply I; exact Hin|].
        assert (j1 = p_req p) by congruence. assert (i1 = i) by congruence. congruence.
      * exists i0. split; cbn [tasks wire boxes].
        -- intros t Ht. ins; subst; auto; apply OT; apply in_app_iff; simpl; auto.
        -- intros q Hq. apply OP. destruct Hq as [Hq|Hq]; ins; rewrite ?in_app_iff; simpl; auto.
    + split; [apply Isnoc; discriminate|]. exists i0. split; cbn [tasks wire boxes]; auto.
      assert (Ei : i = i0) by (apply (OT (Tk i r s (Recv frm k))); apply in_app_iff; simpl; auto).
      intros t Ht. ins; subst; auto; apply OT; apply in_app_iff; simpl; auto.
    + split; [apply Isnoc; discriminate|]. exists i0. split; cbn [tasks wire boxes]; auto.
      intros t Ht. apply OT. ins; rewrite in_app_iff; simpl; auto.
    + split; [apply Isnoc; discriminate|]. exists i0. split; cbn [tasks wire boxes]; auto.
      intros t Ht. apply OT. ins; rewrite in_app_iff; simpl; auto.
Qed.
End P.
