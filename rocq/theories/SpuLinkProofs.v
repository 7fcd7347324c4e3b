From Coq Require Import List Arith Bool Lia.
From Verif Require Import SpuLinkModel SpuLinkSpec.
Import ListNotations.
Local Open Scope nat_scope.

Lemma pair_eqb_eq : forall a b, pair_eqb a b = true <-> a = b.
Proof.
  intros [a b] [c d]; unfold pair_eqb; simpl. rewrite andb_true_iff, !Nat.eqb_eq.
  split; [intros [-> ->]; auto | intros H; injection H; auto].
Qed.
Lemma pair_eqb_refl : forall a, pair_eqb a a = true.
Proof. intros; apply pair_eqb_eq; auto. Qed.
Lemma nats_eqb_eq : forall a b, nats_eqb a b = true <-> a = b.
Proof.
  induction a; intros [|y b]; simpl; split; intros H; try congruence.
  - apply andb_true_iff in H; destruct H as [H1 H2]. apply Nat.eqb_eq in H1; apply IHa in H2; congruence.
  - injection H as -> ->. rewrite Nat.eqb_refl; simpl; apply IHa; auto.
Qed.
Lemma tkey_eqb_eq : forall a b, tkey_eqb a b = true <-> a = b.
Proof.
  intros [[[r s] c] e] [[[r' s'] c'] e']; unfold tkey_eqb.
  assert (O : forall x y, opt_nat_eqb x y = true <-> x = y).
  { intros [x|] [y|]; simpl; rewrite ?Nat.eqb_eq; split; congruence. }
  assert (P : forall x y, opt_nats_eqb x y = true <-> x = y).
  { intros [x|] [y|]; simpl; rewrite ?nats_eqb_eq; split; congruence. }
  rewrite !andb_true_iff, O, P, !Nat.eqb_eq.
  split; [intros [[[-> ->] ->] ->]; auto | intros H; injection H; auto].
Qed.
Lemma tkey_eqb_refl : forall a, tkey_eqb a a = true.
Proof. intros; apply tkey_eqb_eq; auto. Qed.

Lemma in_firsts : forall x l, In x (firsts l) <-> In x l.
Proof.
  intros x; induction l as [|y l IH]; simpl; [tauto|].
  rewrite filter_In, IH. destruct (pair_eqb x y) eqn:E.
  - apply pair_eqb_eq in E; subst; simpl. intuition.
  - simpl. intuition.
Qed.
Lemma firsts_nodup : forall l, NoDup (firsts l).
Proof.
  induction l as [|x l IH]; simpl; constructor.
  - rewrite filter_In. intros [_ H]. rewrite pair_eqb_refl in H; discriminate.
  - apply NoDup_filter; assumption.
Qed.
Lemma firsts_snoc_in : forall x l, In x l -> firsts (l ++ [x]) = firsts l.
Proof.
  intros x; induction l as [|y l IH]; simpl; intros H; [contradiction|].
  f_equal. destruct (in_dec (fun a b => match bool_dec (pair_eqb a b) true with
       | left e => left (proj1 (pair_eqb_eq a b) e)
       | right n => right (fun h => n (proj2 (pair_eqb_eq a b) h)) end) x l) as [Hi|Hi].
  - rewrite IH; auto.
  - destruct H as [->|H]; [|contradiction].
    clear IH. assert (G : forall l0, ~ In x l0 -> filter (fun y => negb (pair_eqb y x)) (firsts (l0 ++ [x]))
                              = filter (fun y => negb (pair_eqb y x)) (firsts l0)).
    { induction l0 as [|z l0 IH0]; simpl; intros Hn.
      - rewrite pair_eqb_refl; reflexivity.
      - assert (Hz : pair_eqb z x = false).
        { destruct (pair_eqb z x) eqn:E; auto. apply pair_eqb_eq in E; subst; tauto. }
        rewrite Hz; simpl. f_equal.
        assert (C : forall (f g : nat * nat -> bool) l1, filter f (filter g l1) = filter g (filter f l1)).
        { intros f g; induction l1 as [|u l1 IH1]; simpl; auto.
          destruct (g u) eqn:Eg, (f u) eqn:Ef; simpl; rewrite ?Eg, ?Ef, ?IH1; reflexivity. }
        rewrite (C _ _ (firsts (l0 ++ [x]))), (C _ _ (firsts l0)).
        f_equal. apply IH0. tauto. }
    apply G; assumption.
Qed.
Lemma firsts_snoc_new : forall x l, ~ In x l -> firsts (l ++ [x]) = firsts l ++ [x].
Proof.
  intros x; induction l as [|y l IH]; simpl; intros H; auto.
  rewrite IH by tauto. rewrite filter_app. simpl.
  destruct (pair_eqb x y) eqn:E; [apply pair_eqb_eq in E; subst; tauto | reflexivity].
Qed.
Lemma before_in_app : forall x l m, In x l -> before x (l ++ m) = before x l.
Proof.
  intros x; induction l as [|y l IH]; simpl; intros m H; [contradiction|].
  destruct (pair_eqb y x) eqn:E; auto. destruct H as [->|H].
  - rewrite pair_eqb_refl in E; discriminate.
  - rewrite IH; auto.
Qed.
Lemma before_notin : forall x l, ~ In x l -> before x l = length l.
Proof.
  intros x; induction l as [|y l IH]; simpl; intros H; auto.
  destruct (pair_eqb y x) eqn:E; [apply pair_eqb_eq in E; subst; tauto|]. rewrite IH; tauto.
Qed.

(** the state after a history on one device *)
Definition good_state (m : mode) (me : nat) (ps : list nat) (c : nat) (done : list (nat * nat)) (st : wstate) : Prop :=
  let tk := (pos me ps, length ps, c, match m with Brpc => Some ps | Channels => None end) in
  (done = [] -> templates st = []) /\
  (done <> [] -> templates st = [(tk, (ps, length (firsts done)))]) /\
  (forall j f, find_r (j, tk, f) (runtimes st) =
     if existsb (pair_eqb (j, f)) done then Some (Wire ps (arrival (j, f) done)) else None).

Lemma existsb_in : forall x l, existsb (pair_eqb x) l = true <-> In x l.
Proof.
  intros x l. rewrite existsb_exists. split.
  - intros [y [H1 H2]]. apply pair_eqb_eq in H2; subst; assumption.
  - intros H; exists x; split; [assumption | apply pair_eqb_refl].
Qed.

Lemma step_good : forall m me ps c done st e,
  good_state m me ps c done st -> on_device ps c e ->
  exists w st', get_or_create m me st e = (Some w, st') /\
    good_state m me ps c (done ++ [asks e]) st' /\
    w = Wire ps (arrival (asks e) (done ++ [asks e])).
Proof.
  intros m me ps c done st e [G1 [G2 G3]] [Hp Hc].
  unfold get_or_create, rkey_of, tkey_of. rewrite Hp, Hc.
  set (tk := (pos me ps, length ps, c, match m with Brpc => Some ps | Channels => None end)) in *.
  rewrite G3. unfold asks. set (x := (job e, flags e)).
  destruct (existsb (pair_eqb x) done) eqn:E.
  - apply existsb_in in E. eexists; eexists; split; [reflexivity|].
    assert (F : firsts (done ++ [x]) = firsts done) by (apply firsts_snoc_in; exact E).
    split.
    + split; [intros H; destruct done; discriminate H|]. split.
      * intros _. rewrite F. apply G2. intros ->; contradiction E.
      * intros j f. fold tk. rewrite G3. unfold arrival. rewrite F.
        rewrite existsb_app; simpl. rewrite orb_false_r.
        destruct (existsb (pair_eqb (j, f)) done) eqn:E2; simpl; auto.
        destruct (pair_eqb (j, f) x) eqn:E3; auto.
        apply pair_eqb_eq in E3. rewrite E3 in E2. apply existsb_in in E. congruence.
    + unfold arrival. rewrite F. reflexivity.
  - assert (Hn : ~ In x done) by (rewrite <- existsb_in; congruence).
    assert (F : firsts (done ++ [x]) = firsts done ++ [x]) by (apply firsts_snoc_new; exact Hn).
    assert (A : arrival x (done ++ [x]) = length (firsts done)).
    { unfold arrival. rewrite F.
      rewrite <- (before_notin x (firsts done)) by (rewrite in_firsts; exact Hn).
      assert (K : forall l, ~ In x l -> before x (l ++ [x]) = before x l).
      { induction l as [|y l IH]; simpl; intros H; [rewrite pair_eqb_refl; reflexivity|].
        destruct (pair_eqb y x); auto. rewrite IH; tauto. }
      apply K. rewrite in_firsts; exact Hn. }
    assert (R : forall w j f, w = Wire ps (length (firsts done)) ->
       (if rkey_eqb (job e, tk, flags e) (j, tk, f) then Some w else
        if existsb (pair_eqb (j, f)) done then Some (Wire ps (arrival (j, f) done)) else None)
       = if existsb (pair_eqb (j, f)) (done ++ [x]) then Some (Wire ps (arrival (j, f) (done ++ [x]))) else None).
    { intros w j f ->. unfold rkey_eqb. rewrite tkey_eqb_refl, andb_true_r.
      rewrite existsb_app. cbn [existsb]. rewrite orb_false_r.
      destruct ((job e =? j) && (flags e =? f)) eqn:E2.
      - apply andb_true_iff in E2. destruct E2 as [E2 E3]. apply Nat.eqb_eq in E2, E3. subst j f.
        fold x. rewrite pair_eqb_refl, orb_true_r, A. reflexivity.
      - replace (pair_eqb (j, f) x) with false.
        2:{ symmetry. destruct (pair_eqb (j, f) x) eqn:E3; auto. apply pair_eqb_eq in E3.
            injection E3 as -> ->. rewrite !Nat.eqb_refl in E2; discriminate. }
        rewrite orb_false_r. destruct (existsb (pair_eqb (j, f)) done) eqn:E4; auto.
        f_equal. f_equal. unfold arrival. rewrite F. symmetry. apply before_in_app.
        rewrite in_firsts. apply existsb_in; exact E4. }
    destruct done as [|d0 done0].
    + rewrite (G1 eq_refl). cbn [find_t].
      unfold listening. rewrite (G1 eq_refl).
      replace (match m with Brpc | _ => false end) with false by (destruct m; reflexivity).
      eexists; eexists; split; [reflexivity|]. split; [|f_equal; symmetry; exact A].
      split; [intros H; discriminate H|]. split; [intros _; reflexivity|].
      intros j f. cbn [find_r runtimes]. fold tk. rewrite G3. apply R. reflexivity.
    + rewrite G2 by discriminate. cbn [find_t]. rewrite tkey_eqb_refl.
      eexists; eexists; split; [reflexivity|]. split; [|f_equal; symmetry; exact A].
      split; [intros H; discriminate H|]. split.
      * intros _. cbn [templates set_t]. rewrite tkey_eqb_refl. f_equal. f_equal. f_equal.
        rewrite F, app_length; simpl. lia.
      * intros j f. cbn [find_r runtimes]. fold tk. rewrite G3. apply R. reflexivity.
Qed.

Lemma arrival_prefix : forall x l m, In x l -> arrival x (l ++ m) = arrival x l.
Proof.
  intros x l m. revert l. induction m as [|y m IH]; intros l H.
  - rewrite app_nil_r; reflexivity.
  - replace (l ++ y :: m) with ((l ++ [y]) ++ m) by (rewrite <- app_assoc; reflexivity).
    rewrite IH by (apply in_or_app; left; exact H).
    unfold arrival. destruct (existsb (pair_eqb y) l) eqn:E.
    + apply existsb_in in E. rewrite firsts_snoc_in by exact E. reflexivity.
    + rewrite firsts_snoc_new by (rewrite <- existsb_in; congruence).
      apply before_in_app. rewrite in_firsts; exact H.
Qed.

Lemma serve_good : forall m me ps c h done st,
  good_state m me ps c done st -> Forall (on_device ps c) h ->
  forall i e, nth_error h i = Some e ->
  nth_error (serve m me st h) i = Some (Some (Wire ps (arrival (asks e) (done ++ map asks h)))).
Proof.
  intros m me ps c; induction h as [|e0 h IH]; intros done st G F i e H; [destruct i; discriminate|].
  inversion F as [|? ? F1 F2]; subst.
  destruct (step_good m me ps c done st e0 G F1) as [w [st' [E [G' Hw]]]].
  simpl. rewrite E. destruct i as [|i]; simpl in *.
  - injection H as <-. rewrite Hw. f_equal. f_equal. f_equal.
    replace (done ++ asks e0 :: map asks h) with ((done ++ [asks e0]) ++ map asks h)
      by (rewrite <- app_assoc; reflexivity).
    symmetry. apply arrival_prefix. apply in_or_app; right; left; reflexivity.
  - rewrite (IH _ _ G' F2 i e H). f_equal. f_equal. f_equal.
    rewrite <- app_assoc; reflexivity.
Qed.

Lemma start_good : forall m me ps c, good_state m me ps c [] start.
Proof. intros; split; [reflexivity|]. split; [intros H; contradiction H; reflexivity | reflexivity]. Qed.

Theorem link_exact : forall m me ps c h i e,
  Forall (on_device ps c) h -> nth_error h i = Some e ->
  link_of m me h i = Some (Wire ps (arrival (asks e) (map asks h))).
Proof.
  intros m me ps c h i e F H. unfold link_of.
  rewrite (serve_good m me ps c h [] start (start_good m me ps c) F i e H). reflexivity.
Qed.

Lemma before_inj : forall x y l, In x l -> before x l = before y l -> x = y.
Proof.
  intros x y; induction l as [|z l IH]; simpl; intros H E; [contradiction|].
  destruct (pair_eqb z x) eqn:E1, (pair_eqb z y) eqn:E2; try discriminate.
  - apply pair_eqb_eq in E1, E2; congruence.
  - destruct H as [->|H]; [rewrite pair_eqb_refl in E1; discriminate|]. apply IH; auto.
Qed.
Lemma arrival_inj : forall x y l, In x l -> arrival x l = arrival y l -> x = y.
Proof. intros x y l H E. eapply before_inj; [|exact E]. apply in_firsts; exact H. Qed.

Lemma firsts_of_nodup : forall l, NoDup l -> firsts l = l.
Proof.
  induction l as [|x l IH]; simpl; intros H; auto. inversion H; subst. rewrite IH by assumption.
  f_equal. clear - H2. induction l as [|y l IH]; simpl; auto.
  destruct (pair_eqb y x) eqn:E; simpl.
  - apply pair_eqb_eq in E; subst. simpl in H2; tauto.
  - f_equal; apply IH; simpl in H2; tauto.
Qed.
