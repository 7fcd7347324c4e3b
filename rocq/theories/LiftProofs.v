From Coq Require Import List Bool Arith Lia.
From Verif Require Import EagerModel EagerSpec.
Import ListNotations.

Section Lift.
  Context {V : Type}.
  Variable sem : nat -> nat -> list V -> option (list V).

  Lemma cache_app (a b : list (nat * V)) x : cache_get x (a ++ b) = match cache_get x a with Some v => Some v | None => cache_get x b end.
  Proof. induction a as [|[y v] a IH]; cbn; auto. destruct (Nat.eqb y x); auto. Qed.
  Lemma cache_in (c : list (nat * V)) x v : cache_get x c = Some v -> In (x, v) c.
  Proof. induction c as [|[y w] c IH]; cbn; [discriminate|]. destruct (Nat.eqb_spec y x); [intros [= ->]; subst; auto|auto]. Qed.
  Lemma cache_some (c : list (nat * V)) x : (exists v, In (x, v) c) -> exists v, cache_get x c = Some v.
  Proof.
    induction c as [|[y w] c IH]; intros [v H]; [destruct H|]. cbn. destruct (Nat.eqb_spec y x); [eauto|].
    destruct H as [[= -> ->]|H]; [tauto|eauto].
  Qed.
  Lemma lget_combine (e : nat -> option V) : forall l vs, lget e l = Some vs -> forall x v, In (x, v) (combine l vs) -> e x = Some v.
  Proof.
    induction l as [|y l IH]; intros vs E x v H; cbn in E; [injection E as <-; destruct H|].
    destruct (e y) as [w|] eqn:Ey; [|discriminate]. destruct (lget e l) as [vs'|]; [|discriminate]. injection E as <-.
    destruct H as [[= -> ->]|H]; [auto|eauto].
  Qed.
  Lemma lget_in (e : nat -> option V) : forall l vs, lget e l = Some vs -> forall x, In x l -> exists v, In (x, v) (combine l vs).
  Proof.
    induction l as [|y l IH]; intros vs E x H; cbn in E; [destruct H|].
    destruct (e y) as [w|]; [|discriminate]. destruct (lget e l) as [vs'|]; [|discriminate]. injection E as <-.
    destruct H as [->|H]; [exists w; now left|]. destruct (IH _ eq_refl x H) as [v Hv]. exists v. now right.
  Qed.
  Lemma defining_in ops x : In x (defining ops x).
  Proof.
    unfold defining. destruct (find _ ops) as [o|] eqn:E; [|now left]. apply find_some in E as [_ E].
    apply existsb_exists in E as (y & Hy & E). apply Nat.eqb_eq in E. now subst.
  Qed.
  Lemma leval_det : deterministic sem -> forall ops run run' k e, leval sem run k e ops = leval sem run' k e ops.
  Proof.
    intros D. induction ops as [|o ops IH]; intros run run' k e; cbn; auto. destruct (lget e (l_ins o)); auto.
    rewrite (D run run'). destruct (sem run' k l); auto. destruct (lset e (l_outs o) l0); auto.
  Qed.

  (** defined values stay defined through an evaluation, and the outputs of an executed operation are defined *)
  Lemma lset_defined : forall l vs (e e' : nat -> option V), lset e l vs = Some e' -> forall x, e x <> None \/ In x l -> e' x <> None.
  Proof.
    induction l as [|y l IH]; intros [|v vs] e e' E x H; cbn in E; try discriminate.
    - injection E as <-. destruct H; auto.
    - eapply IH; [exact E|]. cbn beta. destruct (Nat.eqb_spec x y); [left; discriminate|]. destruct H as [H|[H|H]]; auto; congruence.
  Qed.
  Lemma leval_defined run : forall ops k e e', leval sem run k e ops = Some e' -> forall x, e x <> None \/ (exists o, In o ops /\ In x (l_outs o)) -> e' x <> None.
  Proof.
    induction ops as [|o ops IH]; intros k e e' E x H; cbn in E.
    - injection E as <-. destruct H as [H|(o & [] & _)]; auto.
    - destruct (lget e (l_ins o)); [|discriminate]. destruct (sem run k l); [|discriminate].
      destruct (lset e (l_outs o) l0) as [e1|] eqn:E1; [|discriminate]. eapply IH; [exact E|].
      destruct H as [H|(o' & [->|H] & Hx)].
      + left. eapply lset_defined; eauto.
      + left. eapply lset_defined; eauto.
      + right. eauto.
  Qed.
  Lemma lget_total (e : nat -> option V) : forall l, (forall x, In x l -> e x <> None) -> exists vs, lget e l = Some vs.
  Proof.
    induction l as [|y l IH]; intros H; [exists []; reflexivity|]. destruct IH as [vs E]; [intros; apply H; now right|].
    cbn. rewrite E. destruct (e y) eqn:Ey; [eauto|]. exfalso. apply (H y); [now left|auto].
  Qed.
  Lemma defining_defined run t captured env x : evaluation sem run t captured = Some env -> belongs t x -> forall y, In y (defining (lt_ops t) x) -> env y <> None.
  Proof.
    unfold evaluation. destruct (lset _ _ _) as [e|] eqn:E; [|discriminate]. intros Ev B y Hy.
    unfold defining in Hy. destruct (find _ (lt_ops t)) as [o|] eqn:Ef.
    - apply find_some in Ef as [Ho _]. eapply leval_defined; eauto.
    - destruct Hy as [<-|[]]. destruct B as [B|(o & Ho & Hx)].
      + eapply leval_defined; [exact Ev|]. left. eapply lset_defined; eauto.
      + exfalso. apply find_none with (x := o) in Ef; auto. assert (X : existsb (Nat.eqb x) (l_outs o) = true); [|congruence].
        apply existsb_exists. exists x. split; auto. apply Nat.eqb_refl.
  Qed.

  (** one lift, unfolded through the specification *)
  Lemma lift_value_spec (t : ltracer) captured (s : linterp V) x :
    lift_value sem t captured s x =
      match cache_get x (li_cache s) with
      | Some v => (Some v, s, t)
      | None =>
          match evaluation sem (li_runs s) t captured with
          | None => (None, LInterp (li_cache s) (S (li_runs s)), t)
          | Some env =>
              match lget env (defining (lt_ops t) x) with
              | None => (None, LInterp (li_cache s) (S (li_runs s)), t)
              | Some vs =>
                  let c := rev (combine (defining (lt_ops t) x) vs) ++ li_cache s in
                  (cache_get x c, LInterp c (S (li_runs s)), t)
              end
          end
      end.
  Proof.
    unfold lift_value, evaluation. destruct t as [i o q]. cbn [lt_inputs lt_ops lt_outputs].
    destruct (cache_get x (li_cache s)); auto. destruct (lset _ i captured); auto.
    destruct (leval sem (li_runs s) 0 l o); auto. 
  Qed.

  Lemma lift_restores (t : ltracer) captured s x : snd (lift_value sem t captured s x) = t.
  Proof.
    rewrite lift_value_spec. destruct (cache_get x (li_cache s)); auto. destruct (evaluation _ _ _ _); auto.
    destruct (lget _ _); auto.
  Qed.
  Lemma many_restores captured : forall xs (t : ltracer) s, snd (lift_many sem t captured s xs) = t.
  Proof.
    induction xs as [|x xs IH]; intros t s; cbn; auto. destruct (lift_value sem t captured s x) as [[v s1] t1] eqn:E.
    assert (T := lift_restores t captured s x). rewrite E in T. cbn in T. subst.
    specialize (IH t s1). destruct (lift_many sem t captured s1 xs) as [[vs s2] t2]. exact IH.
  Qed.

  (** the cache only grows at the front with new keys: a cached value is never replaced *)
  Lemma lift_keeps (t : ltracer) captured s x y v : cache_get y (li_cache s) = Some v ->
    (forall o z, In o (lt_ops t) -> In y (l_outs o) -> In z (l_outs o) -> cache_get z (li_cache s) <> None) ->
    cache_get y (li_cache (snd (fst (lift_value sem t captured s x)))) = Some v.
  Proof.
    intros H K. rewrite lift_value_spec. destruct (cache_get x (li_cache s)) eqn:Ex; auto.
    destruct (evaluation _ _ _ _) as [env|]; auto. destruct (lget env (defining (lt_ops t) x)) as [vs|] eqn:El; auto.
    cbn [fst snd li_cache]. rewrite cache_app.
    destruct (cache_get y (rev (combine (defining (lt_ops t) x) vs))) as [w|] eqn:Ey; auto. exfalso.
    apply cache_in, in_rev, in_combine_l in Ey. unfold defining in Ey.
    destruct (find (fun o => existsb (Nat.eqb x) (l_outs o)) (lt_ops t)) as [o|] eqn:Ef.
    - apply find_some in Ef as [Ho Hx]. apply existsb_exists in Hx as (z & Hz & Ez). apply Nat.eqb_eq in Ez. subst z.
      apply (K o x Ho Ey Hz Ex).
    - destruct Ey as [<-|[]]. congruence.
  Qed.

  (** ** deterministic operations *)
  Definition good (env : option (nat -> option V)) (c : list (nat * V)) : Prop :=
    forall y v, In (y, v) c -> match env with Some e => e y = Some v | None => False end.
  Lemma lift_good : deterministic sem -> forall t captured s x, belongs t x -> good (evaluation sem 0 t captured) (li_cache s) ->
    let '(v, s', t') := lift_value sem t captured s x in
    v = match evaluation sem 0 t captured with Some e => e x | None => None end /\ good (evaluation sem 0 t captured) (li_cache s') /\ t' = t.
  Proof.
    intros D t captured s x B G.
    assert (Ev : evaluation sem (li_runs s) t captured = evaluation sem 0 t captured).
    { unfold evaluation. destruct (lset _ _ _); auto. now apply leval_det. }
    rewrite lift_value_spec, Ev. destruct (cache_get x (li_cache s)) as [v|] eqn:Ex.
    - repeat split; auto. apply cache_in, G in Ex. destruct (evaluation sem 0 t captured); [auto|destruct Ex].
    - destruct (evaluation sem 0 t captured) as [env|] eqn:E0; [|repeat split; auto].
      destruct (lget_total env (defining (lt_ops t) x)) as [vs El]; [intros; eapply defining_defined; eauto|].
      rewrite El. cbv zeta. split; [|split; auto].
      + destruct (lget_in _ _ _ El x (defining_in _ _)) as [v Hv]. rewrite (lget_combine _ _ _ El _ _ Hv).
        assert (Hs : exists v, cache_get x (rev (combine (defining (lt_ops t) x) vs) ++ li_cache s) = Some v).
        { apply cache_some. exists v. apply in_or_app. left. now apply -> in_rev. }
        destruct Hs as [w Hw]. rewrite Hw. apply cache_in, in_app_or in Hw as [Hw|Hw].
        * apply in_rev in Hw. pose proof (lget_combine _ _ _ El _ _ Hw). pose proof (lget_combine _ _ _ El _ _ Hv). congruence.
        * apply G in Hw. pose proof (lget_combine _ _ _ El _ _ Hv). congruence.
      + intros y v Hy. cbn [li_cache] in Hy. apply in_app_or in Hy as [Hy|Hy]; [|apply (G y v); auto].
        apply in_rev in Hy. exact (lget_combine _ _ _ El _ _ Hy).
  Qed.
  Lemma many_good : deterministic sem -> forall t captured xs s, Forall (belongs t) xs -> good (evaluation sem 0 t captured) (li_cache s) ->
    fst (fst (lift_many sem t captured s xs)) = answers (evaluation sem 0 t captured) xs.
  Proof.
    intros D t captured. induction xs as [|x xs IH]; intros s B G; cbn [lift_many]; auto. inversion B; subst.
    pose proof (lift_good D t captured s x H1 G) as L. destruct (lift_value sem t captured s x) as [[v s1] t1].
    destruct L as (-> & G1 & ->). specialize (IH s1 H2 G1). destruct (lift_many sem t captured s1 xs) as [[vs s2] t2].
    cbn [fst] in *. cbn. now rewrite IH.
  Qed.

  (** ** any operations: the outputs of one operation come from one evaluation *)
  Definition one_run (t : ltracer) (captured : list V) (c : list (nat * V)) : Prop :=
    forall o, In o (lt_ops t) ->
      (forall x, In x (l_outs o) -> cache_get x c = None) \/
      exists run env, evaluation sem run t captured = Some env /\ forall x, In x (l_outs o) -> cache_get x c = env x /\ env x <> None.
  Definition ssa (t : ltracer) : Prop :=
    forall o o' x, In o (lt_ops t) -> In o' (lt_ops t) -> In x (l_outs o) -> In x (l_outs o') -> o = o'.
  Lemma lift_one_run : forall t captured s x, ssa t -> one_run t captured (li_cache s) ->
    one_run t captured (li_cache (snd (fst (lift_value sem t captured s x)))).
  Proof.
    intros t captured s x U O. rewrite lift_value_spec. destruct (cache_get x (li_cache s)) eqn:Ex; auto.
    destruct (evaluation sem (li_runs s) t captured) as [env|] eqn:Ev; auto.
    destruct (lget env (defining (lt_ops t) x)) as [vs|] eqn:El; auto. cbn [fst snd li_cache].
    intros o Ho. destruct (find (fun o => existsb (Nat.eqb x) (l_outs o)) (lt_ops t)) as [q|] eqn:Ef.
    - assert (Dq : defining (lt_ops t) x = l_outs q) by (unfold defining; now rewrite Ef).
      apply find_some in Ef as [Hq Hx]. apply existsb_exists in Hx as (z & Hz & Ez). apply Nat.eqb_eq in Ez. subst z.
      rewrite Dq in *.
      destruct (in_dec Nat.eq_dec x (l_outs o)) as [Hin|Hout].
      + assert (o = q) by (eapply U; eauto). subst o. right. exists (li_runs s), env. split; auto. intros y Hy.
        destruct (lget_in _ _ _ El y Hy) as [v Hv]. assert (Ey := lget_combine _ _ _ El _ _ Hv).
        assert (Hs : exists w, cache_get y (rev (combine (l_outs q) vs)) = Some w).
        { apply cache_some. exists v. now apply -> in_rev. }
        destruct Hs as [w Hw]. rewrite cache_app, Hw. apply cache_in, in_rev in Hw.
        rewrite (lget_combine _ _ _ El _ _ Hw). split; auto. discriminate.
      + assert (Same : forall y, In y (l_outs o) -> cache_get y (rev (combine (l_outs q) vs) ++ li_cache s) = cache_get y (li_cache s)).
        { intros y Hy. rewrite cache_app. destruct (cache_get y (rev (combine (l_outs q) vs))) as [w|] eqn:Ew; auto. exfalso.
          apply cache_in, in_rev, in_combine_l in Ew. assert (o = q) by (eapply U; eauto). subst. tauto. }
        destruct (O o Ho) as [N|(run & e & E & A)].
        * left. intros y Hy. rewrite Same; auto.
        * right. exists run, e. split; auto. intros y Hy. rewrite Same; auto.
    - assert (Dq : defining (lt_ops t) x = [x]) by (unfold defining; now rewrite Ef). rewrite Dq in *.
      assert (Same : forall y, In y (l_outs o) -> cache_get y (rev (combine [x] vs) ++ li_cache s) = cache_get y (li_cache s)).
      { intros y Hy. rewrite cache_app. destruct (cache_get y (rev (combine [x] vs))) as [w|] eqn:Ew; auto. exfalso.
        apply cache_in, in_rev, in_combine_l in Ew. destruct Ew as [<-|[]].
        apply find_none with (x := o) in Ef; auto. assert (X : existsb (Nat.eqb x) (l_outs o) = true); [|congruence].
        apply existsb_exists. exists x. split; auto. apply Nat.eqb_refl. }
      destruct (O o Ho) as [N|(run & e & E & A)].
      * left. intros y Hy. rewrite Same; auto.
      * right. exists run, e. split; auto. intros y Hy. rewrite Same; auto.
  Qed.
  Lemma many_one_run captured : forall xs t s, ssa t -> one_run t captured (li_cache s) ->
    one_run t captured (li_cache (snd (fst (lift_many sem t captured s xs)))).
  Proof.
    induction xs as [|x xs IH]; intros t s U O; cbn [lift_many]; auto.
    pose proof (lift_one_run t captured s x U O) as O1. pose proof (lift_restores t captured s x) as R.
    destruct (lift_value sem t captured s x) as [[v s1] t1]. cbn [fst snd] in *. subst t1.
    specialize (IH t s1 U O1). destruct (lift_many sem t captured s1 xs) as [[vs s2] t2]. exact IH.
  Qed.
  Lemma many_keeps captured : forall xs t s y v, ssa t -> one_run t captured (li_cache s) -> cache_get y (li_cache s) = Some v ->
    cache_get y (li_cache (snd (fst (lift_many sem t captured s xs)))) = Some v.
  Proof.
    induction xs as [|x xs IH]; intros t s y v U O H; cbn [lift_many]; auto.
    pose proof (lift_one_run t captured s x U O) as O1. pose proof (lift_restores t captured s x) as R.
    assert (K : cache_get y (li_cache (snd (fst (lift_value sem t captured s x)))) = Some v).
    { apply lift_keeps; auto. intros o z Ho Hy Hz. destruct (O o Ho) as [N|(run & e & _ & A)].
      - rewrite N in H by auto. discriminate.
      - destruct (A z Hz) as [-> ?]. auto. }
    destruct (lift_value sem t captured s x) as [[w s1] t1]. cbn [fst snd] in *. subst t1.
    specialize (IH t s1 y v U O1 K). destruct (lift_many sem t captured s1 xs) as [[vs s2] t2]. exact IH.
  Qed.
  Lemma lift_then_cached t captured s x v : fst (fst (lift_value sem t captured s x)) = Some v ->
    cache_get x (li_cache (snd (fst (lift_value sem t captured s x)))) = Some v.
  Proof.
    rewrite lift_value_spec. destruct (cache_get x (li_cache s)) eqn:Ex; [intros [= ->]; exact Ex|].
    destruct (evaluation _ _ _ _); [|discriminate]. destruct (lget _ _); [|discriminate]. auto.
  Qed.
End Lift.
