From Coq Require Import List Bool Arith Lia.
From Verif Require Import ScopeModel ScopeSpec.
Import ListNotations.

Definition dflt_of (factory : nat -> ctx) (s : state) : ctx := match default s with Some c => c | None => factory (made s) end.
Definition grown (factory : nat -> ctx) (s s' : state) : Prop :=
  (default s' = default s /\ made s' = made s) \/ (default s = None /\ default s' = Some (factory (made s)) /\ made s' = S (made s)).

Lemma grown_refl f s : grown f s s. Proof. left; auto. Qed.
Lemma grown_dflt f s s' : grown f s s' -> dflt_of f s' = dflt_of f s.
Proof. unfold dflt_of. intros [[-> ->]|[-> [-> _]]]; reflexivity. Qed.
Lemma grown_trans f s1 s2 s3 : grown f s1 s2 -> grown f s2 s3 -> grown f s1 s3.
Proof.
  intros [[A B]|[A [B C]]] [[D E]|[D [E F]]]; unfold grown.
  - left. split; congruence.
  - right. repeat split; congruence.
  - right. repeat split; congruence.
  - congruence.
Qed.
Lemma grown_stack f s s' st st' : grown f s s' -> grown f (St st (default s) (made s)) (St st' (default s') (made s')).
Proof. unfold grown; cbn; auto. Qed.
Lemma find_filter k (l : list ctx) : find (matches k) l = match filter (matches k) l with c :: _ => Some c | [] => None end.
Proof. induction l as [|c l IH]; cbn; auto. destruct (matches k c); auto. Qed.

Lemma run_scoped factory p : forall s, scoped p ->
  exists s', run factory p s = (fst (meaning (dflt_of factory s) (stack s) p), s', snd (meaning (dflt_of factory s) (stack s) p)) /\
    stack s' = stack s /\ grown factory s s'.
Proof.
  induction p as [|a IHa b IHb|op| |a IHa h IHh|c b IHb|c b IHb|k|c| |c f]; intros s Hs; cbn [run meaning scoped] in *; try contradiction.
  - exists s. auto using grown_refl.
  - destruct Hs as [Ha Hb]. destruct (IHa s Ha) as (s1 & -> & E1 & G1).
    destruct (meaning (dflt_of factory s) (stack s) a) as [[|] ea]; cbn [fst snd].
    + destruct (IHb s1 Hb) as (s2 & -> & E2 & G2). rewrite (grown_dflt _ _ _ G1), E1.
      exists s2. split; [reflexivity|]. split; [congruence|eauto using grown_trans].
    + exists s1. auto.
  - unfold bind_ctx, get_default, dflt_of. destruct (stack s) as [|c0 st] eqn:E; cbn [hd].
    + destruct (default s) as [d|] eqn:D.
      * exists s. auto using grown_refl.
      * eexists. split; [reflexivity|]. split; [reflexivity|]. right. cbn. auto.
    + exists s. auto using grown_refl.
  - exists s. auto using grown_refl.
  - destruct Hs as [Ha Hb]. destruct (IHa s Ha) as (s1 & -> & E1 & G1).
    destruct (meaning (dflt_of factory s) (stack s) a) as [[|] ea]; cbn [fst snd].
    + exists s1. auto.
    + destruct (IHh s1 Hb) as (s2 & -> & E2 & G2). rewrite (grown_dflt _ _ _ G1), E1.
      exists s2. split; [reflexivity|]. split; [congruence|eauto using grown_trans].
  - destruct (IHb (push c s) Hs) as (s1 & -> & E1 & G1). exists (pop s1). split; [reflexivity|].
    split; [unfold pop; cbn; rewrite E1; reflexivity|]. destruct s, s1; exact G1.
  - destruct c as [c|].
    + cbn [get_context]. destruct (IHb (push c s) Hs) as (s1 & -> & E1 & G1). exists (pop s1). split; [reflexivity|].
      split; [unfold pop; cbn; rewrite E1; reflexivity|]. destruct s, s1; exact G1.
    + cbn [get_context]. destruct (stack s) as [|c st] eqn:E.
      * exists s. auto using grown_refl.
      * destruct (c_kind c).
        -- destruct (IHb (push c s) Hs) as (s1 & -> & E1 & G1). exists (pop s1).
           assert (X : stack (push c s) = c :: c :: st) by (cbn; now rewrite E).
           rewrite X. split; [reflexivity|].
           split; [unfold pop; cbn; rewrite E1, X; reflexivity|]. destruct s, s1; exact G1.
        -- exists s. auto using grown_refl.
  - unfold find_context. rewrite find_filter. destruct (filter (matches k) (stack s)); exists s; auto using grown_refl.
Qed.

(** ** Threads *)

Section Threads.
Variable P : ctx -> Prop.
Variable strict : Prop.

(** a word of accesses, [d] contexts of this thread open before it *)
Fixpoint okw (d : nat) (l : list act) : Prop :=
  match l with
  | [] => d = 0
  | APush c :: r => P c /\ okw (S d) r
  | APop :: r => match d with O => False | S d' => okw d' r end
  | ABind _ :: r => (strict -> 0 < d) /\ okw d r
  end.

Lemma acts_okw p : forall d k, with_only p -> opens P p -> (strict -> 0 < d) -> okw d k -> okw d (snd (acts p) ++ k).
Proof.
  induction p as [|a IHa b IHb|op| |a IHa h IHh|c b IHb|c b IHb|k|c| |c f]; intros d l W O Hst K; cbn [acts with_only opens] in *; try contradiction; auto.
  - destruct W, O. specialize (IHa d). specialize (IHb d). destruct (acts a) as [[|] la], (acts b) as [ob lb]; cbn [snd] in *; auto.
    rewrite <- app_assoc. auto.
  - cbn. auto.
  - destruct W, O. specialize (IHa d). specialize (IHh d). destruct (acts a) as [[|] la], (acts h) as [ob lb]; cbn [snd] in *; auto.
    rewrite <- app_assoc. auto.
  - destruct O as [Pc O]. specialize (IHb (S d) (APop :: l) W O (fun _ => Nat.lt_0_succ d)). destruct (acts b) as [o lb]; cbn [snd] in *.
    cbn. split; auto. rewrite <- app_assoc. apply IHb. exact K.
Qed.

Fixpoint sumn (n : nat) (D : nat -> nat) : nat := match n with O => 0 | S k => D k + sumn k D end.
Definition upd (D : nat -> nat) (t v : nat) : nat -> nat := fun x => if Nat.eqb x t then v else D x.
Lemma sumn_same n D t v : n <= t -> sumn n (upd D t v) = sumn n D.
Proof.
  induction n as [|n IH]; intros H; auto. cbn [sumn]. rewrite IH by lia. unfold upd.
  destruct (Nat.eqb n t) eqn:E; auto. apply Nat.eqb_eq in E. lia.
Qed.
Lemma sumn_upd n D t v : t < n -> sumn n (upd D t v) + D t = sumn n D + v.
Proof.
  induction n as [|n IH]; intros H; [lia|]. cbn [sumn]. destruct (Nat.eq_dec t n) as [->|Ne].
  - rewrite sumn_same by lia. unfold upd. rewrite Nat.eqb_refl. lia.
  - specialize (IH ltac:(lia)). unfold upd at 1. destruct (Nat.eqb n t) eqn:E; [apply Nat.eqb_eq in E; lia|]. lia.
Qed.
Lemma sumn_ge n D t : t < n -> D t <= sumn n D.
Proof. induction n as [|n IH]; intros H; [lia|]. cbn. destruct (Nat.eq_dec t n) as [->|Ne]; [lia|]. specialize (IH ltac:(lia)). lia. Qed.
Lemma sumn_0 n D : (forall t, t < n -> D t = 0) -> sumn n D = 0.
Proof. induction n as [|n IH]; intros H; auto. cbn. rewrite H, IH; auto. Qed.

Lemma accesses_cons t u a r : accesses_of t ((u, a) :: r) = if Nat.eqb u t then a :: accesses_of t r else accesses_of t r.
Proof. unfold accesses_of. cbn. destruct (Nat.eqb u t); auto. Qed.
Lemma upd_eq D t v : upd D t v t = v. Proof. unfold upd. now rewrite Nat.eqb_refl. Qed.
Lemma upd_neq D t v x : Nat.eqb t x = false -> upd D t v x = D x.
Proof. intros E. unfold upd. rewrite Nat.eqb_sym, E. reflexivity. Qed.

(** every event, with its thread, against the thread's own accesses *)
Definition good (e : nat * nat * option ctx) : Prop := strict -> exists c, snd e = Some c /\ P c.
Fixpoint ops (l : list act) : list nat := match l with [] => [] | ABind op :: r => op :: ops r | _ :: r => ops r end.

Lemma exec_ok n : forall sched D pre st,
  (forall t a, In (t, a) sched -> t < n) ->
  (forall t, t < n -> okw (D t) (accesses_of t sched)) ->
  Forall P pre -> length pre = sumn n D ->
  fst (exec (pre ++ st) sched) = st /\ Forall good (snd (exec (pre ++ st) sched)) /\
  forall t, map fst (binds_of t (snd (exec (pre ++ st) sched))) = ops (accesses_of t sched).
Proof.
  induction sched as [|[u a] sched IH]; intros D pre st Hn Hok HP HL; cbn [exec].
  - rewrite sumn_0 in HL. 2:{ intros t Ht. exact (Hok t Ht). }
    destruct pre; [|discriminate]. cbn. repeat split; auto.
  - assert (Hu : u < n) by (apply (Hn u a); left; auto).
    assert (Hn' : forall t a, In (t, a) sched -> t < n) by (intros t b Hb; apply (Hn t b); right; exact Hb).
    pose proof (Hok u Hu) as Hok'. rewrite accesses_cons, Nat.eqb_refl in Hok'. pose proof (sumn_ge n D u Hu) as Ge.
    assert (Rest : forall v, okw v (accesses_of u sched) -> forall t, t < n -> okw (upd D u v t) (accesses_of t sched)).
    { intros v Hv t Ht. specialize (Hok t Ht). rewrite accesses_cons in Hok. destruct (Nat.eqb u t) eqn:E.
      - apply Nat.eqb_eq in E. subst t. now rewrite upd_eq.
      - now rewrite upd_neq. }
    destruct a as [c| |op]; cbn [step_act].
    + destruct Hok' as [Pc Hr].
      destruct (IH (upd D u (S (D u))) (c :: pre) st Hn' (Rest _ Hr)) as (A & B & C).
      { constructor; auto. }
      { cbn. pose proof (sumn_upd n D u (S (D u)) Hu). lia. }
      cbn [app] in A, B, C. destruct (exec (c :: pre ++ st) sched) as [st2 es]. cbn [fst snd] in *.
      repeat split; auto. intros t. rewrite C, accesses_cons. destruct (Nat.eqb u t); auto.
    + cbn in Hok'. destruct (D u) as [|d] eqn:Du; [contradiction|].
      destruct pre as [|c pre]; [cbn in HL; lia|]. inversion HP; subst.
      destruct (IH (upd D u d) pre st Hn' (Rest _ Hok')) as (A & B & C); auto.
      { pose proof (sumn_upd n D u d Hu). cbn in HL. lia. }
      cbn [tl app]. destruct (exec (pre ++ st) sched) as [st2 es]. cbn [fst snd] in *.
      repeat split; auto. intros t. rewrite C, accesses_cons. destruct (Nat.eqb u t); auto.
    + destruct Hok' as [Hd Hr].
      assert (Hsame : forall t, t < n -> okw (D t) (accesses_of t sched)).
      { intros t Ht. specialize (Hok t Ht). rewrite accesses_cons in Hok. destruct (Nat.eqb u t) eqn:E; auto.
        apply Nat.eqb_eq in E. subst t. exact Hr. }
      destruct (IH D pre st Hn' Hsame HP HL) as (A & B & C).
      destruct (exec (pre ++ st) sched) as [st2 es]. cbn [fst snd] in *. split; [exact A|]. split.
      * constructor; [|exact B]. intros Str. specialize (Hd Str). destruct pre as [|c pre]; [cbn in HL; lia|].
        inversion HP; subst. exists c. auto.
      * intros t. rewrite accesses_cons. unfold binds_of in *. cbn [filter fst snd].
        destruct (Nat.eqb u t); cbn [map fst ops]; rewrite C; reflexivity.
Qed.
End Threads.

Lemma meaning_ops d p : forall env, with_only p -> (fst (meaning d env p) = fst (acts p)) /\
  map (fun e => fst (as_bind e)) (snd (meaning d env p)) = ops (snd (acts p)).
Proof.
  assert (OA : forall l l', ops (l ++ l') = ops l ++ ops l').
  { induction l as [|[c| |op] l IH]; intros l'; cbn; auto. now rewrite IH. }
  induction p as [|a IHa b IHb|op| |a IHa h IHh|c b IHb|c b IHb|k|c| |c f]; intros env W; cbn [meaning with_only acts] in *; try contradiction; auto.
  - destruct W as [Wa Wb]. destruct (IHa env Wa) as [A1 A2], (IHb env Wb) as [B1 B2].
    destruct (meaning d env a) as [oa ea], (acts a) as [oa' la], (meaning d env b) as [ob eb], (acts b) as [ob' lb]. cbn [fst snd] in *. subst oa' ob'.
    destruct oa; cbn [fst snd]; auto. rewrite map_app, OA, A2, B2. auto.
  - destruct W as [Wa Wb]. destruct (IHa env Wa) as [A1 A2], (IHh env Wb) as [B1 B2].
    destruct (meaning d env a) as [oa ea], (acts a) as [oa' la], (meaning d env h) as [ob eb], (acts h) as [ob' lb]. cbn [fst snd] in *. subst oa' ob'.
    destruct oa; cbn [fst snd]; auto. rewrite map_app, OA, A2, B2. auto.
  - destruct (IHb (c :: env) W) as [B1 B2]. destruct (meaning d (c :: env) b) as [ob eb], (acts b) as [ob' lb]. cbn [fst snd] in *.
    split; auto. cbn [ops]. rewrite OA, B2. cbn. now rewrite app_nil_r.
Qed.
Lemma meaning_const d c p : forall env, with_only p -> opens (eq c) p -> hd d env = c ->
  Forall (fun e => snd (as_bind e) = Some c) (snd (meaning d env p)).
Proof.
  induction p as [|a IHa b IHb|op| |a IHa h IHh|c0 b IHb|c0 b IHb|k|c0| |c0 f]; intros env W O H; cbn [meaning with_only opens] in *; try contradiction; try apply Forall_nil.
  - destruct W as [Wa Wb], O as [Oa Ob]. specialize (IHa env Wa Oa H). specialize (IHb env Wb Ob H).
    destruct (meaning d env a) as [[|] ea]; cbn [snd] in *; auto. apply Forall_app; auto.
  - constructor; [|constructor]. cbn. now rewrite H.
  - destruct W as [Wa Wb], O as [Oa Ob]. specialize (IHa env Wa Oa H). specialize (IHh env Wb Ob H).
    destruct (meaning d env a) as [[|] ea]; cbn [snd] in *; auto. apply Forall_app; auto.
  - destruct O as [<- O]. apply IHb; auto.
Qed.
Lemma opens_True p : opens (fun _ => True) p.
Proof. induction p; cbn; auto. Qed.
Lemma pairs_eq {A B} (l l' : list (A * B)) b : map fst l = map fst l' -> Forall (fun x => snd x = b) l -> Forall (fun x => snd x = b) l' -> l = l'.
Proof.
  revert l'. induction l as [|[x y] l IH]; intros [|[x' y'] l'] E F G; try discriminate; auto.
  cbn in E. injection E as -> E. inversion F; inversion G; subst. cbn in *. subst. f_equal. auto.
Qed.
Lemma binds_of_Forall (Q : nat * nat * option ctx -> Prop) (R : nat * option ctx -> Prop) t evs :
  (forall e, Q e -> R (snd (fst e), snd e)) -> Forall Q evs -> Forall R (binds_of t evs).
Proof.
  intros H F. unfold binds_of. apply Forall_map. induction F as [|e evs He F IH]; cbn; auto.
  destruct (Nat.eqb (fst (fst e)) t); auto.
Qed.

Lemma exec_one d t p : forall st k, with_only p -> st <> [] ->
  exec st (map (pair t) (snd (acts p)) ++ k) =
  (fst (exec st k), map (fun e => (t, fst (as_bind e), snd (as_bind e))) (snd (meaning d st p)) ++ snd (exec st k)).
Proof.
  induction p as [|a IHa b IHb|op| |a IHa h IHh|c b IHb|c b IHb|q|c| |c f]; intros st k W NE; cbn [meaning with_only acts] in *; try contradiction.
  - cbn. now destruct (exec st k).
  - destruct W as [Wa Wb]. pose proof (proj1 (meaning_ops d a st Wa)) as F. specialize (IHa st). specialize (IHb st).
    destruct (meaning d st a) as [oa ea], (acts a) as [oa' la]. cbn [fst snd] in *. subst oa'. destruct oa; cbn [fst snd].
    + destruct (meaning d st b) as [ob eb], (acts b) as [ob' lb]. cbn [fst snd] in *.
      rewrite map_app, <- app_assoc, IHa, IHb by auto. cbn [fst snd]. rewrite map_app, app_assoc. reflexivity.
    + apply IHa; auto.
  - cbn. destruct st as [|c st]; [now destruct NE|]. cbn. now destruct (exec (c :: st) k).
  - cbn. now destruct (exec st k).
  - destruct W as [Wa Wb]. pose proof (proj1 (meaning_ops d a st Wa)) as F. specialize (IHa st). specialize (IHh st).
    destruct (meaning d st a) as [oa ea], (acts a) as [oa' la]. cbn [fst snd] in *. subst oa'. destruct oa; cbn [fst snd].
    + apply IHa; auto.
    + destruct (meaning d st h) as [ob eb], (acts h) as [ob' lb]. cbn [fst snd] in *.
      rewrite map_app, <- app_assoc, IHa, IHh by auto. cbn [fst snd]. rewrite map_app, app_assoc. reflexivity.
  - specialize (IHb (c :: st) (map (pair t) [APop] ++ k) W ltac:(discriminate)).
    destruct (acts b) as [ob lb]. cbn [snd] in *. cbn [map app exec step_act]. rewrite map_app, <- app_assoc, IHb.
    cbn [map app exec step_act tl]. now destruct (exec st k).
Qed.
