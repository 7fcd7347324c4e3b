From Coq Require Import String List Bool Arith Lia.
From Verif Require Import RegistryModel RegistrySpec.
Import ListNotations.
Local Open Scope list_scope.
Local Open Scope nat_scope.

Lemma get_app {V} (a b : list (string * V)) k : get (a ++ b) k = match get a k with Some v => Some v | None => get b k end.
Proof. induction a as [|[k' v] a IH]; cbn; auto. destruct (String.eqb k' k); auto. Qed.
Lemma get_none {V} (a : list (string * V)) k : get a k = None <-> ~ In k (map fst a).
Proof.
  induction a as [|[k' v] a IH]; cbn; [tauto|]. destruct (String.eqb_spec k' k); [|rewrite IH; tauto].
  split; [discriminate|]. intros H. exfalso. auto.
Qed.
Lemma register_all_rev {F} : forall (ev reg : list (string * F)), register_all reg ev = rev ev ++ reg.
Proof.
  unfold register_all. induction ev as [|[o f] ev IH]; intros reg; cbn; auto. rewrite IH. unfold register_impl. cbn. now rewrite <- app_assoc.
Qed.
Lemma get_some_split {V} (a : list (string * V)) k v : get a k = Some v <-> exists x y, a = x ++ (k, v) :: y /\ ~ In k (map fst x).
Proof.
  split.
  - induction a as [|[k' v'] a IH]; cbn; [discriminate|]. destruct (String.eqb_spec k' k).
    + intros E. injection E as ->. subst. exists [], a. auto.
    + intros E. destruct (IH E) as (x & y & -> & Hn). exists ((k', v') :: x), y. split; auto. cbn. tauto.
  - intros (x & y & -> & Hn). rewrite get_app. apply get_none in Hn. rewrite Hn. cbn. now rewrite String.eqb_refl.
Qed.
Lemma last_get {F} (ev : list (string * F)) op f : get (register_all [] ev) op = Some f <-> last_for op ev f.
Proof.
  rewrite register_all_rev, app_nil_r, get_some_split. unfold last_for. split.
  - intros (x & y & E & Hn). exists (rev y), (rev x). split.
    + rewrite <- (rev_involutive ev), E, rev_app_distr. cbn. now rewrite <- app_assoc.
    + rewrite map_rev, <- in_rev. exact Hn.
  - intros (b & a & -> & Hn). exists (rev a), (rev b). split; [|now rewrite map_rev, <- in_rev].
    rewrite rev_app_distr. cbn. now rewrite <- app_assoc.
Qed.
Lemma last_none {F} (ev : list (string * F)) op : get (register_all [] ev) op = None <-> ~ In op (map fst ev).
Proof. rewrite register_all_rev, app_nil_r, get_none, map_rev, <- in_rev. tauto. Qed.

(** ** the tables *)
Definition owner (op : string) : option string :=
  option_map fst (find (fun m => existsb (String.eqb op) (snd m)) (filter (fun m => existsb (String.eqb (fst m)) builtin_backends) backends)).
Lemma get_decorators m op : get (rev (decorators m)) op = match get backends m with Some ops => if existsb (String.eqb op) ops then Some m else None | None => None end.
Proof.
  unfold decorators. destruct (get backends m) as [ops|]; [|reflexivity]. clear.
  induction ops as [|o ops IH]; cbn; auto. rewrite get_app, IH. rewrite (String.eqb_sym op o). cbn.
  destruct (existsb (String.eqb op) ops); [now rewrite orb_true_r|]. rewrite orb_false_r. reflexivity.
Qed.
Definition defined_in (op m : string) : bool := match get backends m with Some ops => existsb (String.eqb op) ops | None => false end.
Lemma get_loaded imp op ms reg : get (fold_left (fun r m => if (imp : string -> bool) m then register_all r (decorators m) else r) ms reg) op =
  match find (fun m => imp m && defined_in op m)%bool (rev ms) with Some m => Some m | None => get reg op end.
Proof.
  revert reg. induction ms as [|m ms IH]; intros reg; cbn; auto. rewrite IH.
  assert (X : forall l, find (fun m => imp m && defined_in op m)%bool (l ++ [m]) =
    match find (fun m => imp m && defined_in op m)%bool l with Some x => Some x | None => if (imp m && defined_in op m)%bool then Some m else None end).
  { induction l as [|y l IHl]; cbn; [destruct (_ && _)%bool; auto|]. destruct (imp y && defined_in op y)%bool; auto. }
  rewrite X. destruct (find _ (rev ms)); auto.
  destruct (imp m); cbn [andb]; [|reflexivity]. rewrite register_all_rev, get_app, get_decorators. unfold defined_in.
  destruct (get backends m) as [ops|]; [|reflexivity]. destruct (existsb (String.eqb op) ops); reflexivity.
Qed.
(** no operation is defined by two built-in modules *)
Definition unique_ok : bool :=
  forallb (fun m => forallb (fun m' => (String.eqb m m' || forallb (fun o => negb (defined_in o m')) (match get backends m with Some l => l | None => [] end))%bool) builtin_backends) builtin_backends.
Lemma unique op m m' : In m builtin_backends -> In m' builtin_backends -> defined_in op m = true -> defined_in op m' = true -> m = m'.
Proof.
  intros H1 H2 D1 D2. assert (U : unique_ok = true) by (vm_compute; reflexivity).
  unfold unique_ok in U. rewrite forallb_forall in U. specialize (U _ H1). rewrite forallb_forall in U. specialize (U _ H2).
  destruct (String.eqb_spec m m'); auto. cbn [orb] in U. rewrite forallb_forall in U. unfold defined_in in D1.
  destruct (get backends m) as [l|]; [|discriminate]. apply existsb_exists in D1 as (o & Ho & E%String.eqb_eq). subst o.
  specialize (U _ Ho). rewrite D2 in U. discriminate.
Qed.
Lemma loaded_iff imp op m : get (load_builtins imp []) op = Some m <-> In m builtin_backends /\ imp m = true /\ defined_in op m = true.
Proof.
  unfold load_builtins. rewrite get_loaded. split.
  - destruct (find _ _) as [x|] eqn:E; [|discriminate]. intros H. injection H as ->. apply find_some in E as [H1 H2].
    apply andb_true_iff in H2. rewrite <- in_rev in H1. tauto.
  - intros (H1 & H2 & H3). destruct (find _ _) as [x|] eqn:E.
    + apply find_some in E as [E1 E2]. apply andb_true_iff in E2 as [_ E2]. rewrite <- in_rev in E1. f_equal. eapply unique; eauto.
    + assert (N := find_none _ _ E m). rewrite <- in_rev in N. specialize (N H1). cbv beta in N. rewrite H2, H3 in N. discriminate.
Qed.

(** ** profiler *)
Section CallInd.
  Variable P : call -> Prop.
  Hypothesis H : forall op own ret inside, Forall P inside -> P (Call op own ret inside).
  Fixpoint call_ind2 (c : call) : P c :=
    match c with Call op own ret inside => H op own ret inside
      ((fix go l : Forall P l := match l with [] => Forall_nil _ | x :: r => Forall_cons _ (call_ind2 x) (go r) end) inside) end.
End CallInd.

Lemma times_app op a b : times_of op (a ++ b) = times_of op a ++ times_of op b.
Proof. unfold times_of. now rewrite filter_app, map_app. Qed.
Lemma times_flat op handled l : times_of op (flat_map (timings handled) l) = flat_map (fun c => times_of op (timings handled c)) l.
Proof. induction l; cbn [flat_map]; auto. now rewrite times_app, IHl. Qed.
Lemma times_executions handled op : handled op = false -> forall c, times_of op (timings handled c) = map duration (executions op c).
Proof.
  intros Hh. apply call_ind2. intros o own ret inside F. cbn [timings executions].
  rewrite times_app, times_flat, map_app. f_equal.
  - induction F; cbn; auto. now rewrite map_app, H, IHF.
  - destruct (String.eqb_spec o op).
    + subst. rewrite Hh. cbn. destruct ret; cbn; auto. now rewrite String.eqb_refl.
    + cbn. destruct (negb (handled o) && ret)%bool; auto. cbn. apply String.eqb_neq in n. now rewrite n.
Qed.
Lemma times_handled handled op : handled op = true -> forall c, times_of op (timings handled c) = [].
Proof.
  intros Hh. apply call_ind2. intros o own ret inside F. cbn [timings]. rewrite times_app, times_flat.
  replace (flat_map _ inside) with (@nil nat) by (induction F; cbn; auto; now rewrite H, <- IHF).
  destruct (String.eqb_spec o op); [subst; now rewrite Hh|]. cbn. destruct (negb (handled o) && ret)%bool; auto. cbn.
  apply String.eqb_neq in n. now rewrite n.
Qed.
Lemma min_fold l : forall t, fold_left Nat.min l t <= t /\ Forall (fun x => fold_left Nat.min l t <= x) l /\ In (fold_left Nat.min l t) (t :: l).
Proof.
  induction l as [|a l IH]; intros t; cbn; [auto|]. destruct (IH (Nat.min t a)) as (H1 & H2 & H3). repeat split.
  - lia.
  - constructor; [lia|auto].
  - destruct H3 as [H3|H3]; [|auto]. rewrite <- H3. destruct (Nat.min_spec t a) as [[_ ->]|[_ ->]]; auto.
Qed.
Lemma max_fold l : forall t, t <= fold_left Nat.max l t /\ Forall (fun x => x <= fold_left Nat.max l t) l /\ In (fold_left Nat.max l t) (t :: l).
Proof.
  induction l as [|a l IH]; intros t; cbn; [auto|]. destruct (IH (Nat.max t a)) as (H1 & H2 & H3). repeat split.
  - lia.
  - constructor; [lia|auto].
  - destruct H3 as [H3|H3]; [|auto]. rewrite <- H3. destruct (Nat.max_spec t a) as [[_ ->]|[_ ->]]; auto.
Qed.
Lemma leaf_app a b : leaf_total (a ++ b) = leaf_total a + leaf_total b.
Proof. unfold leaf_total. now rewrite filter_app, map_app, list_sum_app. Qed.
Lemma leaf_flat handled l : leaf_total (flat_map (timings handled) l) = list_sum (map (fun c => leaf_total (timings handled c)) l).
Proof. induction l; cbn [flat_map map]; auto. rewrite leaf_app, IHl. auto. Qed.
Lemma leaf_bound handled : forall c, flat handled c -> leaf_total (timings handled c) <= duration c.
Proof.
  apply (call_ind2 (fun c => flat handled c -> leaf_total (timings handled c) <= duration c)). intros op own ret inside F. cbn [flat timings]. intros [Hh Hin].
  rewrite leaf_app, leaf_flat.
  assert (A : list_sum (map (fun c => leaf_total (timings handled c)) inside) <= fold_right (fun c n => duration c + n) 0 inside).
  { clear Hh. induction F; cbn; auto. destruct Hin as [Hx Hr]. specialize (IHF Hr). specialize (H Hx). unfold list_sum in *. lia. }
  destruct (handled op); cbn [negb andb].
  - change (leaf_total []) with 0. cbn [duration]. lia.
  - rewrite (Hh eq_refl) in *. cbn in *. destruct ret; [|cbn; lia]. unfold leaf_total. cbn [filter fst].
    destruct (negb _); cbn; lia.
Qed.
