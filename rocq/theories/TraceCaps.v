From Coq Require Import List String Ascii Bool Arith Lia.
From Verif Require Import CtxModel CtxProofs MorphModel MorphProofs TraceModel TraceProofs TraceSound.
Import ListNotations.
Local Open Scope list_scope.

(** ** add_refs *)
Lemma existsb_ref r l : existsb (ref_eqb r) l = true <-> In r l.
Proof.
  rewrite existsb_exists. split.
  - intros (x & Hx & E). apply ref_eqb_eq in E. now subst.
  - intros H. exists r. split; auto. apply ref_eqb_refl.
Qed.
Lemma add_refs_app a : forall b seen, add_refs seen (a ++ b) = add_refs (add_refs seen a) b.
Proof. induction a as [|r a IH]; intros b seen; cbn; auto. Qed.
Lemma add_refs_mono l : forall seen r, In r seen -> In r (add_refs seen l).
Proof. induction l as [|x l IH]; intros seen r H; cbn; auto. apply IH. destruct (existsb (ref_eqb x) seen); auto. apply in_or_app. auto. Qed.
Lemma add_refs_in l : forall seen r, In r l -> In r (add_refs seen l).
Proof.
  induction l as [|x l IH]; intros seen r H; cbn; [destruct H|]. destruct H as [->|H]; auto. apply add_refs_mono.
  destruct (existsb (ref_eqb r) seen) eqn:E; [now apply existsb_ref|apply in_or_app; cbn; auto].
Qed.
Lemma add_refs_old l : forall seen, incl l seen -> add_refs seen l = seen.
Proof.
  induction l as [|x l IH]; intros seen H; cbn; auto. rewrite (proj2 (existsb_ref x seen)) by (apply H; cbn; auto). apply IH. intros y Hy. apply H. cbn. auto.
Qed.
Lemma add_refs_one seen x : add_refs seen [x] = if existsb (ref_eqb x) seen then seen else seen ++ [x].
Proof. reflexivity. Qed.
(** removing repetitions first changes nothing *)
Lemma add_refs_dedup P : forall l acc seen, add_refs seen (filter P (add_refs acc l)) = add_refs (add_refs seen (filter P acc)) (filter P l).
Proof.
  induction l as [|x l IH]; intros acc seen; cbn; auto. rewrite IH. destruct (existsb (ref_eqb x) acc) eqn:E.
  - destruct (P x) eqn:Px; auto. cbn. apply existsb_ref in E. rewrite (proj2 (existsb_ref x _)); auto. apply add_refs_in. apply filter_In. auto.
  - rewrite filter_app. cbn. destruct (P x) eqn:Px; [|now rewrite app_nil_r]. rewrite add_refs_app. reflexivity.
Qed.
Lemma add_refs_dedup0 P l seen : add_refs seen (filter P (add_refs [] l)) = add_refs seen (filter P l).
Proof. now rewrite add_refs_dedup. Qed.
Lemma filter_filter {A} (P Q : A -> bool) l : filter P (filter Q l) = filter (fun x => Q x && P x) l.
Proof. induction l as [|x l IH]; cbn; auto. destruct (Q x) eqn:E; cbn; [destruct (P x)|]; now rewrite IH. Qed.
Lemma filter_add P : forall l acc, filter P (add_refs acc l) = add_refs (filter P acc) (filter P l).
Proof.
  induction l as [|x l IH]; intros acc; cbn; auto. rewrite IH. destruct (existsb (ref_eqb x) acc) eqn:E.
  - destruct (P x) eqn:Px; auto. cbn. apply existsb_ref in E. rewrite (proj2 (existsb_ref x _)); auto. apply filter_In. auto.
  - rewrite filter_app. cbn. destruct (P x) eqn:Px; [|now rewrite app_nil_r]. cbn. destruct (existsb (ref_eqb x) (filter P acc)) eqn:E2; auto.
    apply existsb_ref, filter_In in E2. destruct E2 as [E2 _]. apply existsb_ref in E2. congruence.
Qed.
Lemma add_refs_self : forall l acc, NoDup (acc ++ l) -> add_refs acc l = acc ++ l.
Proof.
  induction l as [|x l IH]; intros acc N; cbn; [now rewrite app_nil_r|].
  destruct (existsb (ref_eqb x) acc) eqn:E.
  - apply existsb_ref in E. exfalso. apply NoDup_remove_2 in N. apply N. apply in_or_app. auto.
  - rewrite IH; rewrite <- app_assoc; auto.
Qed.

Section Caps.
  Context {C : Type}.
  Variable c_eqb : C -> C -> bool.
  Variable strict : bool.
  Notation tval := (tval C).
  Notation tst := (tst C).
  Local Arguments gvs : simpl never.

  Definition caps (s : tst) : list ref := map fst (t_caps s).
  (** the outer objects among some references *)
  Definition objs_of (outer : list (list tval)) (l : list ref) : list ref := filter (refers_obj outer) (outer_only (List.length outer) l).

  Lemma objs_app outer a b : objs_of outer (a ++ b) = objs_of outer a ++ objs_of outer b.
  Proof. unfold objs_of, outer_only. now rewrite filter_app, filter_app. Qed.
  Lemma cap_find_caps r l : (exists g, cap_find r l = Some g) <-> In r (map fst l).
  Proof.
    split.
    - intros (g & H). apply cap_find_some in H. now apply (in_map fst) in H.
    - intros H. destruct (cap_find r l) eqn:E; [eauto|]. apply cap_find_none in E. tauto.
  Qed.
  Lemma lift_caps outer (s s' : tst) r t : lift outer s r = Some (s', t) -> caps s' = add_refs (caps s) (objs_of outer [r]).
  Proof.
    unfold lift, objs_of, outer_only. intros E. destruct (Nat.eqb_spec (fst r) (List.length outer)) as [El|El].
    - destruct (nth_error (t_frame s) (snd r)); [|discriminate]. injection E as <- <-. cbn [filter]. rewrite El, Nat.ltb_irrefl. reflexivity.
    - destruct (nth_error outer (fst r)) as [f|] eqn:Ef; [|discriminate].
      assert (Hl : Nat.ltb (fst r) (List.length outer) = true) by (apply Nat.ltb_lt, nth_error_Some; congruence).
      cbn [filter]. rewrite Hl. cbn [filter]. unfold refers_obj. rewrite Ef. destruct (nth_error f (snd r)) as [[g|c]|]; [| |discriminate]; cbn [is_obj].
      + rewrite add_refs_one. destruct (cap_find r (t_caps s)) as [g'|] eqn:Ec.
        * injection E as <- <-. rewrite (proj2 (existsb_ref r (caps s))); auto. apply cap_find_caps. eauto.
        * cbn in E. injection E as <- <-. unfold caps at 1. cbn [t_caps]. rewrite map_app. cbn.
          destruct (existsb (ref_eqb r) (caps s)) eqn:E2; auto. apply existsb_ref, cap_find_caps in E2. destruct E2 as [g' E2]. unfold caps in *. congruence.
      + injection E as <- <-. reflexivity.
  Qed.
  Lemma lift_all_caps outer : forall rs (s s' : tst) ts, lift_all outer s rs = Some (s', ts) -> caps s' = add_refs (caps s) (objs_of outer rs).
  Proof.
    induction rs as [|r rs IH]; intros s s' ts E; cbn in E; [injection E as <- <-; reflexivity|].
    destruct (lift outer s r) as [[s1 t]|] eqn:E1; [|discriminate]. destruct (lift_all outer s1 rs) as [[s2 ts']|] eqn:E2; [|discriminate]. injection E as <- <-.
    rewrite (IH _ _ _ E2), (lift_caps _ _ _ _ _ E1). change (r :: rs) with ([r] ++ rs). now rewrite objs_app, add_refs_app.
  Qed.
  Lemma lift_leaves_caps outer : forall ls (s s' : tst) ts, lift_leaves outer s ls = Some (s', ts) -> caps s' = add_refs (caps s) (objs_of outer (leaf_refs ls)).
  Proof.
    induction ls as [|[r|c] ls IH]; intros s s' ts E; cbn [lift_leaves] in E; [injection E as <- <-; reflexivity| |].
    - destruct (lift outer s r) as [[s1 t]|] eqn:E1; [|discriminate]. destruct (lift_leaves outer s1 ls) as [[s2 ts']|] eqn:E2; [|discriminate]. injection E as <- <-.
      rewrite (IH _ _ _ E2), (lift_caps _ _ _ _ _ E1). change (leaf_refs (LRef r :: ls)) with ([r] ++ leaf_refs ls). now rewrite objs_app, add_refs_app.
    - destruct (lift_leaves outer s ls) as [[s2 ts']|] eqn:E2; [|discriminate]. injection E as <- <-. apply (IH _ _ _ E2).
  Qed.
  Lemma start_caps args : caps (start args : tst) = [].
  Proof. destruct (start_spec (V := unit) [] args) as (_ & H & _). unfold caps. now rewrite H. Qed.
  Lemma outs_caps n (s s' : tst) os ts : new_outs n s = (s', os) -> caps (push ts s') = caps s.
  Proof. intros E. injection E as <- _. reflexivity. Qed.

  (** a nested function's captures, seen from the enclosing level *)
  Lemma objs_nested outer frame l : objs_of outer (objs_of (outer ++ [frame]) l) = objs_of outer l.
  Proof.
    unfold objs_of, outer_only. rewrite !filter_filter. apply filter_ext. intros r. unfold refers_obj. rewrite app_length. cbn [List.length].
    destruct (Nat.ltb_spec (fst r) (List.length outer)).
    - rewrite nth_error_app1 by lia. rewrite (proj2 (Nat.ltb_lt _ _)) by lia. destruct (nth_error outer (fst r)) as [f|]; auto. destruct (nth_error f (snd r)) as [t|]; auto. destruct (is_obj t); auto.
    - rewrite andb_false_r. now rewrite !andb_false_r.
  Qed.
  Lemma objs_dedup outer l seen : add_refs seen (objs_of outer (add_refs [] l)) = add_refs seen (objs_of outer l).
  Proof. unfold objs_of, outer_only. rewrite !filter_filter. apply add_refs_dedup0. Qed.
  Lemma objs_merge outer a b seen : add_refs seen (objs_of outer (merge_captures a b)) = add_refs seen (objs_of outer a ++ objs_of outer b).
  Proof. unfold merge_captures. rewrite objs_dedup, objs_app. reflexivity. Qed.
  Lemma objs_region outer frame l seen : add_refs seen (objs_of outer (add_refs [] (objs_of (outer ++ [frame]) l))) = add_refs seen (objs_of outer l).
  Proof. now rewrite objs_dedup, objs_nested. Qed.
  Lemma objs_outer_only outer l : objs_of outer (outer_only (List.length outer) l) = objs_of outer l.
  Proof. unfold objs_of, outer_only. rewrite !filter_filter. apply filter_ext. intros r. now destruct (Nat.ltb (fst r) (List.length outer)). Qed.

  Theorem trace_caps : forall b outer s s' ops outs, trace_body c_eqb strict outer s b = Some (s', ops, outs) ->
    caps s' = add_refs (caps s) (filter (refers_obj outer) (uses (List.length outer) b)).
  Proof.
    assert (U : forall outer (b : body C), filter (refers_obj outer) (uses (List.length outer) b) = objs_of outer (uses (List.length outer) b)).
    { intros outer b. unfold objs_of. f_equal. unfold outer_only. symmetry.
      assert (A : forall lvl b, Forall (fun r => Nat.ltb (fst r) lvl = true) (uses (C := C) lvl b)).
      { assert (F : forall lvl l, Forall (fun r : ref => Nat.ltb (fst r) lvl = true) (outer_only lvl l)).
        { intros lvl l. apply Forall_forall. intros r Hr. apply filter_In in Hr. tauto. }
        intros lvl b0. induction b0; cbn [uses]; try apply Forall_app; auto. }
      specialize (A (List.length outer) b). induction A as [|r l H A IH]; cbn [filter]; auto. rewrite H. now rewrite IH. }
    induction b as [ls|p args n k IHk|pred args t IHt e IHe k IHk|init c IHc l IHl k IHk|args f IHf k IHk]; intros outer s s' ops outs E; rewrite U.
    - cbn [trace_body] in E. destruct (lift_leaves outer s ls) as [[s1 ts]|] eqn:E1; [|discriminate]. injection E as <- <- <-.
      cbn [uses]. rewrite objs_outer_only. eapply lift_leaves_caps; eauto.
    - cbn [trace_body] in E. destruct (lift_all outer s args) as [[s1 ts]|] eqn:E1; [|discriminate].
      destruct (new_outs n s1) as [s2 os] eqn:E2.
      destruct (trace_body c_eqb strict outer (push (map TV os) s2) k) as [[[s3 ops3] r]|] eqn:E3; [|discriminate]. injection E as <- <- <-.
      cbn [uses]. rewrite objs_app, objs_outer_only, add_refs_app, (IHk _ _ _ _ _ E3), U. f_equal.
      rewrite (outs_caps _ _ _ _ _ E2). eapply lift_all_caps; eauto.
    - cbn [trace_body] in E. destruct (lift outer s pred) as [[s0 [pg|pc]]|] eqn:E0; try discriminate.
      destruct (lift_all outer s0 args) as [[s1 ts]|] eqn:E1; [|discriminate].
      destruct (trace_body c_eqb strict (outer ++ [t_frame s1]) (start ts) t) as [[[st opst] outst]|] eqn:Et; [|discriminate].
      destruct (trace_body c_eqb strict (outer ++ [t_frame s1]) (start ts) e) as [[[se opse] outse]|] eqn:Ee; [|discriminate].
      match type of E with (if ?c then _ else _) = _ => destruct c; [discriminate|] end.
      match type of E with (if ?c then _ else _) = _ => destruct c; [discriminate|] end.
      cbn [finish tf_graph g_outputs tf_morph tf_caps] in E.
      set (order := merge_captures (map fst (t_caps st)) (map fst (t_caps se))) in *.
      destruct (lift_all outer s1 order) as [[s2 cs]|] eqn:E2; [|discriminate].
      destruct (new_outs (List.length (gvs outst)) s2) as [s3 os] eqn:E3.
      destruct (reconstruct (out_morph outst) os) as [rs|] eqn:Er; [|discriminate].
      destruct (trace_body c_eqb strict outer (push rs s3) k) as [[[s4 ops4] r]|] eqn:E4; [|discriminate]. injection E as <- _ _.
      cbn [uses]. rewrite objs_app, objs_outer_only, add_refs_app, (IHk _ _ _ _ _ E4), U. f_equal.
      rewrite (outs_caps _ _ _ _ _ E3), (lift_all_caps _ _ _ _ _ E2), (lift_all_caps _ _ _ _ _ E1), (lift_caps _ _ _ _ _ E0).
      change (pred :: args ++ uses (S (List.length outer)) t ++ uses (S (List.length outer)) e) with ([pred] ++ args ++ uses (S (List.length outer)) t ++ uses (S (List.length outer)) e).
      rewrite !objs_app, !add_refs_app. unfold order. rewrite objs_merge, add_refs_app.
      specialize (IHt _ _ _ _ _ Et). specialize (IHe _ _ _ _ _ Ee). rewrite start_caps, U in IHt, IHe. rewrite app_length, Nat.add_1_r in IHt, IHe.
      unfold caps in IHt, IHe. rewrite IHt, IHe. now rewrite !objs_region.
    - cbn [trace_body] in E. destruct (lift_all outer s init) as [[s1 ts]|] eqn:E1; [|discriminate].
      destruct (Nat.eqb (List.length init) 0 || negb (forallb is_obj ts)) eqn:Ei; [discriminate|].
      destruct (trace_body c_eqb strict (outer ++ [t_frame s1]) (start ts) c) as [[[st opst] outst]|] eqn:Et; [|discriminate].
      destruct (trace_body c_eqb strict (outer ++ [t_frame s1]) (start ts) l) as [[[se opse] outse]|] eqn:Ee; [|discriminate].
      match type of E with (if ?c then _ else _) = _ => destruct c; [discriminate|] end.
      match type of E with (if ?c then _ else _) = _ => destruct c; [discriminate|] end.
      match type of E with (if ?c then _ else _) = _ => destruct c; [discriminate|] end.
      match type of E with (if ?c then _ else _) = _ => destruct c; [discriminate|] end.
      cbn [finish tf_graph g_outputs tf_morph tf_caps] in E.
      set (order := merge_captures (map fst (t_caps st)) (map fst (t_caps se))) in *.
      destruct (lift_all outer s1 order) as [[s2 cs]|] eqn:E2; [|discriminate].
      destruct (new_outs (List.length ts) s2) as [s3 os] eqn:E3.
      destruct (trace_body c_eqb strict outer (push (map TV os) s3) k) as [[[s4 ops4] r]|] eqn:E4; [|discriminate]. injection E as <- _ _.
      cbn [uses]. rewrite objs_app, objs_outer_only, add_refs_app, (IHk _ _ _ _ _ E4), U. f_equal.
      rewrite (outs_caps _ _ _ _ _ E3), (lift_all_caps _ _ _ _ _ E2), (lift_all_caps _ _ _ _ _ E1).
      rewrite !objs_app, !add_refs_app. unfold order. rewrite objs_merge, add_refs_app.
      specialize (IHc _ _ _ _ _ Et). specialize (IHl _ _ _ _ _ Ee). rewrite start_caps, U in IHc, IHl. rewrite app_length, Nat.add_1_r in IHc, IHl.
      unfold caps in IHc, IHl. rewrite IHc, IHl. now rewrite !objs_region.
    - cbn [trace_body] in E. destruct (lift_all outer s args) as [[s1 ts]|] eqn:E1; [|discriminate].
      destruct (trace_body c_eqb strict (outer ++ [t_frame s1]) (start ts) f) as [[[st opst] outst]|] eqn:Et; [|discriminate].
      cbn [finish tf_graph g_outputs tf_morph tf_caps] in E.
      destruct (lift_all outer s1 (map fst (t_caps st))) as [[s2 cs]|] eqn:E2; [|discriminate].
      destruct (new_outs (List.length (gvs outst)) s2) as [s3 os] eqn:E3.
      destruct (reconstruct (out_morph outst) os) as [rs|] eqn:Er; [|discriminate].
      destruct (trace_body c_eqb strict outer (push rs s3) k) as [[[s4 ops4] r]|] eqn:E4; [|discriminate]. injection E as <- _ _.
      cbn [uses]. rewrite objs_app, objs_outer_only, add_refs_app, (IHk _ _ _ _ _ E4), U. f_equal.
      rewrite (outs_caps _ _ _ _ _ E3), (lift_all_caps _ _ _ _ _ E2), (lift_all_caps _ _ _ _ _ E1).
      rewrite !objs_app, !add_refs_app.
      specialize (IHf _ _ _ _ _ Et). rewrite start_caps, U in IHf. rewrite app_length, Nat.add_1_r in IHf.
      unfold caps in IHf. rewrite IHf. now rewrite !objs_region.
  Qed.

  (** ** names *)
  Definition argname (k : nat) : string := ("%arg" +++ show k)%string.
  Definition valname (k : nat) : string := ("%" +++ show k)%string.
  Definition capname (k : nat) : string := ("%capture" +++ show k)%string.
  Record named (s : tst) : Prop := {
    nd : NoDup (t_names s);
    nd_form : Forall (fun x => (exists k, k < t_argc s /\ x = argname k) \/ (exists k, k < t_valc s /\ x = valname k)) (t_names s);
    nd_inputs : map (nth_error (t_names s)) (t_inputs s) = map (fun k => Some (argname k)) (seq 0 (t_argc s)) }.


  Lemma argname_inj a b : argname a = argname b -> a = b.
  Proof. unfold argname. intros E. apply app_inv_l in E. now apply show_inj. Qed.
  Lemma valname_inj a b : valname a = valname b -> a = b.
  Proof. unfold valname. intros E. apply app_inv_l in E. now apply show_inj. Qed.
  Lemma capname_inj a b : capname a = capname b -> a = b.
  Proof. unfold capname. intros E. apply app_inv_l in E. now apply show_inj. Qed.
  Lemma arg_val a b : argname a <> valname b.
  Proof. unfold argname, valname. cbn. intros E. injection E as E. pose proof (show_digits b) as H. rewrite <- E in H. discriminate. Qed.
  Lemma cap_val a b : capname a <> valname b.
  Proof. unfold capname, valname. cbn. intros E. injection E as E. pose proof (show_digits b) as H. rewrite <- E in H. discriminate. Qed.
  Lemma cap_arg a b : capname a <> argname b.
  Proof. unfold capname, argname. cbn. discriminate. Qed.

  Lemma nth_error_app_map {A} (l m : list A) ks : Forall (fun k => k < List.length l) ks -> map (nth_error (l ++ m)) ks = map (nth_error l) ks.
  Proof. induction 1 as [|k ks H F IH]; cbn; auto. now rewrite IH, nth_error_app1. Qed.
  Lemma inputs_below (s : tst) : map (nth_error (t_names s)) (t_inputs s) = map (fun k => Some (argname k)) (seq 0 (t_argc s)) -> Forall (fun k => k < List.length (t_names s)) (t_inputs s).
  Proof.
    intros H. apply Forall_forall. intros k Hk. apply nth_error_Some. intros E. apply (in_map (nth_error (t_names s))) in Hk. rewrite H, E in Hk.
    apply in_map_iff in Hk. destruct Hk as (x & Hx & _). discriminate.
  Qed.
  Lemma new_arg_named (s s' : tst) g : new_arg s = (s', g) -> named s -> named s'.
  Proof.
    intros E [N F I]. unfold new_arg in E. change ("%arg" +++ show (t_argc s))%string with (argname (t_argc s)) in E. injection E as <- <-. split; cbn [t_names t_argc t_valc t_inputs].
    - apply NoDup_app_intro; auto; [constructor; [easy|constructor]|]. intros x Hx [<-|[]]. rewrite Forall_forall in F. destruct (F _ Hx) as [(k & L & E)|(k & L & E)].
      + apply argname_inj in E. lia.
      + now apply arg_val in E.
    - apply Forall_app. split.
      + eapply Forall_impl; [|exact F]. cbn. intros x [(k & L & E)|H]; [left; exists k; split; auto|auto].
      + constructor; [|constructor]. left. eauto.
    - rewrite map_app, seq_S, map_app. cbn [map]. rewrite Nat.add_0_l. f_equal.
      + rewrite nth_error_app_map; auto. now apply inputs_below.
      + rewrite nth_error_app2, Nat.sub_diag; auto.
  Qed.
  Lemma new_outs_named n (s s' : tst) os : new_outs n s = (s', os) -> named s -> named s'.
  Proof.
    intros E [N F I]. unfold new_outs in E. change (fun k => ("%" +++ show k)%string) with valname in E. injection E as <- <-. split; cbn [t_names t_argc t_valc t_inputs].
    - apply NoDup_app_intro; auto.
      + apply FinFun.Injective_map_NoDup; [|apply seq_NoDup]. intros a b. apply valname_inj.
      + intros x Hx Hi. apply in_map_iff in Hi. destruct Hi as (j & <- & Hj). apply in_seq in Hj. rewrite Forall_forall in F. destruct (F _ Hx) as [(k & L & E)|(k & L & E)].
        * symmetry in E. now apply arg_val in E.
        * apply valname_inj in E. lia.
    - apply Forall_app. split.
      + eapply Forall_impl; [|exact F]. cbn. intros x [H|(k & L & E)]; [auto|right; exists k; split; auto; lia].
      + apply Forall_map, Forall_forall. intros k Hk. apply in_seq in Hk. right. exists k. split; auto. lia.
    - rewrite nth_error_app_map; auto. now apply inputs_below.
  Qed.
  Lemma lift_named outer (s s' : tst) r t : lift outer s r = Some (s', t) -> named s -> named s'.
  Proof.
    unfold lift. intros E N. destruct (Nat.eqb (fst r) (List.length outer)).
    - destruct (nth_error (t_frame s) (snd r)); [|discriminate]. injection E as <- _. auto.
    - destruct (nth_error outer (fst r)) as [f|]; [|discriminate]. destruct (nth_error f (snd r)) as [[g|c]|]; [| |discriminate].
      + destruct (cap_find r (t_caps s)).
        * injection E as <- _. auto.
        * destruct (new_arg s) as [s1 g1] eqn:E1. injection E as <- _. destruct (new_arg_named _ _ _ E1 N) as [A B D]. split; auto.
      + injection E as <- _. auto.
  Qed.
  Lemma lift_all_named outer : forall rs (s s' : tst) ts, lift_all outer s rs = Some (s', ts) -> named s -> named s'.
  Proof.
    induction rs as [|r rs IH]; intros s s' ts E N; cbn in E; [injection E as <- _; auto|].
    destruct (lift outer s r) as [[s1 t]|] eqn:E1; [|discriminate]. destruct (lift_all outer s1 rs) as [[s2 ts']|] eqn:E2; [|discriminate]. injection E as <- _.
    eapply IH; eauto. eapply lift_named; eauto.
  Qed.
  Lemma lift_leaves_named outer : forall ls (s s' : tst) ts, lift_leaves outer s ls = Some (s', ts) -> named s -> named s'.
  Proof.
    induction ls as [|[r|c] ls IH]; intros s s' ts E N; cbn [lift_leaves] in E; [injection E as <- _; auto| |].
    - destruct (lift outer s r) as [[s1 t]|] eqn:E1; [|discriminate]. destruct (lift_leaves outer s1 ls) as [[s2 ts']|] eqn:E2; [|discriminate]. injection E as <- _.
      eapply IH; eauto. eapply lift_named; eauto.
    - destruct (lift_leaves outer s ls) as [[s2 ts']|] eqn:E2; [|discriminate]. injection E as <- _. eauto.
  Qed.
  Lemma push_named ts (s : tst) : named s -> named (push ts s).
  Proof. intros [A B D]. split; auto. Qed.
  Lemma start_named args : named (start args : tst).
  Proof.
    unfold start. assert (H : forall args (s : tst), named s -> named (fst (lift_params s args))).
    { induction args0 as [|[g|c] args0 IH]; intros s N; cbn [lift_params]; auto.
      - destruct (new_arg s) as [s1 g1] eqn:E1. apply new_arg_named in E1; auto. specialize (IH _ E1). destruct (lift_params s1 args0). auto.
      - specialize (IH _ N). destruct (lift_params s args0). auto. }
    specialize (H args (TSt [] 0 0 [] [] [])). destruct (lift_params _ args). apply push_named, H. split; cbn; constructor.
  Qed.

  Theorem trace_named : forall b outer s s' ops outs, trace_body c_eqb strict outer s b = Some (s', ops, outs) -> named s -> named s'.
  Proof.
    induction b as [ls|p args n k IHk|pred args t IHt e IHe k IHk|init c IHc l IHl k IHk|args f IHf k IHk]; intros outer s s' ops outs E N.
    - cbn [trace_body] in E. destruct (lift_leaves outer s ls) as [[s1 ts]|] eqn:E1; [|discriminate]. injection E as <- <- <-. eapply lift_leaves_named; eauto.
    - cbn [trace_body] in E. destruct (lift_all outer s args) as [[s1 ts]|] eqn:E1; [|discriminate].
      destruct (new_outs n s1) as [s2 os] eqn:E2.
      destruct (trace_body c_eqb strict outer (push (map TV os) s2) k) as [[[s3 ops3] r]|] eqn:E3; [|discriminate]. injection E as <- <- <-.
      eapply IHk; eauto. apply push_named. eapply new_outs_named; eauto. eapply lift_all_named; eauto.
    - cbn [trace_body] in E. destruct (lift outer s pred) as [[s0 [pg|pc]]|] eqn:E0; try discriminate.
      destruct (lift_all outer s0 args) as [[s1 ts]|] eqn:E1; [|discriminate].
      destruct (trace_body c_eqb strict (outer ++ [t_frame s1]) (start ts) t) as [[[st opst] outst]|] eqn:Et; [|discriminate].
      destruct (trace_body c_eqb strict (outer ++ [t_frame s1]) (start ts) e) as [[[se opse] outse]|] eqn:Ee; [|discriminate].
      match type of E with (if ?c then _ else _) = _ => destruct c; [discriminate|] end.
      match type of E with (if ?c then _ else _) = _ => destruct c; [discriminate|] end.
      cbn [finish tf_graph g_outputs tf_morph tf_caps] in E.
      destruct (lift_all outer s1 (merge_captures (map fst (t_caps st)) (map fst (t_caps se)))) as [[s2 cs]|] eqn:E2; [|discriminate].
      destruct (new_outs (List.length (gvs outst)) s2) as [s3 os] eqn:E3.
      destruct (reconstruct (out_morph outst) os) as [rs|] eqn:Er; [|discriminate].
      destruct (trace_body c_eqb strict outer (push rs s3) k) as [[[s4 ops4] r]|] eqn:E4; [|discriminate]. injection E as <- _ _.
      eapply IHk; eauto. apply push_named. eapply new_outs_named; eauto. eapply lift_all_named; eauto. eapply lift_all_named; eauto. eapply lift_named; eauto.
    - cbn [trace_body] in E. destruct (lift_all outer s init) as [[s1 ts]|] eqn:E1; [|discriminate].
      destruct (Nat.eqb (List.length init) 0 || negb (forallb is_obj ts)) eqn:Ei; [discriminate|].
      destruct (trace_body c_eqb strict (outer ++ [t_frame s1]) (start ts) c) as [[[st opst] outst]|] eqn:Et; [|discriminate].
      destruct (trace_body c_eqb strict (outer ++ [t_frame s1]) (start ts) l) as [[[se opse] outse]|] eqn:Ee; [|discriminate].
      match type of E with (if ?c then _ else _) = _ => destruct c; [discriminate|] end.
      match type of E with (if ?c then _ else _) = _ => destruct c; [discriminate|] end.
      match type of E with (if ?c then _ else _) = _ => destruct c; [discriminate|] end.
      match type of E with (if ?c then _ else _) = _ => destruct c; [discriminate|] end.
      cbn [finish tf_graph g_outputs tf_morph tf_caps] in E.
      destruct (lift_all outer s1 (merge_captures (map fst (t_caps st)) (map fst (t_caps se)))) as [[s2 cs]|] eqn:E2; [|discriminate].
      destruct (new_outs (List.length ts) s2) as [s3 os] eqn:E3.
      destruct (trace_body c_eqb strict outer (push (map TV os) s3) k) as [[[s4 ops4] r]|] eqn:E4; [|discriminate]. injection E as <- _ _.
      eapply IHk; eauto. apply push_named. eapply new_outs_named; eauto. eapply lift_all_named; eauto. eapply lift_all_named; eauto.
    - cbn [trace_body] in E. destruct (lift_all outer s args) as [[s1 ts]|] eqn:E1; [|discriminate].
      destruct (trace_body c_eqb strict (outer ++ [t_frame s1]) (start ts) f) as [[[st opst] outst]|] eqn:Et; [|discriminate].
      cbn [finish tf_graph g_outputs tf_morph tf_caps] in E.
      destruct (lift_all outer s1 (map fst (t_caps st))) as [[s2 cs]|] eqn:E2; [|discriminate].
      destruct (new_outs (List.length (gvs outst)) s2) as [s3 os] eqn:E3.
      destruct (reconstruct (out_morph outst) os) as [rs|] eqn:Er; [|discriminate].
      destruct (trace_body c_eqb strict outer (push rs s3) k) as [[[s4 ops4] r]|] eqn:E4; [|discriminate]. injection E as <- _ _.
      eapply IHk; eauto. apply push_named. eapply new_outs_named; eauto. eapply lift_all_named; eauto. eapply lift_all_named; eauto.
  Qed.

  (** names given by align_region_inputs *)
  Lemma align_names m : forall order names ninp, NoDup names ->
    Forall (fun x => forall k, ninp <= k -> x <> capname k) names -> NoDup (snd (align_caps m names ninp order)).
  Proof.
    induction order as [|r order IH]; intros names ninp N F; cbn [align_caps snd]; auto.
    destruct (cap_find r m).
    - specialize (IH names ninp N F). destruct (align_caps m names ninp order). auto.
    - change ("%capture" +++ show ninp)%string with (capname ninp).
      specialize (IH (names ++ [capname ninp]) (S ninp)). destruct (align_caps m (names ++ [capname ninp]) (S ninp) order). apply IH.
      + apply NoDup_app_intro; auto; [constructor; [easy|constructor]|]. intros x Hx [<-|[]]. rewrite Forall_forall in F. apply (F _ Hx ninp); auto.
      + apply Forall_app. split.
        * eapply Forall_impl; [|exact F]. cbn. intros x Hx k Hk. apply Hx. lia.
        * constructor; [|constructor]. intros k Hk E. apply capname_inj in E. lia.
  Qed.
  Theorem align_nodup lead order (s : tst) ops outs : named s -> NoDup (tf_names (align lead order (finish s ops outs))).
  Proof.
    intros [N F I]. unfold align. cbn [finish tf_graph tf_caps tf_names g_inputs].
    assert (H := align_names (combine (map fst (t_caps s)) (skipn lead (t_inputs s))) order (t_names s) (List.length (t_inputs s)) N).
    destruct (align_caps _ _ _ order). apply H. eapply Forall_impl; [|exact F]. cbn.
    intros x [(k & _ & ->)|(k & _ & ->)] j _ E; symmetry in E; [now apply cap_arg in E|now apply cap_val in E].
  Qed.
End Caps.

(** keeping the first occurrences, by the standard library's nodup *)
Definition ref_dec (a b : ref) : {a = b} + {a <> b}.
Proof. decide equality; apply Nat.eq_dec. Defined.
Lemma add_refs_nodup l : add_refs [] l = rev (nodup ref_dec (rev l)).
Proof.
  induction l as [|x l IH] using rev_ind; auto. rewrite add_refs_app, IH, rev_app_distr. cbn [rev app nodup]. rewrite add_refs_one.
  destruct (in_dec ref_dec x (rev l)) as [H|H].
  - rewrite (proj2 (existsb_ref x _)); auto. rewrite <- in_rev. now apply nodup_In.
  - destruct (existsb (ref_eqb x) (rev (nodup ref_dec (rev l)))) eqn:E; auto. apply existsb_ref in E. rewrite <- in_rev in E. apply nodup_In in E. tauto.
Qed.

Section Strict.
  Context {C : Type}.
  Variable c_eqb : C -> C -> bool.
  (** the additional checks only make tracing fail *)
  Theorem strict_code : forall b outer (s : tst C) r, trace_body c_eqb true outer s b = Some r -> trace_body c_eqb false outer s b = Some r.
  Proof.
    induction b as [ls|p args n k IHk|pred args t IHt e IHe k IHk|init c IHc l IHl k IHk|args f IHf k IHk]; intros outer s r E; cbn [trace_body] in *; auto.
    - destruct (lift_all outer s args) as [[s1 ts]|]; auto. destruct (new_outs n s1) as [s2 os].
      destruct (trace_body c_eqb true outer (push (map TV os) s2) k) as [[[s3 ops3] q]|] eqn:E3; [|discriminate]. now rewrite (IHk _ _ _ E3).
    - destruct (lift outer s pred) as [[s0 [pg|pc]]|]; auto. destruct (lift_all outer s0 args) as [[s1 ts]|]; auto.
      destruct (trace_body c_eqb true (outer ++ [t_frame s1]) (start ts) t) as [[[st opst] outst]|] eqn:Et; [|discriminate].
      destruct (trace_body c_eqb true (outer ++ [t_frame s1]) (start ts) e) as [[[se opse] outse]|] eqn:Ee; [|discriminate].
      rewrite (IHt _ _ _ Et), (IHe _ _ _ Ee). cbn [andb].
      match type of E with (if ?c then _ else _) = _ => destruct c; [discriminate|] end.
      match type of E with (if ?c then _ else _) = _ => destruct c; [discriminate|] end.
      match type of E with match ?c with _ => _ end = _ => destruct c as [[s2 cs]|]; auto end.
      match type of E with match ?c with _ => _ end = _ => destruct c as [s3 os] end.
      match type of E with match ?c with _ => _ end = _ => destruct c as [rs|]; auto end.
      destruct (trace_body c_eqb true outer (push rs s3) k) as [[[s4 ops4] q]|] eqn:E4; [|discriminate]. now rewrite (IHk _ _ _ E4).
    - destruct (lift_all outer s init) as [[s1 ts]|]; auto.
      match type of E with (if ?c then _ else _) = _ => destruct c; [discriminate|] end.
      destruct (trace_body c_eqb true (outer ++ [t_frame s1]) (start ts) c) as [[[st opst] outst]|] eqn:Et; [|discriminate].
      destruct (trace_body c_eqb true (outer ++ [t_frame s1]) (start ts) l) as [[[se opse] outse]|] eqn:Ee; [|discriminate].
      rewrite (IHc _ _ _ Et), (IHl _ _ _ Ee). cbn [andb].
      match type of E with (if ?c then _ else _) = _ => destruct c; [discriminate|] end.
      match type of E with (if ?c then _ else _) = _ => destruct c; [discriminate|] end.
      match type of E with (if ?c then _ else _) = _ => destruct c; [discriminate|] end.
      match type of E with (if ?c then _ else _) = _ => destruct c; [discriminate|] end.
      match type of E with match ?c with _ => _ end = _ => destruct c as [[s2 cs]|]; auto end.
      match type of E with match ?c with _ => _ end = _ => destruct c as [s3 os] end.
      destruct (trace_body c_eqb true outer (push (map TV os) s3) k) as [[[s4 ops4] q]|] eqn:E4; [|discriminate]. now rewrite (IHk _ _ _ E4).
    - destruct (lift_all outer s args) as [[s1 ts]|]; auto.
      destruct (trace_body c_eqb true (outer ++ [t_frame s1]) (start ts) f) as [[[st opst] outst]|] eqn:Et; [|discriminate].
      rewrite (IHf _ _ _ Et).
      match type of E with match ?c with _ => _ end = _ => destruct c as [[s2 cs]|]; auto end.
      match type of E with match ?c with _ => _ end = _ => destruct c as [s3 os] end.
      match type of E with match ?c with _ => _ end = _ => destruct c as [rs|]; auto end.
      destruct (trace_body c_eqb true outer (push rs s3) k) as [[[s4 ops4] q]|] eqn:E4; [|discriminate]. now rewrite (IHk _ _ _ E4).
  Qed.

  (** functions that return only objects *)
  Definition leaf_obj (l : leaf C) : bool := match l with LRef _ => true | LConst _ => false end.
  Fixpoint no_const (b : body C) : bool :=
    match b with
    | BRet ls => forallb leaf_obj ls
    | BPrim _ _ _ k => no_const k
    | BCond _ _ t e k => no_const t && no_const e && no_const k
    | BWhile _ c l k => no_const c && no_const l && no_const k
    | BCall _ f k => no_const f && no_const k
    end.
  Notation all_obj := (forallb (is_obj (C := C))).
  Lemma nth_all (l : list (tval C)) i t : all_obj l = true -> nth_error l i = Some t -> is_obj t = true.
  Proof. intros H E. rewrite forallb_forall in H. apply H. eapply nth_error_In; eauto. Qed.
  Lemma lift_obj outer (s s' : tst C) r t : forallb all_obj outer = true -> all_obj (t_frame s) = true -> lift outer s r = Some (s', t) ->
    is_obj t = true /\ t_frame s' = t_frame s.
  Proof.
    intros Ho Hf E. unfold lift in E. destruct (Nat.eqb (fst r) (List.length outer)).
    - destruct (nth_error (t_frame s) (snd r)) eqn:En; [|discriminate]. injection E as <- <-. split; auto. eapply nth_all; eauto.
    - destruct (nth_error outer (fst r)) as [f|] eqn:Ef; [|discriminate]. destruct (nth_error f (snd r)) as [[g|c]|] eqn:Eg; [| |discriminate].
      + destruct (cap_find r (t_caps s)); injection E as <- <-; auto.
      + exfalso. apply nth_error_In in Ef. rewrite forallb_forall in Ho. specialize (Ho _ Ef). apply (nth_all _ _ _ Ho) in Eg. discriminate.
  Qed.
  Lemma lift_all_obj outer : forallb all_obj outer = true -> forall rs (s s' : tst C) ts, all_obj (t_frame s) = true -> lift_all outer s rs = Some (s', ts) ->
    all_obj ts = true /\ t_frame s' = t_frame s.
  Proof.
    intros Ho. induction rs as [|r rs IH]; intros s s' ts Hf E; cbn in E; [injection E as <- <-; auto|].
    destruct (lift outer s r) as [[s1 t]|] eqn:E1; [|discriminate]. destruct (lift_all outer s1 rs) as [[s2 ts']|] eqn:E2; [|discriminate]. injection E as <- <-.
    destruct (lift_obj _ _ _ _ _ Ho Hf E1) as [A B]. destruct (IH _ _ _ ltac:(rewrite B; auto) E2) as [D F]. split; [cbn; now rewrite A|congruence].
  Qed.
  Lemma lift_leaves_obj outer : forallb all_obj outer = true -> forall ls (s s' : tst C) ts, all_obj (t_frame s) = true -> forallb leaf_obj ls = true -> lift_leaves outer s ls = Some (s', ts) ->
    all_obj ts = true /\ t_frame s' = t_frame s.
  Proof.
    intros Ho. induction ls as [|[r|c] ls IH]; intros s s' ts Hf Hl E; cbn [lift_leaves] in E; [injection E as <- <-; auto| |discriminate].
    destruct (lift outer s r) as [[s1 t]|] eqn:E1; [|discriminate]. destruct (lift_leaves outer s1 ls) as [[s2 ts']|] eqn:E2; [|discriminate]. injection E as <- <-.
    destruct (lift_obj _ _ _ _ _ Ho Hf E1) as [A B]. destruct (IH _ _ _ ltac:(rewrite B; auto) Hl E2) as [D F]. split; [cbn; now rewrite A|congruence].
  Qed.
  Lemma all_TV l : all_obj (map TV l) = true.
  Proof. induction l; auto. Qed.
  Lemma obj_morph : forall (ts : list (tval C)), all_obj ts = true -> out_morph ts = (seq 0 (List.length ts), []) /\ List.length (gvs ts) = List.length ts.
  Proof.
    intros ts H. assert (A : forall i, list_split is_obj i ts = (ts, [], seq i (List.length ts))).
    { induction ts as [|[g|c] ts IH]; intros i; cbn in *; auto; [|discriminate]. now rewrite IH. }
    split; [unfold out_morph; now rewrite A|]. clear A. induction ts as [|[g|c] ts IH]; cbn in H; auto; [|discriminate].
    change (gvs (TV g :: ts)) with (g :: gvs ts). cbn. now rewrite IH.
  Qed.
  Lemma start_obj args : all_obj args = true -> all_obj (t_frame (start args)) = true.
  Proof.
    assert (P : forall a (s : tst C), t_frame (fst (lift_params s a)) = t_frame s).
    { induction a as [|[g|c] a IH]; intros s; cbn [lift_params]; auto.
      - destruct (new_arg s) as [s1 g1] eqn:En. specialize (IH s1). destruct (lift_params s1 a). cbn [fst] in *. rewrite IH. injection En as <- _. reflexivity.
      - specialize (IH s). destruct (lift_params s a). auto. }
    assert (Q : forall a (s : tst C), all_obj a = true -> all_obj (snd (lift_params s a)) = true).
    { induction a as [|[g|c] a IH]; intros s H; cbn [lift_params]; auto; [|discriminate].
      destruct (new_arg s) as [s1 g1]. specialize (IH s1 H). destruct (lift_params s1 a). auto. }
    intros H. unfold start. specialize (P args (TSt [] 0 0 [] [] [])). specialize (Q args (TSt [] 0 0 [] [] []) H). destruct (lift_params _ args) as [s ts]. cbn [fst snd] in *.
    unfold push. cbn [t_frame]. now rewrite P.
  Qed.
  Lemma outer_obj outer f : forallb all_obj outer = true -> all_obj f = true -> forallb all_obj (outer ++ [f]) = true.
  Proof. intros A B. rewrite forallb_app. cbn. now rewrite A, B. Qed.
  Lemma imms_nil : imms_eqb c_eqb [] [] = true. Proof. reflexivity. Qed.
  Lemma push_obj ts (s : tst C) : all_obj (t_frame s) = true -> all_obj ts = true -> all_obj (t_frame (push ts s)) = true.
  Proof. intros A B. unfold push. cbn [t_frame]. rewrite forallb_app, A, B. reflexivity. Qed.
  Lemma reconstruct_obj ts os rs : all_obj ts = true -> List.length os = List.length ts -> reconstruct (C := C) (out_morph ts) os = Some rs -> all_obj rs = true.
  Proof.
    intros H L E. destruct (obj_morph _ H) as [_ Hg]. rewrite reconstruct_fill in E by lia. injection E as <-.
    clear L Hg. revert os. induction ts as [|[g|c] ts IH]; intros [|o os]; cbn in H; try discriminate; auto. cbn. apply IH; auto.
  Qed.

  Lemma outs_obj n (s s' : tst C) os ts : new_outs n s = (s', os) -> all_obj (t_frame s) = true -> all_obj ts = true -> all_obj (t_frame (push ts s')) = true.
  Proof. intros E A B. apply push_obj; auto. injection E as <- _. exact A. Qed.
  Theorem objects_strict : forall b outer (s : tst C) s' ops outs, no_const b = true -> forallb all_obj outer = true -> all_obj (t_frame s) = true ->
    trace_body c_eqb false outer s b = Some (s', ops, outs) -> trace_body c_eqb true outer s b = Some (s', ops, outs) /\ all_obj outs = true.
  Proof.
    induction b as [ls|p args n k IHk|pred args t IHt e IHe k IHk|init c IHc l IHl k IHk|args f IHf k IHk]; intros outer s s' ops outs Nc Ho Hf E; cbn [trace_body no_const] in *.
    - destruct (lift_leaves outer s ls) as [[s1 ts]|] eqn:E1; [|discriminate]. injection E as <- <- <-. split; auto. eapply lift_leaves_obj; eauto.
    - destruct (lift_all outer s args) as [[s1 ts]|] eqn:E1; [|discriminate]. destruct (lift_all_obj _ Ho _ _ _ _ Hf E1) as [A1 B1]. rewrite <- B1 in Hf.
      destruct (new_outs n s1) as [s2 os] eqn:E2.
      destruct (trace_body c_eqb false outer (push (map TV os) s2) k) as [[[s3 ops3] q]|] eqn:E3; [|discriminate]. injection E as <- <- <-.
      destruct (IHk _ _ _ _ _ Nc Ho (outs_obj _ _ _ _ _ E2 Hf (all_TV _)) E3) as [-> D]. auto.
    - apply andb_prop in Nc. destruct Nc as [Nc Nk]. apply andb_prop in Nc. destruct Nc as [Nt Ne].
      destruct (lift outer s pred) as [[s0 [pg|pc]]|] eqn:E0; try discriminate. destruct (lift_obj _ _ _ _ _ Ho Hf E0) as [_ B0]. rewrite <- B0 in Hf.
      destruct (lift_all outer s0 args) as [[s1 ts]|] eqn:E1; [|discriminate]. destruct (lift_all_obj _ Ho _ _ _ _ Hf E1) as [A1 B1]. rewrite <- B1 in Hf.
      destruct (trace_body c_eqb false (outer ++ [t_frame s1]) (start ts) t) as [[[st opst] outst]|] eqn:Et; [|discriminate].
      destruct (trace_body c_eqb false (outer ++ [t_frame s1]) (start ts) e) as [[[se opse] outse]|] eqn:Ee; [|discriminate].
      destruct (IHt _ _ _ _ _ Nt (outer_obj _ _ Ho Hf) (start_obj _ A1) Et) as [-> Ot].
      destruct (IHe _ _ _ _ _ Ne (outer_obj _ _ Ho Hf) (start_obj _ A1) Ee) as [-> Oe].
      destruct (obj_morph _ Ot) as [Mt Lt]. destruct (obj_morph _ Oe) as [Me Le].
      cbn [finish tf_graph g_outputs tf_morph tf_caps andb] in *.
      destruct (Nat.eqb_spec (List.length (gvs outst)) (List.length (gvs outse))) as [Ln|]; [cbn [negb] in *|discriminate].
      assert (SM : same_morph c_eqb (out_morph outst) (out_morph outse) = true).
      { rewrite Mt, Me. unfold same_morph, nats_eqb. cbn [fst snd imms_eqb]. replace (List.length outse) with (List.length outst) by lia. destruct (list_eq_dec Nat.eq_dec _ _); auto. }
      rewrite SM. cbn [negb].
      destruct (lift_all outer s1 (merge_captures (map fst (t_caps st)) (map fst (t_caps se)))) as [[s2 cs]|] eqn:E2; [|discriminate].
      destruct (lift_all_obj _ Ho _ _ _ _ Hf E2) as [A2 B2]. rewrite <- B2 in Hf.
      destruct (new_outs (List.length (gvs outst)) s2) as [s3 os] eqn:E3.
      destruct (reconstruct (out_morph outst) os) as [rs|] eqn:Er; [|discriminate].
      destruct (trace_body c_eqb false outer (push rs s3) k) as [[[s4 ops4] q]|] eqn:E4; [|discriminate]. injection E as <- <- <-.
      assert (Lo : List.length os = List.length outst) by (injection E3 as _ <-; rewrite seq_length; lia).
      destruct (IHk _ _ _ _ _ Nk Ho (outs_obj _ _ _ _ _ E3 Hf (reconstruct_obj _ _ _ Ot Lo Er)) E4) as [-> D]. auto.
    - apply andb_prop in Nc. destruct Nc as [Nc Nk]. apply andb_prop in Nc. destruct Nc as [Nt Ne].
      destruct (lift_all outer s init) as [[s1 ts]|] eqn:E1; [|discriminate]. destruct (lift_all_obj _ Ho _ _ _ _ Hf E1) as [A1 B1]. rewrite <- B1 in Hf.
      match type of E with (if ?c then _ else _) = _ => destruct c; [discriminate|] end.
      destruct (trace_body c_eqb false (outer ++ [t_frame s1]) (start ts) c) as [[[st opst] outst]|] eqn:Et; [|discriminate].
      destruct (trace_body c_eqb false (outer ++ [t_frame s1]) (start ts) l) as [[[se opse] outse]|] eqn:Ee; [|discriminate].
      destruct (IHc _ _ _ _ _ Nt (outer_obj _ _ Ho Hf) (start_obj _ A1) Et) as [-> Ot].
      destruct (IHl _ _ _ _ _ Ne (outer_obj _ _ Ho Hf) (start_obj _ A1) Ee) as [-> Oe].
      destruct (obj_morph _ Ot) as [Mt Lt]. destruct (obj_morph _ Oe) as [Me Le].
      cbn [finish tf_graph g_outputs tf_morph tf_caps andb] in *.
      rewrite Mt in *. cbn [fst snd List.length] in *. rewrite seq_length, Nat.add_0_r in *.
      destruct (Nat.eqb (List.length outst) 1); [cbn [negb] in *|discriminate].
      match type of E with (if ?c then _ else _) = _ => destruct c; [discriminate|] end.
      match type of E with (if ?c then _ else _) = _ => destruct c; [discriminate|] end.
      destruct (lift_all outer s1 (merge_captures (map fst (t_caps st)) (map fst (t_caps se)))) as [[s2 cs]|] eqn:E2; [|discriminate].
      destruct (lift_all_obj _ Ho _ _ _ _ Hf E2) as [A2 B2]. rewrite <- B2 in Hf.
      destruct (new_outs (List.length ts) s2) as [s3 os] eqn:E3.
      destruct (trace_body c_eqb false outer (push (map TV os) s3) k) as [[[s4 ops4] q]|] eqn:E4; [|discriminate]. injection E as <- <- <-.
      destruct (IHk _ _ _ _ _ Nk Ho (outs_obj _ _ _ _ _ E3 Hf (all_TV _)) E4) as [-> D]. auto.
    - apply andb_prop in Nc. destruct Nc as [Nt Nk].
      destruct (lift_all outer s args) as [[s1 ts]|] eqn:E1; [|discriminate]. destruct (lift_all_obj _ Ho _ _ _ _ Hf E1) as [A1 B1]. rewrite <- B1 in Hf.
      destruct (trace_body c_eqb false (outer ++ [t_frame s1]) (start ts) f) as [[[st opst] outst]|] eqn:Et; [|discriminate].
      destruct (IHf _ _ _ _ _ Nt (outer_obj _ _ Ho Hf) (start_obj _ A1) Et) as [-> Ot].
      destruct (obj_morph _ Ot) as [Mt Lt].
      cbn [finish tf_graph g_outputs tf_morph tf_caps andb] in *.
      destruct (lift_all outer s1 (map fst (t_caps st))) as [[s2 cs]|] eqn:E2; [|discriminate].
      destruct (lift_all_obj _ Ho _ _ _ _ Hf E2) as [A2 B2]. rewrite <- B2 in Hf.
      destruct (new_outs (List.length (gvs outst)) s2) as [s3 os] eqn:E3.
      destruct (reconstruct (out_morph outst) os) as [rs|] eqn:Er; [|discriminate].
      destruct (trace_body c_eqb false outer (push rs s3) k) as [[[s4 ops4] q]|] eqn:E4; [|discriminate]. injection E as <- <- <-.
      assert (Lo : List.length os = List.length outst) by (injection E3 as _ <-; rewrite seq_length; lia).
      destruct (IHk _ _ _ _ _ Nk Ho (outs_obj _ _ _ _ _ E3 Hf (reconstruct_obj _ _ _ Ot Lo Er)) E4) as [-> D]. auto.
  Qed.
End Strict.

Section WF.
  Context {C : Type}.
  Variable c_eqb : C -> C -> bool.
  Variable strict : bool.
  Local Notation tst := (tst C).
  Local Notation tval := (tval C).
  Lemma seq_below (s2 s3 : tst) n outs outer pin : new_outs n s2 = (s3, outs) -> wf outer pin s2 -> Forall (fun g => g < nn s3) outs /\ List.length outs = n.
  Proof. intros EN W. destruct (new_outs_spec _ _ _ _ _ _ EN W) as (_ & _ & _ & _ & -> & L). split; [|apply seq_length]. apply Forall_forall. intros g Hg. apply in_seq in Hg. lia. Qed.
  Lemma tv_below (s : tst) gs : Forall (fun g => g < nn s) gs -> Forall (tok s) (map TV gs).
  Proof. intros F. apply Forall_map. eapply Forall_impl; [|exact F]. auto. Qed.
  Theorem trace_wf : forall b outer pin (s s' : tst) ops outs, trace_body c_eqb strict outer s b = Some (s', ops, outs) -> wf outer pin s -> wf outer pin s'.
  Proof.
    induction b as [ls|p args n k IHk|pred args t IHt e IHe k IHk|init c IHc l IHl k IHk|args f IHf k IHk]; intros outer pin s s' ops outs E W; cbn [trace_body] in E.
    - destruct (lift_leaves outer s ls) as [[s1 ts]|] eqn:E1; [|discriminate]. injection E as <- <- <-. apply (lift_leaves_spec (V := unit) _ _ _ _ _ _ E1 W).
    - destruct (lift_all outer s args) as [[s1 ts]|] eqn:E1; [|discriminate]. destruct (lift_all_spec (V := unit) _ _ _ _ _ _ E1 W) as (W1 & _).
      destruct (new_outs n s1) as [s2 os] eqn:E2.
      destruct (trace_body c_eqb strict outer (push (map TV os) s2) k) as [[[s3 ops3] r]|] eqn:E3; [|discriminate]. injection E as <- <- <-.
      eapply IHk; eauto. apply push_wf; [eapply (new_outs_spec (C := C)); eauto|]. eapply tv_below, seq_below; eauto.
    - destruct (lift outer s pred) as [[s0 [pg|pc]]|] eqn:E0; try discriminate. destruct (lift_spec (V := unit) _ _ _ _ _ _ E0 W) as (W0 & _).
      destruct (lift_all outer s0 args) as [[s1 ts]|] eqn:E1; [|discriminate]. destruct (lift_all_spec (V := unit) _ _ _ _ _ _ E1 W0) as (W1 & _).
      destruct (trace_body c_eqb strict (outer ++ [t_frame s1]) (start ts) t) as [[[st opst] outst]|] eqn:Et; [|discriminate].
      destruct (trace_body c_eqb strict (outer ++ [t_frame s1]) (start ts) e) as [[[se opse] outse]|] eqn:Ee; [|discriminate].
      match type of E with (if ?c then _ else _) = _ => destruct c; [discriminate|] end.
      match type of E with (if ?c then _ else _) = _ => destruct c; [discriminate|] end.
      cbn [finish tf_graph g_outputs tf_morph tf_caps] in E.
      destruct (lift_all outer s1 (merge_captures (map fst (t_caps st)) (map fst (t_caps se)))) as [[s2 cs]|] eqn:E2; [|discriminate].
      destruct (lift_all_spec (V := unit) _ _ _ _ _ _ E2 W1) as (W2 & _).
      destruct (new_outs (List.length (gvs outst)) s2) as [s3 os] eqn:E3.
      destruct (reconstruct (out_morph outst) os) as [rs|] eqn:Er; [|discriminate].
      destruct (trace_body c_eqb strict outer (push rs s3) k) as [[[s4 ops4] r]|] eqn:E4; [|discriminate]. injection E as <- _ _.
      destruct (seq_below _ _ _ _ _ _ E3 W2) as [Fo Lo].
      eapply IHk; eauto. apply push_wf; [eapply (new_outs_spec (C := C)); eauto|]. rewrite reconstruct_fill in Er by lia. injection Er as <-. now apply fill_tok.
    - destruct (lift_all outer s init) as [[s1 ts]|] eqn:E1; [|discriminate]. destruct (lift_all_spec (V := unit) _ _ _ _ _ _ E1 W) as (W1 & _).
      match type of E with (if ?c then _ else _) = _ => destruct c; [discriminate|] end.
      destruct (trace_body c_eqb strict (outer ++ [t_frame s1]) (start ts) c) as [[[st opst] outst]|] eqn:Et; [|discriminate].
      destruct (trace_body c_eqb strict (outer ++ [t_frame s1]) (start ts) l) as [[[se opse] outse]|] eqn:Ee; [|discriminate].
      match type of E with (if ?c then _ else _) = _ => destruct c; [discriminate|] end.
      match type of E with (if ?c then _ else _) = _ => destruct c; [discriminate|] end.
      match type of E with (if ?c then _ else _) = _ => destruct c; [discriminate|] end.
      match type of E with (if ?c then _ else _) = _ => destruct c; [discriminate|] end.
      cbn [finish tf_graph g_outputs tf_morph tf_caps] in E.
      destruct (lift_all outer s1 (merge_captures (map fst (t_caps st)) (map fst (t_caps se)))) as [[s2 cs]|] eqn:E2; [|discriminate].
      destruct (lift_all_spec (V := unit) _ _ _ _ _ _ E2 W1) as (W2 & _).
      destruct (new_outs (List.length ts) s2) as [s3 os] eqn:E3.
      destruct (trace_body c_eqb strict outer (push (map TV os) s3) k) as [[[s4 ops4] r]|] eqn:E4; [|discriminate]. injection E as <- _ _.
      eapply IHk; eauto. apply push_wf; [eapply (new_outs_spec (C := C)); eauto|]. eapply tv_below, seq_below; eauto.
    - destruct (lift_all outer s args) as [[s1 ts]|] eqn:E1; [|discriminate]. destruct (lift_all_spec (V := unit) _ _ _ _ _ _ E1 W) as (W1 & _).
      destruct (trace_body c_eqb strict (outer ++ [t_frame s1]) (start ts) f) as [[[st opst] outst]|] eqn:Et; [|discriminate].
      cbn [finish tf_graph g_outputs tf_morph tf_caps] in E.
      destruct (lift_all outer s1 (map fst (t_caps st))) as [[s2 cs]|] eqn:E2; [|discriminate].
      destruct (lift_all_spec (V := unit) _ _ _ _ _ _ E2 W1) as (W2 & _).
      destruct (new_outs (List.length (gvs outst)) s2) as [s3 os] eqn:E3.
      destruct (reconstruct (out_morph outst) os) as [rs|] eqn:Er; [|discriminate].
      destruct (trace_body c_eqb strict outer (push rs s3) k) as [[[s4 ops4] r]|] eqn:E4; [|discriminate]. injection E as <- _ _.
      destruct (seq_below _ _ _ _ _ _ E3 W2) as [Fo Lo].
      eapply IHk; eauto. apply push_wf; [eapply (new_outs_spec (C := C)); eauto|]. rewrite reconstruct_fill in Er by lia. injection Er as <-. now apply fill_tok.
  Qed.
End WF.
