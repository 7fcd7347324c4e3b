(** C25, link with C24: what Graph.to_json writes for a graph built by add_input, add_op,
    add_output, replace_input and erase satisfies [built_graph], so it reads back unchanged. *)
From Coq Require Import List String Bool Arith Lia Permutation.
From Verif Require Import CtxModel CtxProofs SerdeModel SerdeSpec SerdeProofs SerdeGraph GraphModel GraphProofs.
Import ListNotations.
Local Open Scope string_scope.
Local Open Scope list_scope.

Definition pct (k : nat) : string := "%" +++ show k.
Definition vname (g : graph) (v : nat) : string := match nth_error (g_vals g) v with Some x => v_name x | None => "" end.

Section View.
  (** type of each value; opcode, attributes and regions of each operation *)
  Variable tyof : nat -> ty.
  Variable opcode : nat -> string.
  Variable attrs : nat -> list (string * pv).
  Variable regions : nat -> list pv.
  (** graph.py:371-402: the data written for a graph *)
  Definition view_var (g : graph) (v : nat) : string * ty := (vname g v, tyof v).
  Definition view_op (g : graph) (kx : nat * oper) : gop pv :=
    GOp (opcode (fst kx)) (map (vname g) (o_ins (snd kx))) (map (view_var g) (o_outs (snd kx)))
        (attrs (fst kx)) (regions (fst kx)) ("op" +++ show (fst kx)).
  Definition view_ins (g : graph) : list (string * ty) := map (view_var g) (g_inputs g).
  Definition view_ops (g : graph) : list (gop pv) := map (view_op g) (combine (seq 0 (List.length (g_ops g))) (g_ops g)).
  Definition view_outs (g : graph) : list string := map (vname g) (g_outputs g).

  (** calls that do not create free values, with input names that are not of the form %<number> *)
  Definition ordinary (c : call) : Prop :=
    match c with AddValue _ => False | AddInput n => forall k, n <> pct k | _ => True end.

  Definition outs_of (g : graph) : list nat := flat_map o_outs (g_ops g).
  Definition shape (g : graph) : Prop :=
    NoDup (g_inputs g ++ outs_of g)
    /\ (forall v, v < List.length (g_vals g) <-> In v (g_inputs g ++ outs_of g))
    /\ map (vname g) (outs_of g) = map pct (seq 0 (g_ctr g))
    /\ (forall v k, In v (g_inputs g) -> vname g v <> pct k)
    /\ (forall v, In v (g_outputs g) -> v < List.length (g_vals g)).

  Lemma nodup_app {A} (l m : list A) : NoDup l -> NoDup m -> (forall x, In x m -> ~ In x l) -> NoDup (l ++ m).
  Proof using Type.
    intros Hl Hm Hd. induction l as [|a l IH]; cbn; auto. inversion_clear Hl as [|? ? Ha Hl']. constructor.
    - intros Hi. apply in_app_or in Hi. destruct Hi as [Hi|Hi]; [auto|]. apply (Hd a Hi). now left.
    - apply IH; auto. intros x Hx Hi. apply (Hd x Hx). now right.
  Qed.
  Lemma nodup_map_in {A B} (f : A -> B) (l : list A) : (forall x y, In x l -> In y l -> f x = f y -> x = y) -> NoDup l -> NoDup (map f l).
  Proof using Type.
    intros Hf Hl. induction l as [|a l IH]; cbn; [constructor|]. inversion_clear Hl as [|? ? Ha Hl']. constructor.
    - intros Hi. apply in_map_iff in Hi. destruct Hi as (b & Eb & Hb). assert (a = b) by (apply Hf; cbn; auto). subst. auto.
    - apply IH; auto. intros x y Hx Hy. apply Hf; now right.
  Qed.
  Lemma shape_empty : shape empty_graph.
  Proof using Type. split; [constructor|]. split; [cbn; intros; split; [lia|easy]|]. split; [reflexivity|]. split; cbn; intros; easy. Qed.

  Lemma vname_frame g g' v : map v_name (g_vals g') = map v_name (g_vals g) -> vname g' v = vname g v.
  Proof using Type.
    intros H. unfold vname. pose proof (f_equal (fun l => nth_error l v) H) as E. cbn in E. rewrite !nth_error_map in E.
    destruct (nth_error (g_vals g') v), (nth_error (g_vals g) v); cbn in E; congruence.
  Qed.
  Lemma vname_grow g g' v : grow g g' -> v < List.length (g_vals g) -> vname g' v = vname g v.
  Proof using Type. intros (_ & _ & _ & new & E & _) H. unfold vname. now rewrite E, nth_error_app1. Qed.
  Lemma pct_inj a b : pct a = pct b -> a = b.
  Proof using Type. unfold pct. cbn. intros H. injection H as H. now apply show_inj. Qed.

  Lemma names_inj g v w : inv g -> v < List.length (g_vals g) -> w < List.length (g_vals g) -> vname g v = vname g w -> v = w.
  Proof using Type.
    intros ((N & _) & _) Hv Hw E. unfold vname in E.
    destruct (nth_error (g_vals g) v) as [x|] eqn:Ex; [|apply nth_error_None in Ex; lia].
    destruct (nth_error (g_vals g) w) as [y|] eqn:Ey; [|apply nth_error_None in Ey; lia].
    eapply NoDup_nth_error; [exact N|now rewrite map_length|]. rewrite !nth_error_map, Ex, Ey. cbn. congruence.
  Qed.
  Lemma not_in_dict g n : inv g -> (forall v, v < List.length (g_vals g) -> vname g v <> n) -> sfind n (g_dict g) = None.
  Proof using Type.
    intros ((N & D) & _) H. rewrite D, <- (map_length v_name). apply sfind_combine_none. intros Hi. apply in_map_iff in Hi.
    destruct Hi as (x & Ex & Hi). apply In_nth_error in Hi. destruct Hi as [v Hv]. apply (H v); [apply nth_error_Some; congruence|].
    unfold vname. now rewrite Hv.
  Qed.

  (** fresh names never collide *)
  Definition named (g : graph) : Prop := forall v, v < List.length (g_vals g) -> (forall k, vname g v <> pct k) \/ exists k, k < g_ctr g /\ vname g v = pct k.
  Lemma add_fresh_named g : inv g -> named g -> exists g', g_add_fresh g = (g', Some (List.length (g_vals g)))
    /\ named g' /\ g_ctr g' = S (g_ctr g) /\ vname g' (List.length (g_vals g)) = pct (g_ctr g).
  Proof using Type.
    intros I N. unfold g_add_fresh, g_add_value. cbn [g_dict g_vals g_ops g_inputs g_outputs g_ctr].
    fold (pct (g_ctr g)).
    assert (SF : sfind (pct (g_ctr g)) (g_dict g) = None).
    { apply not_in_dict; auto. intros v Hv E. destruct (N v Hv) as [Hn|(k & Hk & Hn)]; [now apply (Hn (g_ctr g))|].
      rewrite Hn in E. apply pct_inj in E. lia. }
    rewrite SF.
    eexists. split; [reflexivity|]. split; [|split; [reflexivity|]].
    - intros v Hv. cbn in Hv. rewrite app_length in Hv. cbn in Hv. unfold vname. cbn [g_vals].
      destruct (Nat.lt_ge_cases v (List.length (g_vals g))) as [Hl|Hl].
      + rewrite nth_error_app1 by auto. destruct (N v Hl) as [Hn|(k & Hk & Hn)]; [left; exact Hn|right]. exists k. split; [cbn; lia|exact Hn].
      + right. exists (g_ctr g). cbn [g_ctr]. split; [lia|]. rewrite nth_error_app2 by auto. replace (v - _) with 0 by lia. reflexivity.
    - unfold vname. cbn [g_vals]. rewrite nth_error_app2, Nat.sub_diag by auto. reflexivity.
  Qed.
  Lemma add_outs_named n : forall g, inv g -> named g -> exists g', g_add_outs g n = (g', Some (seq (List.length (g_vals g)) n))
    /\ named g' /\ g_ctr g' = g_ctr g + n /\ map (vname g') (seq (List.length (g_vals g)) n) = map pct (seq (g_ctr g) n).
  Proof using Type.
    induction n as [|n IH]; intros g I N; cbn [g_add_outs seq map].
    - exists g. repeat split; auto.
    - destruct (add_fresh_named g I N) as (g1 & E1 & N1 & C1 & V1). rewrite E1.
      pose proof (add_fresh_grow _ _ _ (proj1 I) E1) as (G1 & D1 & _ & L1).
      assert (I1 : inv g1) by exact (grow_inv _ _ G1 D1 I).
      destruct (IH g1 I1 N1) as (g2 & E2 & N2 & C2 & V2). rewrite E2.
      pose proof (add_outs_grow _ _ _ _ D1 E2) as (G2 & _).
      exists g2. rewrite L1, C1 in *. split; [reflexivity|]. split; [auto|]. split; [lia|]. rewrite V2. f_equal.
      rewrite (vname_grow _ _ _ G2) by lia. exact V1.
  Qed.

  Lemma shape_named g : shape g -> named g.
  Proof using Type.
    intros (_ & S2 & S3 & S4 & _) v Hv. apply S2 in Hv. apply in_app_or in Hv. destruct Hv as [Hv|Hv]; [left; intros k; now apply S4|].
    right. assert (H : In (vname g v) (map (vname g) (outs_of g))) by (apply in_map_iff; eauto).
    rewrite S3 in H. apply in_map_iff in H. destruct H as (k & Ek & Hk). apply in_seq in Hk. exists k. split; [lia|auto].
  Qed.

  Lemma shape_step g c : inv g -> call_ok g c -> ordinary c -> shape g -> shape (run_call g c).
  Proof using Type.
    intros I Hc Ho S. pose proof S as (S1 & S2 & S3 & S4 & S5).
    destruct c; cbn [run_call call_ok ordinary] in *; [contradiction| | | | |].
    - unfold g_add_input. destruct (g_add_value g name) as [g' r] eqn:E. pose proof (add_value_grow _ _ _ _ (proj1 I) E) as (G & D & R).
      pose proof G as (Go & Gi & Gu & new & Ev & _).
      unfold g_add_value in E. destruct (sfind name (g_dict g)); injection E as <- <-; [exact S|]. cbn in R. clear R.
      unfold shape, outs_of in *. cbn [g_vals g_ops g_inputs g_outputs g_ctr].
      set (g' := Graph (g_vals g ++ [Value name None []]) (g_ops g) (g_dict g ++ [(name, List.length (g_vals g))]) (g_inputs g) (g_outputs g) (g_ctr g)) in *.
      set (g2 := Graph (g_vals g ++ [Value name None []]) (g_ops g) (g_dict g ++ [(name, List.length (g_vals g))]) (g_inputs g ++ [List.length (g_vals g)]) (g_outputs g) (g_ctr g)).
      assert (VN : forall v, vname g2 v = vname g' v) by reflexivity.
      assert (P : Permutation ((g_inputs g ++ [List.length (g_vals g)]) ++ flat_map o_outs (g_ops g)) (List.length (g_vals g) :: (g_inputs g ++ flat_map o_outs (g_ops g)))).
      { rewrite <- app_assoc. symmetry. apply Permutation_middle. }
      split; [|split; [|split; [|split]]].
      + eapply Permutation_NoDup; [symmetry; exact P|]. constructor; auto. intros Hi. apply S2 in Hi. lia.
      + intros v. rewrite app_length. cbn [List.length]. split.
        * intros Hv. eapply Permutation_in; [symmetry; exact P|]. destruct (Nat.eq_dec v (List.length (g_vals g))); [left; auto|]. right. apply S2. lia.
        * intros Hv. eapply Permutation_in in Hv; [|exact P]. destruct Hv as [Hv|Hv]; [lia|]. apply S2 in Hv. lia.
      + rewrite <- S3. apply map_ext_in. intros v Hv. rewrite VN. apply vname_grow; auto. apply S2. apply in_or_app; auto.
      + intros v k Hv. rewrite VN. apply in_app_or in Hv. destruct Hv as [Hv|[<-|[]]].
        * rewrite (vname_grow _ _ _ G) by (apply S2; apply in_or_app; auto). auto.
        * unfold vname, g'. cbn [g_vals]. rewrite nth_error_app2, Nat.sub_diag by auto. cbn. apply Ho.
      + intros v Hv. apply S5 in Hv. rewrite app_length. cbn. lia.
    - (* AddOp *) unfold g_add_op. destruct (add_outs_named nout g I (shape_named g S)) as (g' & E & N & C & V). rewrite E.
      pose proof (add_outs_grow _ _ _ _ (proj1 I) E) as (G & D' & _ & L). pose proof G as (Go & Gi & Gu & _).
      set (outs := seq (List.length (g_vals g)) nout) in *.
      destruct (fold_set_def outs (Some (List.length (g_ops g'))) g') as (F1 & _).
      set (g1 := fold_left (fun g v => set_val g v (set_def (Some (List.length (g_ops g'))))) outs g') in *.
      destruct (fold_add_use ins (List.length (g_ops g')) g1) as (F2 & _). cbv zeta in *.
      set (g2 := fold_left (fun g v => set_val g v (add_use (List.length (g_ops g')))) ins g1) in *.
      pose proof (frame_trans _ _ _ F1 F2) as F. pose proof (frame_len _ _ F) as L2. destruct F as (Fo & Fd & Fi & Fu & Fc & Fn).
      unfold shape, outs_of in *. cbn [g_vals g_ops g_inputs g_outputs g_ctr]. rewrite Fo, Fi, Fu, Fc, Go, Gi, Gu, L2, L, C.
      rewrite flat_map_app. cbn [flat_map o_outs]. rewrite app_nil_r.
      match goal with |- context [vname ?h] => set (g3 := h) end.
      assert (VN : forall v, vname g3 v = vname g' v) by (intros v; now apply vname_frame).
      split; [|split; [|split; [|split]]].
      + rewrite app_assoc. apply nodup_app; auto; [apply seq_NoDup|]. intros v Hv Hi. apply in_seq in Hv. apply S2 in Hi. lia.
      + intros v. rewrite app_assoc, in_app_iff, <- S2. unfold outs. rewrite in_seq. lia.
      + rewrite map_app, seq_app, map_app. cbn [Nat.add]. f_equal.
        * rewrite <- S3. apply map_ext_in. intros v Hv. rewrite VN. apply vname_grow; auto. apply S2. apply in_or_app; auto.
        * rewrite <- V. apply map_ext. exact VN.
      + intros v k Hv. rewrite VN, (vname_grow _ _ _ G) by (apply S2; apply in_or_app; auto). auto.
      + intros v Hv. apply S5 in Hv. lia.
    - (* ReplaceInput *) destruct Hc as [(x & Hx & Hlive) Hnew]. unfold g_replace. rewrite Hx.
      destruct (fold_replace (o_ins x) o old new g Hnew) as (F & _). cbv zeta in *.
      set (g1 := fold_left (replace_one o old new) (o_ins x) g) in *. pose proof (frame_len _ _ F) as L. destruct F as (Fo & Fd & Fi & Fu & Fc & Fn).
      unfold shape, outs_of in *. cbn [g_vals g_ops g_inputs g_outputs g_ctr].
      match goal with |- context [vname ?h] => set (g2 := h) end.
      assert (VN : forall v, vname g2 v = vname g v) by (intros v; now apply vname_frame).
      assert (FO : flat_map o_outs (upd (g_ops g1) o (Oper (map (fun i => if Nat.eqb i old then new else i) (o_ins x)) (o_outs x) (o_live x))) = flat_map o_outs (g_ops g)).
      { rewrite Fo, !flat_map_concat_map. f_equal. eapply map_upd; [exact Hx|reflexivity]. }
      rewrite FO, Fi, Fu, Fc, L. split; [auto|]. split; [auto|]. split; [|split; [|auto]].
      + rewrite <- S3. apply map_ext. exact VN.
      + intros v k Hv. rewrite VN. auto.
    - unfold g_erase. destruct (nth_error (g_ops g) o) as [x|] eqn:Hx; [|exact S].
      destruct (fold_remove_use (o_ins x) o g) as (F1 & _).
      set (g1 := fold_left (fun g v => set_val g v (remove_use o)) (o_ins x) g) in *. cbv zeta in *.
      destruct (fold_set_def (o_outs x) None g1) as (F2 & _). cbv zeta in *.
      set (g2 := fold_left (fun g v => set_val g v (set_def None)) (o_outs x) g1) in *.
      pose proof (frame_trans _ _ _ F1 F2) as F. pose proof (frame_len _ _ F) as L. destruct F as (Fo & Fd & Fi & Fu & Fc & Fn).
      unfold shape, outs_of in *. cbn [g_vals g_ops g_inputs g_outputs g_ctr].
      match goal with |- context [vname ?h] => set (g3 := h) end.
      assert (VN : forall v, vname g3 v = vname g v) by (intros v; now apply vname_frame).
      assert (FO : flat_map o_outs (upd (g_ops g2) o (Oper (o_ins x) (o_outs x) false)) = flat_map o_outs (g_ops g)).
      { rewrite Fo, !flat_map_concat_map. f_equal. eapply map_upd; [exact Hx|reflexivity]. }
      rewrite FO, Fi, Fu, Fc, L. split; [auto|]. split; [auto|]. split; [|split; [|auto]].
      + rewrite <- S3. apply map_ext. exact VN.
      + intros v k Hv. rewrite VN. auto.
    - unfold g_add_output. destruct (existsb _ _) eqn:E; [|exact S].
      unfold shape, outs_of in *. cbn [g_vals g_ops g_inputs g_outputs g_ctr].
      split; [auto|]. split; [auto|]. split; [auto|]. split; [auto|].
      intros w Hw. apply in_app_or in Hw. destruct Hw as [Hw|[<-|[]]]; [auto|].
      apply existsb_exists in E. destruct E as ([n p] & Hi & Hp). cbn in Hp. apply Nat.eqb_eq in Hp. subst p.
      destruct I as ((_ & D) & _). rewrite D in Hi. apply in_combine_r in Hi. apply in_seq in Hi. lia.
  Qed.

  Lemma scoped_nth {A} (ops : list (gop A)) : forall known,
    (forall k o, nth_error ops k = Some o -> incl (g_ins o) (known ++ map fst (flat_map g_outs (firstn k ops)))) -> scoped known ops.
  Proof using Type.
    induction ops as [|o ops IH]; intros known H; cbn; auto. split.
    - specialize (H 0 o eq_refl). cbn in H. now rewrite app_nil_r in H.
    - apply IH. intros k o' Hk. specialize (H (S k) o' Hk). cbn in H. now rewrite map_app, app_assoc in H.
  Qed.
  Lemma view_outs_flat g : forall i ops, flat_map g_outs (map (view_op g) (combine (seq i (List.length ops)) ops)) = map (view_var g) (flat_map o_outs ops).
  Proof using Type. intros i ops. revert i. induction ops as [|o ops IH]; intros i; cbn; auto. now rewrite map_app, IH. Qed.

  Theorem view_built g : inv g -> in_order g -> shape g -> built_graph (view_ins g) (view_ops g) (view_outs g).
  Proof using Type.
    intros I Or (S1 & S2 & S3 & S4 & S5). unfold built_graph, graph_names, view_ops. rewrite view_outs_flat.
    fold (outs_of g). unfold view_ins. rewrite <- map_app. rewrite !map_map. cbn [view_var fst].
    assert (M : forall l, map (fun x => fst (view_var g x)) l = map (vname g) l) by (intros; apply map_ext; reflexivity).
    split; [|split; [|split; [|split]]].
    - rewrite M. apply nodup_map_in; auto. intros v w Hv Hw. apply names_inj; auto; now apply S2.
    - rewrite M. apply scoped_nth. intros k o Ho. rewrite nth_error_map in Ho.
      assert (Hk : k < List.length (g_ops g)).
      { destruct (nth_error (combine _ _) k) eqn:E; [|discriminate]. assert (k < List.length (combine (seq 0 (List.length (g_ops g))) (g_ops g))) by (apply nth_error_Some; congruence).
        rewrite combine_length, seq_length in H. lia. }
      destruct (nth_error (g_ops g) k) as [x|] eqn:Ex; [|apply nth_error_None in Ex; lia].
      assert (E : nth_error (combine (seq 0 (List.length (g_ops g))) (g_ops g)) k = Some (k, x)).
      { clear -Ex Hk. revert Hk Ex. generalize (g_ops g) as l. intros l. change k with (0 + k) at 4. generalize 0 as i. revert k.
        induction l as [|a l IH]; intros k i Hk Ex; [cbn in Hk; lia|]. destruct k; cbn in *; [rewrite Nat.add_0_r; congruence|].
        rewrite (IH k (S i)) by (auto; lia). f_equal. f_equal. lia. }
      rewrite E in Ho. injection Ho as <-. cbn [view_op g_ins fst snd].
      intros n Hn. apply in_map_iff in Hn. destruct Hn as (v & <- & Hv).
      assert (Lv : v < List.length (g_vals g)).
      { destruct I as (_ & _ & R & _). destruct (R _ _ Ex) as [R1 _]. rewrite Forall_forall in R1. auto. }
      apply S2 in Lv. apply in_app_or in Lv. apply in_or_app. destruct Lv as [Lv|Lv]; [left; apply in_map_iff; eauto|right].
      apply in_flat_map in Lv. destruct Lv as (y & Hy & Hvy). apply In_nth_error in Hy. destruct Hy as [o' Hy].
      assert (Lt := Or _ _ _ _ _ Ex Hy Hv Hvy).
      rewrite firstn_map. 
      replace (firstn k (combine (seq 0 (List.length (g_ops g))) (g_ops g))) with (combine (seq 0 (List.length (firstn k (g_ops g)))) (firstn k (g_ops g))).
      2:{ rewrite firstn_length, Nat.min_l by lia. clear -Hk. revert k Hk. generalize 0 as i. generalize (g_ops g) as l.
          induction l as [|a l IH]; intros i k Hk; [cbn in Hk; lia|]. destruct k; cbn; auto. f_equal. apply IH. cbn in Hk. lia. }
      rewrite view_outs_flat, map_map, M. apply in_map. apply in_flat_map. exists y. split; auto.
      apply nth_error_In with o'. rewrite <- Hy. clear -Lt. revert o' Lt. generalize (g_ops g) as l. induction k; intros l o' H; [lia|].
      destruct l; cbn; [now destruct o'|]. destruct o'; cbn; auto. apply IHk. lia.
    - rewrite M, map_length, S3. f_equal. f_equal. rewrite <- (map_length (vname g)), S3, map_length, seq_length. reflexivity.
    - apply Forall_map. apply Forall_forall. intros [k x] _. cbn. discriminate.
    - rewrite M. intros n Hn. apply in_map_iff in Hn. destruct Hn as (v & <- & Hv). apply in_map. apply S2. auto.
  Qed.
  Lemma shape_run cs : forall g, inv g -> calls_ok g cs -> Forall ordinary cs -> shape g -> shape (run_calls g cs).
  Proof using Type.
    induction cs as [|c cs IH]; cbn; auto. intros g I [H1 H2] O S. inversion_clear O as [|? ? O1 O2].
    apply IH; auto; [now apply inv_step|now apply shape_step].
  Qed.
End View.
