(** Proofs for C24. *)
From Coq Require Import List String Bool Arith Lia Permutation.
From Verif Require Import CtxModel CtxProofs SerdeModel SerdeSpec SerdeProofs SerdeGraph GraphModel.
Import ListNotations.
Local Open Scope string_scope.
Local Open Scope list_scope.

Lemma upd_len {A} (l : list A) i x : List.length (upd l i x) = List.length l.
Proof. revert i. induction l; destruct i; cbn; auto. Qed.
Lemma nth_upd {A} (l : list A) i x j : i < List.length l -> nth_error (upd l i x) j = if Nat.eqb j i then Some x else nth_error l j.
Proof. revert i j. induction l as [|a l IH]; intros [|i] [|j] H; cbn in *; try lia; auto. apply IH. lia. Qed.
Lemma map_upd {A B} (f : A -> B) (l : list A) i x y : nth_error l i = Some x -> f y = f x -> map f (upd l i y) = map f l.
Proof. revert i. induction l as [|a l IH]; intros [|i] H E; cbn in *; try discriminate; [injection H as ->; congruence|f_equal; auto]. Qed.

Definition U (g : graph) (v p : nat) : Prop := exists x, nth_error (g_vals g) v = Some x /\ In p (v_uses x).
Definition Dv (g : graph) (v : nat) : option (option nat) := option_map v_def (nth_error (g_vals g) v).
Definition ND (g : graph) : Prop := Forall (fun x => NoDup (v_uses x)) (g_vals g).
Definition frame (g g' : graph) : Prop :=
  g_ops g' = g_ops g /\ g_dict g' = g_dict g /\ g_inputs g' = g_inputs g /\ g_outputs g' = g_outputs g
  /\ g_ctr g' = g_ctr g /\ map v_name (g_vals g') = map v_name (g_vals g).
Lemma frame_refl g : frame g g. Proof. repeat split. Qed.
Lemma frame_trans a b c : frame a b -> frame b c -> frame a c.
Proof. intros (?&?&?&?&?&?) (?&?&?&?&?&?). repeat split; congruence. Qed.
Lemma frame_len g g' : frame g g' -> List.length (g_vals g') = List.length (g_vals g).
Proof. intros (_&_&_&_&_&H). apply (f_equal (@List.length string)) in H. now rewrite !map_length in H. Qed.
Lemma frame_set g v f : (forall x, v_name (f x) = v_name x) -> frame g (set_val g v f).
Proof.
  intros H. unfold set_val. destruct (nth_error (g_vals g) v) eqn:E; [|apply frame_refl]. repeat split. cbn. eapply map_upd; eauto.
Qed.
Lemma nth_set g v f w : nth_error (g_vals (set_val g v f)) w = if Nat.eqb w v then option_map f (nth_error (g_vals g) w) else nth_error (g_vals g) w.
Proof.
  unfold set_val. destruct (nth_error (g_vals g) v) eqn:E.
  - cbn. rewrite nth_upd by (apply nth_error_Some; congruence). destruct (Nat.eqb_spec w v); [subst; now rewrite E|auto].
  - destruct (Nat.eqb_spec w v); [subst; now rewrite E|auto].
Qed.
Lemma Forall_nth_error {A} (P : A -> Prop) (l : list A) : Forall P l <-> forall i x, nth_error l i = Some x -> P x.
Proof.
  split.
  - intros H i x E. rewrite Forall_forall in H. apply H. eapply nth_error_In; eauto.
  - intros H. apply Forall_forall. intros x Hx. apply In_nth_error in Hx. destruct Hx. eauto.
Qed.
Lemma U_lt g v p : U g v p -> v < List.length (g_vals g).
Proof. intros (x & H & _). apply nth_error_Some. congruence. Qed.

Lemma add_use_U g v o w p : U (set_val g v (add_use o)) w p <-> U g w p \/ (w = v /\ p = o /\ v < List.length (g_vals g)).
Proof.
  unfold U. rewrite nth_set. destruct (Nat.eqb_spec w v).
  - subst. destruct (nth_error (g_vals g) v) as [x|] eqn:E; cbn.
    + assert (v < List.length (g_vals g)) by (apply nth_error_Some; congruence). split.
      * intros (y & [= <-] & Hy). cbn in Hy. destruct (in_dec Nat.eq_dec o (v_uses x)); [left; eauto|].
        apply in_app_or in Hy. destruct Hy as [Hy|[Hy|[]]]; [left; eauto|]. subst. auto.
      * intros [(y & [= <-] & Hy)|(_ & -> & _)]; eexists; (split; [reflexivity|]); cbn; destruct (in_dec Nat.eq_dec o (v_uses x)); auto;
          apply in_or_app; cbn; auto.
    + split; [intros (y & ? & _); discriminate|]. intros [(y & ? & _)|(_ & _ & H)]; [discriminate|]. apply nth_error_None in E. lia.
  - split; [auto|]. intros [H|(? & _)]; [auto|contradiction].
Qed.
Lemma remove_use_U g v o w p : U (set_val g v (remove_use o)) w p <-> U g w p /\ ~ (w = v /\ p = o).
Proof.
  unfold U. rewrite nth_set. destruct (Nat.eqb_spec w v).
  - subst. destruct (nth_error (g_vals g) v) as [x|] eqn:E; cbn.
    + split.
      * intros (y & [= <-] & Hy). cbn in Hy. apply filter_In in Hy. destruct Hy as [Hy Hn]. apply negb_true_iff, Nat.eqb_neq in Hn.
        split; [eauto|tauto].
      * intros [(y & [= <-] & Hy) Hn]. eexists. split; [reflexivity|]. cbn. apply filter_In. split; auto.
        apply negb_true_iff, Nat.eqb_neq. tauto.
    + split; [intros (y & ? & _); discriminate|]. intros [(y & ? & _) _]. discriminate.
  - split; [|tauto]. tauto.
Qed.
Lemma set_def_U g v d w p : U (set_val g v (set_def d)) w p <-> U g w p.
Proof.
  unfold U. rewrite nth_set. destruct (Nat.eqb_spec w v); [|tauto]. subst. destruct (nth_error (g_vals g) v) as [x|]; cbn; [|tauto].
  split; intros (y & [= <-] & H); eexists; (split; [reflexivity|]); auto.
Qed.
Lemma ND_set g v f : (forall x, NoDup (v_uses x) -> NoDup (v_uses (f x))) -> ND g -> ND (set_val g v f).
Proof.
  unfold ND. rewrite !Forall_nth_error. intros Hf H i x. rewrite nth_set. destruct (Nat.eqb_spec i v); [|apply H].
  destruct (nth_error (g_vals g) i) eqn:E; cbn; [|discriminate]. intros [= <-]. eauto.
Qed.
Lemma ND_add o x : NoDup (v_uses x) -> NoDup (v_uses (add_use o x)).
Proof.
  intros H. cbn. destruct (in_dec Nat.eq_dec o (v_uses x)); auto. apply (Permutation_NoDup (l := o :: v_uses x));
    [apply Permutation_cons_append|now constructor].
Qed.
Lemma ND_remove o x : NoDup (v_uses x) -> NoDup (v_uses (remove_use o x)).
Proof. intros H. cbn. now apply NoDup_filter. Qed.
Lemma Dv_set g v f w : (forall x, v_def (f x) = v_def x) -> Dv (set_val g v f) w = Dv g w.
Proof.
  intros H. unfold Dv. rewrite nth_set. destruct (Nat.eqb_spec w v); auto. destruct (nth_error (g_vals g) w); cbn; auto. now rewrite H.
Qed.
Lemma Dv_set_def g v d w : Dv (set_val g v (set_def d)) w = if Nat.eqb w v then (if Nat.ltb w (List.length (g_vals g)) then Some d else None) else Dv g w.
Proof.
  unfold Dv. rewrite nth_set. destruct (Nat.eqb_spec w v); auto. destruct (Nat.ltb_spec w (List.length (g_vals g))).
  - destruct (nth_error (g_vals g) w) eqn:E; auto. apply nth_error_None in E. lia.
  - apply nth_error_None in H. now rewrite H.
Qed.

(** the three loops *)
Lemma fold_add_use l o : forall g, let g' := fold_left (fun g v => set_val g v (add_use o)) l g in
  frame g g' /\ (ND g -> ND g') /\ (forall w, Dv g' w = Dv g w)
  /\ forall w p, U g' w p <-> U g w p \/ (In w l /\ p = o /\ w < List.length (g_vals g)).
Proof.
  induction l as [|v l IH]; intros g; cbn.
  - split; [apply frame_refl|]. split; [auto|]. split; [auto|]. intros; tauto.
  - destruct (IH (set_val g v (add_use o))) as (F & N & D & Us). pose proof (frame_set g v (add_use o) (fun _ => eq_refl)) as F0.
    pose proof (frame_len _ _ F0) as L. split; [eapply frame_trans; eauto|]. split; [intros; apply N, ND_set; auto; apply ND_add|].
    split; [intros; rewrite D; now apply Dv_set|]. intros w p. rewrite Us, add_use_U, L. intuition (subst; auto).
Qed.
Lemma fold_remove_use l o : forall g, let g' := fold_left (fun g v => set_val g v (remove_use o)) l g in
  frame g g' /\ (ND g -> ND g') /\ (forall w, Dv g' w = Dv g w)
  /\ forall w p, U g' w p <-> U g w p /\ ~ (In w l /\ p = o).
Proof.
  induction l as [|v l IH]; intros g; cbn.
  - split; [apply frame_refl|]. split; [auto|]. split; [auto|]. intros; tauto.
  - destruct (IH (set_val g v (remove_use o))) as (F & N & D & Us). pose proof (frame_set g v (remove_use o) (fun _ => eq_refl)) as F0.
    split; [eapply frame_trans; eauto|]. split; [intros; apply N, ND_set; auto; apply ND_remove|].
    split; [intros; rewrite D; now apply Dv_set|]. intros w p. rewrite Us, remove_use_U. intuition (subst; auto).
Qed.
Lemma fold_set_def l d : forall g, let g' := fold_left (fun g v => set_val g v (set_def d)) l g in
  frame g g' /\ (ND g -> ND g')
  /\ (forall w, Dv g' w = if in_dec Nat.eq_dec w l then (if Nat.ltb w (List.length (g_vals g)) then Some d else None) else Dv g w)
  /\ forall w p, U g' w p <-> U g w p.
Proof.
  induction l as [|v l IH]; intros g; cbn [fold_left].
  - split; [apply frame_refl|]. split; [auto|]. split; [auto|]. intros; tauto.
  - destruct (IH (set_val g v (set_def d))) as (F & N & D & Us). pose proof (frame_set g v (set_def d) (fun _ => eq_refl)) as F0.
    pose proof (frame_len _ _ F0) as L. split; [eapply frame_trans; eauto|]. split; [intros; apply N, ND_set; auto|].
    split; [|intros; rewrite Us; apply set_def_U]. intros w. rewrite D, L, Dv_set_def.
    destruct (in_dec Nat.eq_dec w l); destruct (in_dec Nat.eq_dec w (v :: l)) as [i2|i2]; cbn in i2; destruct (Nat.eqb_spec w v);
      subst; auto; try tauto. exfalso. intuition congruence.
Qed.
Lemma fold_replace l o old new : forall g, new < List.length (g_vals g) -> let g' := fold_left (replace_one o old new) l g in
  frame g g' /\ (ND g -> ND g') /\ (forall w, Dv g' w = Dv g w)
  /\ forall w p, U g' w p <-> (if in_dec Nat.eq_dec old l then (p <> o /\ U g w p) \/ (p = o /\ (w = new \/ (w <> old /\ U g w p))) else U g w p).
Proof.
  induction l as [|v l IH]; intros g Hn; cbn [fold_left].
  - split; [apply frame_refl|]. split; [auto|]. split; [auto|]. intros; destruct (in_dec _ _); [easy|tauto].
  - unfold replace_one at 2 4 6 8. destruct (Nat.eqb_spec v old).
    + subst. set (g1 := set_val (set_val g old (remove_use o)) new (add_use o)).
      assert (F1 : frame g g1) by (eapply frame_trans; apply frame_set; auto).
      assert (L1 := frame_len _ _ F1).
      destruct (IH g1 ltac:(lia)) as (F & N & D & Us).
      split; [eapply frame_trans; eauto|]. split; [intros; apply N; unfold g1; repeat apply ND_set; auto using ND_add, ND_remove|].
      split; [intros; rewrite D; unfold g1; rewrite !Dv_set; auto|].
      assert (U1 : forall w p, U g1 w p <-> (p <> o /\ U g w p) \/ (p = o /\ (w = new \/ (w <> old /\ U g w p)))).
      { intros w p. unfold g1. rewrite add_use_U, remove_use_U.
        rewrite (frame_len g (set_val g old (remove_use o))) by (apply frame_set; auto).
        destruct (Nat.eq_dec p o), (Nat.eq_dec w old), (Nat.eq_dec w new); subst; intuition (subst; try lia; try congruence). }
      intros w p. rewrite Us. destruct (in_dec Nat.eq_dec old (old :: l)) as [_|n]; [|exfalso; apply n; now left].
      destruct (in_dec Nat.eq_dec old l); rewrite !U1; [|tauto].
      destruct (Nat.eq_dec p o), (Nat.eq_dec w old), (Nat.eq_dec w new); subst; tauto.
    + destruct (IH g Hn) as (F & N & D & Us). split; [auto|]. split; [auto|]. split; [auto|]. intros w p. rewrite Us.
      destruct (in_dec Nat.eq_dec old l), (in_dec Nat.eq_dec old (v :: l)) as [i2|i2]; cbn in i2; try tauto; exfalso; intuition congruence.
Qed.

(** ** The invariant *)
Definition in_range (g : graph) : Prop :=
  forall o x, nth_error (g_ops g) o = Some x ->
    Forall (fun v => v < List.length (g_vals g)) (o_ins x) /\ Forall (fun v => v < List.length (g_vals g)) (o_outs x).
Definition dict_ok (g : graph) : Prop :=
  NoDup (map v_name (g_vals g)) /\ g_dict g = combine (map v_name (g_vals g)) (seq 0 (List.length (g_vals g))).
Definition uses_inv (g : graph) : Prop := ND g /\ forall v o, v < List.length (g_vals g) -> (U g v o <-> consumes g o v).
Definition defs_inv (g : graph) : Prop :=
  (forall o o' x x' v, nth_error (g_ops g) o = Some x -> nth_error (g_ops g) o' = Some x' ->
     In v (o_outs x) -> In v (o_outs x') -> o = o')
  /\ (forall o x v, nth_error (g_ops g) o = Some x -> In v (o_outs x) -> Dv g v = Some (if o_live x then Some o else None)).
Definition inv (g : graph) : Prop := dict_ok g /\ uses_inv g /\ in_range g /\ defs_inv g.

Lemma inv_empty : inv empty_graph.
Proof.
  split; [split; [constructor|reflexivity]|]. split; [split; [constructor|cbn; lia]|]. split.
  - intros [|o] x; discriminate.
  - split; [intros [|o]; discriminate|intros [|o]; discriminate].
Qed.

(** adding a value *)
Definition grow (g g' : graph) : Prop :=
  g_ops g' = g_ops g /\ g_inputs g' = g_inputs g /\ g_outputs g' = g_outputs g /\
  exists new, g_vals g' = g_vals g ++ new /\ Forall (fun x => v_def x = None /\ v_uses x = []) new.
Lemma grow_refl g : grow g g.
Proof. repeat split. exists []. rewrite app_nil_r. auto. Qed.
Lemma grow_trans a b c : grow a b -> grow b c -> grow a c.
Proof.
  intros (A1 & A2 & A3 & n & A4 & A5) (B1 & B2 & B3 & m & B4 & B5). repeat split; try congruence.
  exists (n ++ m). split; [rewrite B4, A4; now rewrite app_assoc|now apply Forall_app].
Qed.
Lemma grow_U g g' v p : grow g g' -> (U g' v p <-> U g v p).
Proof.
  intros (_ & _ & _ & new & E & N). unfold U. rewrite E. destruct (Nat.lt_ge_cases v (List.length (g_vals g))).
  - rewrite nth_error_app1 by auto. tauto.
  - rewrite nth_error_app2 by auto. split; intros (x & Hx & Hp).
    + rewrite Forall_nth_error in N. apply N in Hx. destruct Hx as [_ Hx]. rewrite Hx in Hp. easy.
    + exfalso. apply (proj2 (nth_error_None _ _)) in H. congruence.
Qed.
Lemma grow_inv g g' : grow g g' -> dict_ok g' -> inv g -> inv g'.
Proof.
  intros G D (_ & (N & Us) & R & D1 & D2). pose proof G as (E & _ & _ & new & Ev & Hnew).
  assert (L : List.length (g_vals g) <= List.length (g_vals g')) by (rewrite Ev, app_length; lia).
  split; [auto|]. split; [|split; [|split]].
  - split.
    + unfold ND. rewrite Ev. apply Forall_app. split; auto. eapply Forall_impl; [|exact Hnew]. cbn. intros x [_ ->]. constructor.
    + intros v o Hv. rewrite (grow_U _ _ _ _ G). unfold consumes. rewrite E. fold (consumes g o v).
      destruct (Nat.lt_ge_cases v (List.length (g_vals g))); [auto|]. split.
      * intros Hu. apply U_lt in Hu. lia.
      * intros (x & Hx & _ & Hi). apply R in Hx. destruct Hx as [Hx _]. rewrite Forall_forall in Hx. apply Hx in Hi. lia.
  - intros o x Hx. rewrite E in Hx. apply R in Hx. destruct Hx. split; (eapply Forall_impl; [|eassumption]); cbn; intros; lia.
  - intros o o' x x' v. rewrite E. apply D1.
  - intros o x v. rewrite E. intros Hx Hv. specialize (D2 _ _ _ Hx Hv). rewrite <- D2. unfold Dv. rewrite Ev, nth_error_app1; auto.
    apply R in Hx. destruct Hx as [_ Hx]. rewrite Forall_forall in Hx. auto.
Qed.
Lemma add_value_grow g n g' r : dict_ok g -> g_add_value g n = (g', r) ->
  grow g g' /\ dict_ok g' /\ match r with
    | Some v => v = List.length (g_vals g) /\ List.length (g_vals g') = S v
    | None => True end.
Proof.
  intros (N & D) H. unfold g_add_value in H. rewrite D in H. destruct (in_dec string_dec n (map v_name (g_vals g))) as [Hi|Hi].
  - rewrite <- (map_length v_name) in H. rewrite (sfind_combine _ n 0 (posn n (map v_name (g_vals g)))) in H by (auto using posn_nth).
    injection H as <- <-. split; [apply grow_refl|]. split; [split; auto|auto].
  - rewrite <- (map_length v_name) in H at 1. rewrite sfind_combine_none in H by auto. injection H as <- <-. split; [|split; [split|split]].
    + repeat split. exists [Value n None []]. split; auto.
    + cbn. rewrite map_app. cbn. apply (Permutation_NoDup (l := n :: map v_name (g_vals g))); [apply Permutation_cons_append|now constructor].
    + cbn. rewrite map_app, app_length, seq_app. cbn. now rewrite combine_snoc by (rewrite map_length, seq_length; auto).
    + auto.
    + cbn. rewrite app_length. cbn. lia.
Qed.
Lemma bump_dict g : dict_ok g -> dict_ok (Graph (g_vals g) (g_ops g) (g_dict g) (g_inputs g) (g_outputs g) (S (g_ctr g))).
Proof. auto. Qed.
Lemma add_fresh_grow g g' r : dict_ok g -> g_add_fresh g = (g', r) ->
  grow g g' /\ dict_ok g' /\ match r with
    | Some v => v = List.length (g_vals g) /\ List.length (g_vals g') = S v
    | None => True end.
Proof.
  intros D H. unfold g_add_fresh in H. apply add_value_grow in H; [|now apply bump_dict]. destruct H as (G & D' & R). split; auto.
Qed.
Lemma add_outs_grow n : forall g g' r, dict_ok g -> g_add_outs g n = (g', r) ->
  grow g g' /\ dict_ok g' /\ match r with
    | Some vs => vs = seq (List.length (g_vals g)) n /\ List.length (g_vals g') = List.length (g_vals g) + n
    | None => True end.
Proof.
  induction n as [|n IH]; intros g g' r D H; cbn in H.
  - injection H as <- <-. split; [apply grow_refl|]. split; [auto|]. split; [auto|lia].
  - destruct (g_add_fresh g) as [g1 [v|]] eqn:E1; pose proof (add_fresh_grow _ _ _ D E1) as (G1 & D1 & R1).
    + destruct R1 as [Rv Rl]. destruct (g_add_outs g1 n) as [g2 [vs|]] eqn:E2; pose proof (IH _ _ _ D1 E2) as (G2 & D2 & R2); injection H as <- <-.
      * destruct R2 as [R2 R3]. split; [eapply grow_trans; eauto|]. split; auto. cbn. rewrite R2, Rl, Rv. split; [auto|]. rewrite Rl in R3. lia.
      * split; [eapply grow_trans; eauto|]. auto.
    + injection H as <- <-. auto.
Qed.
Lemma dict_frame g g' : frame g g' -> dict_ok g -> dict_ok g'.
Proof.
  intros F (N & D). pose proof (frame_len _ _ F) as L. destruct F as (_ & Fd & _ & _ & _ & Fn).
  split; rewrite Fn; auto. now rewrite Fd, L.
Qed.
Lemma nth_snoc {A} (l : list A) y i x : nth_error (l ++ [y]) i = Some x -> nth_error l i = Some x \/ (i = List.length l /\ x = y).
Proof.
  intros H. destruct (Nat.lt_ge_cases i (List.length l)).
  - left. now rewrite nth_error_app1 in H.
  - right. rewrite nth_error_app2 in H by auto. destruct (i - List.length l) eqn:E.
    + cbn in H. split; [lia|congruence].
    + cbn in H. destruct n; discriminate.
Qed.

Lemma inv_step g c : inv g -> call_ok g c -> inv (run_call g c).
Proof.
  intros I Hc. destruct c; cbn [run_call call_ok] in *.
  - destruct I as (D & I). destruct name as [n|].
    + destruct (g_add_value g n) as [g' r] eqn:E. pose proof (add_value_grow _ _ _ _ D E) as (G & D' & _). exact (grow_inv _ _ G D' (conj D I)).
    + destruct (g_add_fresh g) as [g' r] eqn:E. pose proof (add_fresh_grow _ _ _ D E) as (G & D' & _). exact (grow_inv _ _ G D' (conj D I)).
  - destruct I as (D & I). unfold g_add_input. destruct (g_add_value g name) as [g' r] eqn:E.
    pose proof (add_value_grow _ _ _ _ D E) as (G & D' & _).
    assert (I' : inv g') by exact (grow_inv _ _ G D' (conj D I)). destruct r; exact I'.
  - (* AddOp *) unfold g_add_op. pose proof I as (D & _). destruct (g_add_outs g nout) as [g' [outs|]] eqn:E;
      pose proof (add_outs_grow _ _ _ _ D E) as (G & D' & R); [|eapply grow_inv; eauto].
    assert (I' : inv g') by (eapply grow_inv; eauto). pose proof I as (_ & _ & Rg0 & _). clear I D'. destruct R as [Ro Rl].
    pose proof G as (Go & _). destruct I' as (D' & (N & Us) & Rg & D1 & D2).
    set (o := List.length (g_ops g')). set (n := List.length (g_vals g)) in *.
    destruct (fold_set_def outs (Some o) g') as (F1 & N1 & Dv1 & U1).
    set (g1 := fold_left (fun g v => set_val g v (set_def (Some o))) outs g') in *.
    destruct (fold_add_use ins o g1) as (F2 & N2 & Dv2 & U2).
    set (g2 := fold_left (fun g v => set_val g v (add_use o)) ins g1) in *.
    pose proof (frame_trans _ _ _ F1 F2) as F. pose proof (frame_len _ _ F) as L. pose proof (frame_len _ _ F1) as L1.
    pose proof (proj1 F) as Fo. fold n in Rl.
    assert (Hn : n <= List.length (g_vals g')) by lia.
    assert (Hout : forall v, In v outs -> n <= v < n + nout) by (intros v Hv; subst outs; apply in_seq in Hv; lia).
    assert (Ho : List.length (g_ops g') = List.length (g_ops g)) by (now rewrite Go).
    split; [exact (dict_frame _ _ F D')|]. split; [|split; [|split]].
    + split; [exact (N2 (N1 N))|]. cbn [g_vals]. intros v p Hv.
      match goal with |- U ?h v p <-> _ => change (U h v p) with (U g2 v p) end.
      rewrite U2, U1, Us, L1 by lia. unfold consumes. cbn [g_ops]. rewrite Fo. split.
      * intros [(x & Hx & Hl & Hi)|(Hi & -> & _)].
        -- exists x. rewrite nth_error_app1 by (apply nth_error_Some; congruence). auto.
        -- exists (Oper ins outs true). split; [|split; [reflexivity|exact Hi]]. rewrite nth_error_app2 by (unfold o; lia).
           replace (o - List.length (g_ops g')) with 0 by (unfold o; lia). reflexivity.
      * intros (x & Hx & Hl & Hi). apply nth_snoc in Hx. destruct Hx as [Hx|[-> ->]]; [left; eauto|]. right. split; [auto|]. split; [auto|lia].
    + intros p x Hx. cbn [g_ops] in Hx. rewrite Fo in Hx. cbn [g_vals]. rewrite L. apply nth_snoc in Hx. destruct Hx as [Hx|[-> ->]].
      * exact (Rg _ _ Hx).
      * cbn. split; [eapply Forall_impl; [|exact Hc]; cbn; intros; lia|]. apply Forall_forall. intros v Hv. apply Hout in Hv. lia.
    + cbn [g_ops]. rewrite Fo. intros p p' x x' v Hx Hx' Hv Hv'. apply nth_snoc in Hx, Hx'.
      destruct Hx as [Hx|[-> ->]], Hx' as [Hx'|[-> ->]]; auto; cbn in Hv, Hv'.
      * eapply D1; eauto.
      * exfalso. rewrite Go in Hx. apply Rg0 in Hx. destruct Hx as [_ Hx]. rewrite Forall_forall in Hx. apply Hx in Hv. apply Hout in Hv'. unfold n in *. lia.
      * exfalso. rewrite Go in Hx'. apply Rg0 in Hx'. destruct Hx' as [_ Hx']. rewrite Forall_forall in Hx'. apply Hx' in Hv'. apply Hout in Hv. unfold n in *. lia.
    + cbn [g_ops]. rewrite Fo. intros p x v Hx Hv.
      match goal with |- Dv ?h v = _ => change (Dv h v) with (Dv g2 v) end.
      rewrite Dv2, Dv1. apply nth_snoc in Hx. destruct Hx as [Hx|[-> ->]].
      * destruct (in_dec Nat.eq_dec v outs) as [Hi|Hi]; [|now apply D2].
        exfalso. rewrite Go in Hx. apply Rg0 in Hx. destruct Hx as [_ Hx]. rewrite Forall_forall in Hx. apply Hx in Hv. apply Hout in Hi. unfold n in *. lia.
      * cbn [o_outs o_live] in Hv |- *. destruct (in_dec Nat.eq_dec v outs) as [Hi|Hi]; [|contradiction].
        destruct (Nat.ltb_spec v (List.length (g_vals g'))); [reflexivity|]. apply Hout in Hi. lia.
  - (* ReplaceInput *) destruct Hc as [(x & Hx & Hlive) Hnew]. unfold g_replace. rewrite Hx.
    destruct (fold_replace (o_ins x) o old new g Hnew) as (F & N' & Dv' & U').
    set (g1 := fold_left (replace_one o old new) (o_ins x) g) in *. cbv zeta in *.
    pose proof (frame_len _ _ F) as L. pose proof (proj1 F) as Fo.
    destruct I as (D & (N & Us) & Rg & D1 & D2).
    assert (Ho : o < List.length (g_ops g)) by (apply nth_error_Some; congruence).
    set (x' := Oper (map (fun i => if Nat.eqb i old then new else i) (o_ins x)) (o_outs x) (o_live x)).
    assert (NU : forall p, nth_error (upd (g_ops g1) o x') p = if Nat.eqb p o then Some x' else nth_error (g_ops g) p)
      by (intros p; rewrite Fo; now apply nth_upd).
    split; [exact (dict_frame _ _ F D)|]. split; [|split; [|split]].
    + split; [exact (N' N)|]. intros v p Hv. cbn [g_vals] in Hv. rewrite L in Hv.
      match goal with |- U ?h v p <-> _ => change (U h v p) with (U g1 v p) end. rewrite U'.
      unfold consumes. cbn [g_ops]. rewrite NU.
      assert (Hin : In v (o_ins x') <-> (v = new /\ In old (o_ins x)) \/ (v <> old /\ In v (o_ins x))).
      { cbn. rewrite in_map_iff. split.
        - intros (i & Ei & Hi). destruct (Nat.eqb_spec i old); subst; auto.
        - intros [(-> & Hi)|(Hn & Hi)].
          + exists old. now rewrite Nat.eqb_refl.
          + exists v. destruct (Nat.eqb_spec v old); [contradiction|auto]. }
      destruct (Nat.eqb_spec p o) as [->|Hp].
      * specialize (Us v o Hv). unfold consumes in Us. rewrite Hx in Us.
        assert (Us' : U g v o <-> In v (o_ins x)).
        { rewrite Us. split; [intros (y & [= <-] & _ & Hy); auto|intros; eauto]. }
        assert (C : (exists x0, Some x' = Some x0 /\ o_live x0 = true /\ In v (o_ins x0)) <-> In v (o_ins x')).
        { split; [intros (y & [= <-] & _ & Hy); auto|intros; exists x'; auto]. }
        rewrite C, Hin. destruct (in_dec Nat.eq_dec old (o_ins x)) as [Hi|Hi]; rewrite Us'; [tauto|].
        split; [|tauto]. intros Hv'. right. split; [congruence|auto].
      * specialize (Us v p Hv). unfold consumes in Us. destruct (in_dec Nat.eq_dec old (o_ins x)); tauto.
    + intros p y Hy. cbn [g_ops] in Hy. rewrite NU in Hy. cbn [g_vals]. rewrite L. destruct (Nat.eqb_spec p o); [|exact (Rg _ _ Hy)].
      injection Hy as <-. destruct (Rg _ _ Hx) as [R1 R2]. split; [|exact R2]. cbn. apply Forall_map. eapply Forall_impl; [|exact R1].
      cbn. intros a Ha. destruct (Nat.eqb a old); auto.
    + cbn [g_ops]. intros p p' y y' v. rewrite !NU.
      assert (Q : forall q z, (if Nat.eqb q o then Some x' else nth_error (g_ops g) q) = Some z -> In v (o_outs z) ->
                   exists z', nth_error (g_ops g) q = Some z' /\ In v (o_outs z')).
      { intros q z Hz Hv. destruct (Nat.eqb_spec q o); [|eauto]. injection Hz as <-. subst. exists x. auto. }
      intros Hy Hy' Hv Hv'. destruct (Q _ _ Hy Hv) as (z & Hz & Hvz). destruct (Q _ _ Hy' Hv') as (z' & Hz' & Hvz'). eapply D1; eauto.
    + cbn [g_ops]. intros p y v. rewrite NU. intros Hy Hv. match goal with |- Dv ?h v = _ => change (Dv h v) with (Dv g1 v) end.
      rewrite Dv'. destruct (Nat.eqb_spec p o); [|now apply D2]. injection Hy as <-. subst. cbn in *. now apply D2.
  - (* Erase *) unfold g_erase. destruct (nth_error (g_ops g) o) as [x|] eqn:Hx; [|auto].
    destruct (fold_remove_use (o_ins x) o g) as (F1 & N1 & Dv1 & U1).
    set (g1 := fold_left (fun g v => set_val g v (remove_use o)) (o_ins x) g) in *. cbv zeta in *.
    destruct (fold_set_def (o_outs x) None g1) as (F2 & N2 & Dv2 & U2).
    set (g2 := fold_left (fun g v => set_val g v (set_def None)) (o_outs x) g1) in *. cbv zeta in *.
    pose proof (frame_trans _ _ _ F1 F2) as F. pose proof (frame_len _ _ F) as L. pose proof (frame_len _ _ F1) as L1. pose proof (proj1 F) as Fo.
    destruct I as (D & (N & Us) & Rg & D1 & D2).
    assert (Ho : o < List.length (g_ops g)) by (apply nth_error_Some; congruence).
    set (x' := Oper (o_ins x) (o_outs x) false).
    assert (NU : forall p, nth_error (upd (g_ops g2) o x') p = if Nat.eqb p o then Some x' else nth_error (g_ops g) p)
      by (intros p; rewrite Fo; now apply nth_upd).
    split; [exact (dict_frame _ _ F D)|]. split; [|split; [|split]].
    + split; [exact (N2 (N1 N))|]. intros v p Hv. cbn [g_vals] in Hv. rewrite L in Hv.
      match goal with |- U ?h v p <-> _ => change (U h v p) with (U g2 v p) end. rewrite U2, U1, Us by auto.
      unfold consumes. cbn [g_ops]. rewrite NU. destruct (Nat.eqb_spec p o) as [->|Hp]; [|tauto].
      rewrite Hx. split; [|intros (y & [= <-] & Hl & _); discriminate].
      intros [(y & [= <-] & _ & Hi) Hn]. exfalso. auto.
    + intros p y Hy. cbn [g_ops] in Hy. rewrite NU in Hy. cbn [g_vals]. rewrite L. destruct (Nat.eqb_spec p o); [|exact (Rg _ _ Hy)].
      injection Hy as <-. exact (Rg _ _ Hx).
    + cbn [g_ops]. intros p p' y y' v. rewrite !NU.
      assert (Q : forall q z, (if Nat.eqb q o then Some x' else nth_error (g_ops g) q) = Some z -> In v (o_outs z) ->
                   exists z', nth_error (g_ops g) q = Some z' /\ In v (o_outs z')).
      { intros q z Hz Hv. destruct (Nat.eqb_spec q o); [|eauto]. injection Hz as <-. subst. exists x. auto. }
      intros Hy Hy' Hv Hv'. destruct (Q _ _ Hy Hv) as (z & Hz & Hvz). destruct (Q _ _ Hy' Hv') as (z' & Hz' & Hvz'). eapply D1; eauto.
    + cbn [g_ops]. intros p y v. rewrite NU. intros Hy Hv. match goal with |- Dv ?h v = _ => change (Dv h v) with (Dv g2 v) end.
      rewrite Dv2, Dv1, L1. destruct (Nat.eqb_spec p o) as [->|Hp].
      * injection Hy as <-. unfold x' in *. cbn [o_outs o_live] in Hv |- *. destruct (in_dec Nat.eq_dec v (o_outs x)) as [_|n]; [|contradiction].
        destruct (Rg _ _ Hx) as [_ R2]. rewrite Forall_forall in R2. apply R2 in Hv.
        destruct (Nat.ltb_spec v (List.length (g_vals g))); [reflexivity|lia].
      * destruct (in_dec Nat.eq_dec v (o_outs x)) as [Hi|Hi]; [|now apply D2]. exfalso. apply Hp. eapply D1; eauto.
  - unfold g_add_output. destruct (existsb _ _); exact I.
Qed.

Lemma inv_run cs : forall g, inv g -> calls_ok g cs -> inv (run_calls g cs).
Proof. induction cs as [|c cs IH]; cbn; auto. intros g I [H1 H2]. apply IH; auto. now apply inv_step. Qed.

Lemma inv_spec g : inv g -> names_ok g /\ uses_ok g /\ defs_ok g.
Proof.
  intros ((N & D) & (ND' & Us) & R & D1 & D2). split; [|split].
  - split; auto. intros v x Hx. rewrite D, <- (map_length v_name). rewrite (sfind_combine _ _ 0 v); auto.
    rewrite nth_error_map, Hx. reflexivity.
  - intros v x Hx. assert (Hv : v < List.length (g_vals g)) by (apply nth_error_Some; congruence). split.
    + unfold ND in ND'. rewrite Forall_nth_error in ND'. eauto.
    + intros o. rewrite <- Us by auto. split; [intros; exists x; auto|intros (y & Hy & Hi); congruence].
  - split; auto. intros o x v Hx Hv. specialize (D2 _ _ _ Hx Hv). unfold Dv in D2. destruct (nth_error (g_vals g) v) as [y|]; [|discriminate].
    injection D2 as D2. eauto.
Qed.

(** ** Definition before use *)
Lemma order_step g c : inv g -> call_ok g c -> replace_earlier g c -> in_order g -> in_order (run_call g c).
Proof.
  intros I Hc He Ho. pose proof I as (D & _ & Rg & _). destruct c; cbn [run_call call_ok replace_earlier] in *.
  - assert (E : g_ops (fst (match name with Some n => g_add_value g n | None => g_add_fresh g end)) = g_ops g).
    { destruct name as [n|].
      - destruct (g_add_value g n) as [g' r] eqn:E. apply (add_value_grow _ _ _ _ D E).
      - destruct (g_add_fresh g) as [g' r] eqn:E. apply (add_fresh_grow _ _ _ D E). }
    intros o o' x x' v. destruct name; rewrite E; apply Ho.
  - unfold g_add_input. destruct (g_add_value g name) as [g' r] eqn:E. pose proof (add_value_grow _ _ _ _ D E) as ((G & _) & _).
    destruct r; intros o o' x x' v; cbn [g_ops]; rewrite G; apply Ho.
  - unfold g_add_op. destruct (g_add_outs g nout) as [g' [outs|]] eqn:E;
      pose proof (add_outs_grow _ _ _ _ D E) as ((G & _) & _ & R); [|intros o o' x x' v; rewrite G; apply Ho].
    destruct R as [Ro _].
    destruct (fold_set_def outs (Some (List.length (g_ops g'))) g') as ((F1 & _) & _).
    set (g1 := fold_left (fun g v => set_val g v (set_def (Some (List.length (g_ops g'))))) outs g') in *.
    destruct (fold_add_use ins (List.length (g_ops g')) g1) as ((F2 & _) & _).
    cbv zeta in *. intros o o' x x' v. cbn [g_ops]. rewrite F2, F1, G. intros Hx Hx' Hi Hv.
    apply nth_snoc in Hx, Hx'. destruct Hx as [Hx|[-> ->]], Hx' as [Hx'|[-> ->]]; cbn in Hi, Hv.
    + eapply Ho; eauto.
    + exfalso. apply Rg in Hx. destruct Hx as [Hx _]. rewrite Forall_forall in Hx. apply Hx in Hi. subst outs. apply in_seq in Hv. lia.
    + apply nth_error_Some. congruence.
    + exfalso. rewrite Forall_forall in Hc. apply Hc in Hi. subst outs. apply in_seq in Hv. lia.
  - destruct Hc as [(x & Hx & Hlive) Hnew]. unfold g_replace. rewrite Hx.
    destruct (fold_replace (o_ins x) o old new g Hnew) as ((F & _) & _). cbv zeta in *.
    intros p p' y y' v. cbn [g_ops]. rewrite F, !nth_upd by (apply nth_error_Some; congruence).
    assert (Q : forall q z, (if Nat.eqb q o then Some (Oper (map (fun i => if Nat.eqb i old then new else i) (o_ins x)) (o_outs x) (o_live x)) else nth_error (g_ops g) q) = Some z -> In v (o_outs z) ->
                 exists z', nth_error (g_ops g) q = Some z' /\ In v (o_outs z')).
    { intros q z Hz Hv. destruct (Nat.eqb_spec q o); [|eauto]. injection Hz as <-. subst. exists x. auto. }
    intros Hy Hy' Hi Hv. destruct (Q _ _ Hy' Hv) as (z' & Hz' & Hvz'). destruct (Nat.eqb_spec p o) as [->|Hp]; [|eapply Ho; eauto].
    injection Hy as <-. cbn in Hi. apply in_map_iff in Hi. destruct Hi as (i & Ei & Hi). destruct (Nat.eqb_spec i old).
    + subst. eapply He; eauto.
    + subst. eapply Ho; eauto.
  - unfold g_erase. destruct (nth_error (g_ops g) o) as [x|] eqn:Hx; [|auto].
    destruct (fold_remove_use (o_ins x) o g) as ((F1 & _) & _).
    set (g1 := fold_left (fun g v => set_val g v (remove_use o)) (o_ins x) g) in *. cbv zeta in *.
    destruct (fold_set_def (o_outs x) None g1) as ((F2 & _) & _). cbv zeta in *.
    intros p p' y y' v. cbn [g_ops]. rewrite F2, F1, !nth_upd by (apply nth_error_Some; congruence).
    assert (Q : forall q z, (if Nat.eqb q o then Some (Oper (o_ins x) (o_outs x) false) else nth_error (g_ops g) q) = Some z ->
                 exists z', nth_error (g_ops g) q = Some z' /\ o_outs z' = o_outs z /\ o_ins z' = o_ins z).
    { intros q z Hz. destruct (Nat.eqb_spec q o); [|eauto]. injection Hz as <-. subst. exists x. auto. }
    intros Hy Hy' Hi Hv. destruct (Q _ _ Hy) as (z & Hz & E1 & E2). destruct (Q _ _ Hy') as (z' & Hz' & E3 & E4).
    rewrite <- E2 in Hi. rewrite <- E3 in Hv. eapply Ho; eauto.
  - unfold g_add_output. destruct (existsb _ _); exact Ho.
Qed.
Lemma order_run cs : forall g, inv g -> calls_ok g cs -> replaces_earlier g cs -> in_order g -> in_order (run_calls g cs).
Proof.
  induction cs as [|c cs IH]; cbn; auto. intros g I [H1 H2] [E1 E2] Ho. apply IH; auto; [now apply inv_step|now apply order_step].
Qed.
