(** Training against prediction, and the quality of the active party's splits. *)
From Coq Require Import List ZArith QArith Qfield Bool Arith Lia Setoid Morphisms.
From Verif Require Import MPCBase BFVModel SGBModel TreeModel TreeSpec TreeProofs TreePredict TreeSplit.
Import ListNotations.
Local Open Scope nat_scope.

Lemma gain_lt_eq a b b' : gain_eq b b' -> gain_lt a b = gain_lt a b'.
Proof.
  destruct a as [a|], b as [b|], b' as [b'|]; cbn; try tauto; auto. intros E.
  now rewrite (Qleb_comp _ _ E _ _ (Qeq_refl a)).
Qed.
Lemma leaf_eq b b' : gain_eq b b' -> is_new_leaf b = is_new_leaf b'.
Proof. destruct b as [b|], b' as [b'|]; cbn; try tauto; auto. intros E. now rewrite (Qleb_comp _ _ E _ _ (Qeq_refl 0%Q)). Qed.
Lemma gain_eq_sym a b : gain_eq a b -> gain_eq b a.
Proof. destruct a, b; cbn; auto. now symmetry. Qed.
Lemma leaf_mono a b : gain_lt a b = false -> is_new_leaf a = true -> is_new_leaf b = true.
Proof.
  destruct a as [a|], b as [b|]; cbn; auto; try discriminate. rewrite negb_false_iff, !Qle_bool_iff. intros. eapply Qle_trans; eauto.
Qed.
Lemma not_leaf_worth g : is_new_leaf g = false <-> worth_it g.
Proof.
  unfold worth_it. destruct g as [x|]; cbn.
  - split; [intros H; exists x; split; auto|intros (y & E & H); injection E as ->].
    + apply Qnot_le_lt. rewrite <- Qle_bool_iff. congruence.
    + destruct (Qle_bool y 0) eqn:E; auto. apply Qle_bool_iff in E. exfalso. eapply Qlt_not_le; eauto.
  - split; [discriminate|intros (y & E & _); discriminate].
Qed.

Lemma bin_index_bound bins x : bin_index bins x <= length bins.
Proof. unfold bin_index. induction bins as [|b l IH]; cbn; auto. destruct (x_lt b x); cbn; lia. Qed.

(** ** the active party's proposals *)
Section ApSplit.
Variables (p : params) (mb L : nat) (ghs : list gh) (bt : list nat) (nf : nat) (data : list (list Q)).
Let P := bin_party mb nf data.
Hypothesis Mb : 1 <= mb.
Hypothesis Ld : length data = length ghs.
Hypothesis Lb : length bt = length ghs.

Lemma idx_at_most f t j : f < nf -> t < mb -> j < length ghs -> (nth j (idx_column P f) 0 <=? t) = at_most P f t j.
Proof.
  intros Hf Ht Hj. unfold idx_column, at_most. cbn [P bin_party p_idx p_bins p_data].
  rewrite map_map. rewrite map_nth_lt with (d' := []) by lia. rewrite !tab_nth by exact Hf.
  destruct (Nat.lt_ge_cases t (mb - 1)) as [H|H].
  - apply bin_index_le; [apply build_bins_ascending|now rewrite build_bins_length].
  - rewrite (nth_overflow (build_bins _ _)) by (rewrite build_bins_length; lia). cbn [le_x]. apply Nat.leb_le.
    eapply Nat.le_trans; [apply bin_index_bound|]. rewrite build_bins_length. lia.
Qed.

Lemma idx_lt f j : f < nf -> j < length ghs -> nth j (idx_column P f) 0 < S mb.
Proof.
  intros Hf Hj. unfold idx_column. cbn [P bin_party p_idx]. rewrite map_map. rewrite map_nth_lt with (d' := []) by lia. rewrite !tab_nth by exact Hf.
  pose proof (bin_index_bound (build_bins (column data f) mb) (nth f (nth j data []) 0%Q)) as X. rewrite build_bins_length in X. lia.
Qed.
Lemma idx_len f : length (idx_column P f) = length ghs.
Proof. unfold idx_column. cbn [P bin_party p_idx]. now rewrite map_map, map_length. Qed.

Lemma ap_split_spec i : i < 2 ^ L -> 0 < nf ->
  let s := nth i (find_splits_ap p (S mb) L ghs bt P) dsplit in
  let here := fun j => nth j bt 0 =? level_offset L + i in
  s_thr s < mb /\ s_feat s < nf /\
  gain_eq (s_gain s) (split_gain p ghs here (at_most P (s_feat s) (s_thr s))) /\
  forall f t, f < nf -> t < mb -> gain_lt (s_gain s) (split_gain p ghs here (at_most P f t)) = false.
Proof.
  intros Hi Nf s here.
  assert (Nf' : n_feats P = nf) by (unfold n_feats; cbn [P bin_party p_bins]; apply tab_length).
  set (hs := tab nf (fun f => node_hist (S mb) L ghs bt (idx_column P f) i)).
  assert (Es : s = best_split p (S mb) hs).
  { unfold s, find_splits_ap. cbv zeta. rewrite (tab_nth (2 ^ L)) by exact Hi. f_equal. rewrite Nf'. unfold tab at 1, hs, tab, node_hist. now rewrite map_map. }
  assert (G : forall f t, f < nf -> t < mb -> gain_eq (nth t (gains_of p (nth f hs [])) None) (split_gain p ghs here (at_most P f t))).
  { intros f t Hf Ht. unfold hs. rewrite tab_nth by exact Hf.
    pose proof (gains_spec p ghs here (fun j => nth j (idx_column P f) 0) (node_hist (S mb) L ghs bt (idx_column P f) i) (S mb)) as X.
    cbv beta in X. eapply gain_eq_trans; [apply X|].
    { apply node_hist_len; auto. apply idx_len. } { intros j Hj. now apply idx_lt. }
    { intros b Hb. apply node_hist_nth; auto; [apply idx_len|intros j Hj; now apply idx_lt]. } { lia. }
    clear X. unfold split_gain. cbv zeta.
    rewrite (sum_where_ext ghs (fun j => here j && (nth j (idx_column P f) 0 <=? t)) (fun j => here j && at_most P f t j)) by (intros j Hj; now rewrite idx_at_most).
    rewrite (sum_where_ext ghs (fun j => here j && negb (nth j (idx_column P f) 0 <=? t)) (fun j => here j && negb (at_most P f t j))) by (intros j Hj; now rewrite idx_at_most).
    destruct (_ && _); cbn; auto. reflexivity. }
  assert (F : Forall (fun h => length h = S mb) hs).
  { apply Forall_forall. intros h Hh. unfold hs, tab in Hh. apply in_map_iff in Hh. destruct Hh as (f & <- & _). apply node_hist_len; auto. apply idx_len. }
  assert (Lh : length hs = nf) by apply tab_length.
  pose proof (best_split_spec p (S mb) hs ltac:(lia) F) as (A & B & _ & C & D). rewrite <- Es in *. rewrite Lh in *.
  replace (S mb - 1) with mb in * by lia.
  assert (Hne : hs <> []) by (intros X; rewrite X in Lh; cbn in Lh; lia). specialize (C Hne).
  split; [exact A|split; [exact C|split]].
  - rewrite <- B. now apply G.
  - intros f t Hf Ht. rewrite <- (gain_lt_eq _ _ _ (G f t Hf Ht)). now apply D.
Qed.

(** without features there is nothing to propose *)
Lemma ap_split_none i : i < 2 ^ L -> nf = 0 -> s_gain (nth i (find_splits_ap p (S mb) L ghs bt P) dsplit) = None.
Proof.
  intros Hi Nf. unfold find_splits_ap. cbv zeta. rewrite (tab_nth (2 ^ L)) by exact Hi.
  unfold n_feats. cbn [P bin_party p_bins]. rewrite tab_length, Nf. reflexivity.
Qed.

Lemma last_threshold (here : nat -> bool) f : f < nf -> (0 <= gamma p)%Q \/ (0 < min_child_weight p)%Q ->
  is_new_leaf (split_gain p ghs here (at_most P f (mb - 1))) = true.
Proof.
  intros Hf Hp. unfold split_gain. change (reg_score p) with (score p). cbv zeta.
  assert (T : forall j, at_most P f (mb - 1) j = true).
  { intros j. unfold at_most. cbn [P bin_party p_bins]. rewrite tab_nth by exact Hf. rewrite (nth_overflow (build_bins _ _)) by (rewrite build_bins_length; lia). reflexivity. }
  rewrite (sum_where_ext ghs (fun j => here j && at_most P f (mb - 1) j) here) by (intros j _; now rewrite T, andb_true_r).
  rewrite (sum_where_ext ghs (fun j => here j && negb (at_most P f (mb - 1) j)) (fun _ => false)) by (intros j _; now rewrite T, andb_false_r).
  rewrite sum_where_false. destruct (Qle_bool (min_child_weight p) (snd (sum_where ghs here))); cbn [andb]; [|reflexivity].
  destruct (Qle_bool (min_child_weight p) (snd gzero)) eqn:E; [|reflexivity].
  cbn [is_new_leaf]. apply Qle_bool_iff. apply Qle_bool_iff in E. cbn in E.
  destruct Hp as [Hg|Hw]; [|exfalso; eapply Qlt_not_le; eauto].
  assert (Z0 : (score p gzero == 0)%Q) by (unfold score; cbn; unfold Qdiv; ring).
  rewrite Z0. setoid_replace ((score p (sum_where ghs here) + 0 - score p (sum_where ghs here)) / 2 - gamma p)%Q with (- gamma p)%Q by field.
  change 0%Q with (- 0)%Q. now apply Qopp_le_compat.
Qed.
End ApSplit.

Section Train.
Variables (p : params) (scale : positive) (mb : nat) (ghs : list gh) (parties : list party) (depth : nat).
Let np := length parties.
Let m := length ghs.
Hypothesis Mb : 1 <= mb.
Hypothesis Fit : fitted mb m parties.
Hypothesis Np : 0 < np.
Hypothesis Pen : (0 <= gamma p)%Q \/ (0 < min_child_weight p)%Q.

Notation lev := (levels p scale (S mb) ghs parties depth).
Notation pro := (props p scale (S mb) ghs parties depth).
Let result := build_tree p scale (S mb) ghs parties depth.
Let t := fst result.

Lemma props_len L : length (pro L) = np.
Proof. unfold props, proposals. apply tab_length. Qed.

Lemma best_gain L i q g : global_best (pro L) i = (q, g) -> q < np /\ s_gain (nth i (nth q (pro L) []) dsplit) = g /\
  forall q', q' < np -> gain_lt g (s_gain (nth i (nth q' (pro L) []) dsplit)) = false.
Proof.
  intros E. unfold global_best in E. set (gs := map (fun l => s_gain (nth i l (Split None 0 0))) (pro L)) in E.
  assert (Lg : length gs = np) by (unfold gs; rewrite map_length; apply props_len).
  pose proof (argmax_lt gs) as A. pose proof (argmax_spec gs) as [B C]. rewrite E in *. cbn [fst snd] in *. rewrite Lg in *.
  assert (q < np) by (apply A; intros X; rewrite X in Lg; cbn in Lg; lia). split; auto. split.
  - unfold gs in C. rewrite map_nth_lt with (d' := []) in C by (now rewrite props_len). exact C.
  - intros q' Hq'. specialize (B q' Hq'). unfold gs in B. rewrite map_nth_lt with (d' := []) in B by (now rewrite props_len). exact B.
Qed.

Lemma boundary : passive_boundary_exists mb (l_log (lev depth)) -> boundary_exists mb (l_log (lev depth)).
Proof.
  intros PB all L i q g Eall Hi Eg Lg. destruct q as [|q]; [|apply (PB all L i (S q) g); auto; lia].
  rewrite levels_log, nth_error_map in Eall. destruct (nth_error (seq 0 depth) L) as [L'|] eqn:EL; [|discriminate].
  assert (L' = L). { apply nth_error_nth with (d := 0) in EL as X. apply nth_error_Some_lt in EL || idtac. assert (HL : L < depth) by (pose proof (proj1 (nth_error_Some (seq 0 depth) L)) as Y; rewrite seq_length in Y; apply Y; congruence). rewrite seq_nth in X by exact HL. lia. }
  subst L'. injection Eall as <-. fold (pro L) in *.
  destruct (best_gain L i 0 g Eg) as (_ & Sg & _).
  unfold fitted in Fit. destruct parties as [|P0 rest] eqn:EP; [cbn in Np; lia|]. inversion Fit as [|? ? (nf & data & EP0 & Ld & R) _]. subst P0 x l.
  assert (E0 : nth 0 (props p scale (S mb) ghs (bin_party mb nf data :: rest) depth L) [] =
     find_splits_ap p (S mb) L ghs (l_bt (levels p scale (S mb) ghs (bin_party mb nf data :: rest) depth L)) (bin_party mb nf data)).
  { unfold props, proposals. rewrite tab_nth by (cbn; lia). reflexivity. }
  rewrite E0 in *. set (bt := l_bt _) in *.
  assert (Lb : length bt = length ghs) by (unfold bt; apply (sh_bt _ _ _ _ (levels_shape p scale (S mb) ghs _ depth L))).
  destruct (Nat.eq_dec nf 0) as [Z0|Nf].
  { change (Split None 0 0) with dsplit in *. rewrite (ap_split_none p mb L ghs bt nf data) in Sg by auto. rewrite <- Sg in Lg. discriminate. }
  pose proof (ap_split_spec p mb L ghs bt nf data Mb Ld Lb i Hi ltac:(lia)) as (A & B & C & _).
  change (Split None 0 0) with dsplit. set (s := nth i _ dsplit) in *.
  destruct (Nat.lt_ge_cases (s_thr s) (mb - 1)) as [H|H]; auto. exfalso.
  assert (E1 : s_thr s = mb - 1) by lia. rewrite E1 in C. rewrite Sg in C. apply leaf_eq in C. rewrite (last_threshold p mb ghs bt nf data) in C by auto. congruence.
Qed.

Lemma levels_same rows L : forall L', L <= L' -> L' <= depth ->
  same_above (state_tree (lev L)) (state_tree (lev L')) rows (level_offset L).
Proof.
  induction L' as [|L' IH]; intros H1 H2.
  - assert (L = 0) by lia. subst. intros k Hk. reflexivity.
  - destruct (Nat.eq_dec L (S L')) as [->|N]; [intros k Hk; reflexivity|]. intros k Hk. rewrite IH by (auto; lia). rewrite levels_S.
    apply (step_above p scale (S mb) ghs _ _ parties m depth L' (lev L')); try lia.
    + apply levels_shape.
    + apply levels_owner; [exact Np|lia].
    + eapply Nat.lt_le_trans; [exact Hk|]. apply off_mono. lia.
Qed.

Lemma t_fields : t_feat t = l_feat (lev depth) /\ t_thr t = l_thr (lev depth) /\ t_own t = l_own (lev depth) /\
  t_leaf t = set_level false depth (repeat true (2 ^ depth)) (l_leaf (lev depth)).
Proof. repeat split. Qed.

Lemma final_same rows : same_above (state_tree (lev depth)) t rows (level_offset depth).
Proof.
  intros k Hk. unfold step_down, goes_left. destruct t_fields as (-> & -> & -> & ->). cbn [state_tree t_leaf t_own t_feat t_thr].
  rewrite set_level_out by (left; exact Hk). reflexivity.
Qed.

Lemma t_proper : proper_tree t np depth.
Proof.
  pose proof (levels_shape p scale (S mb) ghs parties depth depth) as [A B C D E]. split.
  - intros k Hk. destruct t_fields as (_ & _ & _ & ->).
    assert (E1 : level_offset depth = 2 ^ depth - 1) by reflexivity. assert (E2 : level_offset (S depth) = 2 ^ (depth + 1) - 1) by (unfold level_offset; f_equal; f_equal; lia).
    rewrite set_level_in by (try rewrite B; lia). rewrite nth_indep with (d' := true) by (rewrite repeat_length; pose proof (off_pow depth); lia). apply nth_repeat.
  - intros k Hk. destruct t_fields as (_ & _ & -> & ->). rewrite set_level_out by (left; exact Hk). intros El. apply levels_owner; auto.
Qed.

Lemma bt_walk : passive_boundary_exists mb (l_log (lev depth)) -> forall L, L <= depth -> forall j, j < m ->
  nth j (l_bt (lev L)) 0 = walk t (sample parties j) L 0.
Proof.
  intros PB L HL j Hj. rewrite (levels_walk p scale (S mb) ghs parties depth mb) by (auto using boundary).
  apply (walk_same _ _ _ _ 0); [unfold level_offset; cbn; lia|]. cbn [plus]. intros k Hk.
  rewrite (levels_same _ L depth) by (auto; lia). apply final_same. eapply Nat.lt_le_trans; [exact Hk|]. now apply off_mono.
Qed.

Lemma bt_final j : nth j (snd result) 0 = nth j (l_bt (lev depth)) 0.
Proof. reflexivity. Qed.
Lemma bt_final_len : length (snd result) = m.
Proof. exact (sh_bt _ _ _ _ (levels_shape p scale (S mb) ghs parties depth depth)). Qed.

Lemma value_at k : nth k (t_leaf t) false = true -> nth k (t_val t) 0%Q = leaf_weight p (sum_where ghs (fun i => nth i (snd result) 0 =? k)).
Proof.
  intros El. set (leaf := t_leaf t) in *.
  assert (Hk : k < length leaf) by (destruct (Nat.lt_ge_cases k (length leaf)) as [H|H]; auto; rewrite nth_overflow in El by exact H; discriminate).
  change (t_val t) with (leaf_values p ghs (snd result) leaf). unfold leaf_values. cbv zeta. rewrite tab_nth by exact Hk.
  rewrite El. cbn [andb]. rewrite segment_sum_nth by (auto; rewrite map_length; apply bt_final_len).
  rewrite (sum_where_ext ghs _ (fun i => nth i (snd result) 0 =? k)).
  2:{ intros i Hi. rewrite map_nth_lt with (d' := 0) by (rewrite bt_final_len; exact Hi).
      destruct (Nat.eqb_spec (nth i (snd result) 0) k); [apply Z.eqb_eq|apply Z.eqb_neq]; lia. }
  unfold leaf_weight. destruct (Qeq_bool _ 0); reflexivity.
Qed.

Theorem agree : passive_boundary_exists mb (l_log (run_levels p scale (S mb) ghs parties depth)) ->
  forall j, j < m ->
  nth j (snd result) 0 = walk t (sample parties j) depth 0 /\
  predict_tree t (2 ^ (depth + 1) - 1) (sample parties j) =
    leaf_weight p (sum_where ghs (fun i => walk t (sample parties i) depth 0 =? walk t (sample parties j) depth 0)).
Proof.
  intros PB j Hj. split; [rewrite bt_final; now apply bt_walk|].
  assert (Ls : length (sample parties j) = np) by (unfold sample; apply map_length).
  assert (PT : proper_tree t (length (sample parties j)) depth) by (rewrite Ls; exact t_proper).
  rewrite (predict_is_walk t (sample parties j) depth PT) by (rewrite Ls; exact Np).
  rewrite value_at by (apply (walk_leaf t (sample parties j) depth PT); rewrite Ls; exact Np).
  f_equal. apply sum_where_ext. intros i Hi. rewrite bt_final. now rewrite bt_walk.
Qed.

(** decided nodes keep their fields *)
Lemma step_keeps L k q : L < depth -> k < level_offset L -> q < np -> nth k (l_leaf (lev L)) false = false -> nth k (l_own (lev L)) (-1)%Z = Z.of_nat q ->
  nth k (nth q (l_feat (lev (S L))) []) (-1)%Z = nth k (nth q (l_feat (lev L)) []) (-1)%Z /\
  nth k (nth q (l_thr (lev (S L))) []) None = nth k (nth q (l_thr (lev L)) []) None.
Proof.
  intros Ld Hk Hq El Eq. rewrite levels_S. pose proof (levels_shape p scale (S mb) ghs parties depth L) as [A B C D E].
  rewrite step_eq. cbv zeta. cbn [l_feat l_thr]. rewrite !tab_nth by exact Hq.
  assert (Lk : k < level_offset (S depth)) by (eapply Nat.lt_le_trans; [exact Hk|apply off_mono; lia]).
  unfold update_feats, update_thrs. cbv zeta. rewrite !set_level_len, D, E by exact Hq. rewrite !tab_nth by exact Lk.
  rewrite !set_level_out by (left; exact Hk). rewrite El, Eq, Z.eqb_refl. split; reflexivity.
Qed.
Lemma step_keeps_leaf L k : k < level_offset L -> nth k (l_leaf (lev (S L))) false = nth k (l_leaf (lev L)) false /\
  nth k (l_own (lev (S L))) (-1)%Z = nth k (l_own (lev L)) (-1)%Z.
Proof. intros Hk. rewrite levels_S, step_eq. cbv zeta. cbn [l_leaf l_own]. rewrite !set_level_out by (left; exact Hk). auto. Qed.

Lemma keeps_leaf L k : k < level_offset L -> forall L', L <= L' -> nth k (l_leaf (lev L')) false = nth k (l_leaf (lev L)) false /\
  nth k (l_own (lev L')) (-1)%Z = nth k (l_own (lev L)) (-1)%Z.
Proof.
  intros Hk. induction L' as [|L' IH]; intros H.
  - assert (L = 0) by lia. subst. auto.
  - destruct (Nat.eq_dec L (S L')) as [->|N]; auto. destruct (IH ltac:(lia)) as [A B].
    destruct (step_keeps_leaf L' k) as [C D]; [eapply Nat.lt_le_trans; [exact Hk|apply off_mono; lia]|]. split; congruence.
Qed.
Lemma keeps L k q : k < level_offset L -> q < np -> nth k (l_leaf (lev L)) false = false -> nth k (l_own (lev L)) (-1)%Z = Z.of_nat q ->
  forall L', L <= L' -> L' <= depth ->
  nth k (nth q (l_feat (lev L')) []) (-1)%Z = nth k (nth q (l_feat (lev L)) []) (-1)%Z /\
  nth k (nth q (l_thr (lev L')) []) None = nth k (nth q (l_thr (lev L)) []) None.
Proof.
  intros Hk Hq El Eq. induction L' as [|L' IH]; intros H1 H2.
  - assert (L = 0) by lia. subst. auto.
  - destruct (Nat.eq_dec L (S L')) as [->|N]; auto. destruct (IH ltac:(lia) ltac:(lia)) as [A B].
    destruct (keeps_leaf L k Hk L' ltac:(lia)) as [F G].
    destruct (step_keeps L' k q) as [C D]; try congruence; try lia; [eapply Nat.lt_le_trans; [exact Hk|apply off_mono; lia]|]. split; congruence.
Qed.

(** what level L decides for its i-th node *)
Lemma decided L i q g : L < depth -> i < 2 ^ L -> global_best (pro L) i = (q, g) ->
  let k := level_offset L + i in
  let s := nth i (nth q (pro L) []) dsplit in
  nth k (t_leaf t) false = is_new_leaf g /\ nth k (t_own t) (-1)%Z = Z.of_nat q /\
  (is_new_leaf g = false -> i < length (nth q (pro L) []) /\
    nth k (nth q (t_feat t) []) (-1)%Z = Z.of_nat (s_feat s) /\
    nth k (nth q (t_thr t) []) None = jget None (jget [] (p_bins (nth q parties dparty)) (Z.of_nat (s_feat s))) (Z.of_nat (s_thr s))).
Proof.
  intros HL Hi Eg k s. destruct (best_gain L i q g Eg) as (Hq & Sg & _).
  assert (Hk : k < level_offset (S L)) by (unfold k; pose proof (off_pow L); lia).
  assert (Hk' : k < level_offset depth) by (eapply Nat.lt_le_trans; [exact Hk|apply off_mono; lia]).
  pose proof (levels_shape p scale (S mb) ghs parties depth L) as [A B C D E].
  assert (Lk : k < level_offset (S depth)) by (eapply Nat.lt_le_trans; [exact Hk'|apply off_mono; lia]).
  assert (Fl : nth k (l_leaf (lev (S L))) false = is_new_leaf g).
  { rewrite levels_S, step_eq. cbv zeta. cbn [l_leaf]. rewrite set_level_in by (try rewrite B; unfold k in *; lia).
    replace (k - level_offset L) with i by (unfold k; lia). unfold winners. rewrite map_nth_lt with (d' := (0, None)) by (now rewrite tab_length).
    rewrite (tab_nth (2 ^ L)) by exact Hi. fold (pro L). now rewrite Eg. }
  assert (Fo : nth k (l_own (lev (S L))) (-1)%Z = Z.of_nat q).
  { rewrite levels_S, step_eq. cbv zeta. cbn [l_own]. rewrite set_level_in by (try rewrite C; unfold k in *; lia).
    replace (k - level_offset L) with i by (unfold k; lia). unfold winners. rewrite map_nth_lt with (d' := (0, None)) by (now rewrite tab_length).
    rewrite (tab_nth (2 ^ L)) by exact Hi. fold (pro L). now rewrite Eg. }
  destruct (keeps_leaf (S L) k Hk depth ltac:(lia)) as [Kl Ko].
  destruct t_fields as (-> & -> & -> & ->). split; [|split].
  - rewrite set_level_out by (left; exact Hk'). now rewrite Kl.
  - now rewrite Ko.
  - intros Lg.
    assert (Ls : i < length (nth q (pro L) [])).
    { destruct (Nat.lt_ge_cases i (length (nth q (pro L) []))) as [X|X]; auto. exfalso. rewrite nth_overflow in Sg by exact X. cbn in Sg. rewrite <- Sg in Lg. discriminate. }
    split; [exact Ls|].
    destruct (keeps (S L) k q Hk Hq ltac:(congruence) Fo depth ltac:(lia) ltac:(lia)) as [-> ->].
    rewrite levels_S in Fl, Fo |- *. rewrite step_eq in Fl, Fo |- *. cbv zeta in Fl, Fo |- *. cbn [l_leaf l_own l_feat l_thr] in Fl, Fo |- *.
    rewrite !tab_nth by exact Hq. unfold update_feats, update_thrs. cbv zeta. rewrite !set_level_len, D, E by exact Hq. rewrite !tab_nth by exact Lk.
    rewrite Fl, Fo, Lg, Z.eqb_refl.
    rewrite !set_level_in by (rewrite ?D, ?E by exact Hq; unfold k in *; lia).
    replace (k - level_offset L) with i by (unfold k; lia).
    rewrite !map_nth_lt with (d' := dsplit) by exact Ls. split; reflexivity.
Qed.

(** the nodes of the active party are split at its best candidate; at a leaf the active
    party has no candidate worth taking *)
Theorem ap_greedy : passive_boundary_exists mb (l_log (run_levels p scale (S mb) ghs parties depth)) ->
  forall P nf, nth_error parties 0 = Some P -> n_feats P = nf ->
  forall L i, L < depth -> i < 2 ^ L ->
  let k := 2 ^ L - 1 + i in
  let here := fun j => walk t (sample parties j) L 0 =? k in
  (nth k (t_leaf t) false = true -> forall f b, f < nf -> b < mb -> ~ worth_it (split_gain p ghs here (at_most P f b))) /\
  (nth k (t_leaf t) false = false -> nth k (t_own t) (-1)%Z = 0%Z ->
     exists f b, f < nf /\ b < mb - 1 /\ nth k (nth 0 (t_feat t) []) (-1)%Z = Z.of_nat f /\
       nth k (nth 0 (t_thr t) []) None = nth b (nth f (p_bins P) []) None /\
       worth_it (split_gain p ghs here (at_most P f b)) /\
       forall f' b', f' < nf -> b' < mb ->
         gain_lt (split_gain p ghs here (at_most P f b)) (split_gain p ghs here (at_most P f' b')) = false).
Proof.
  intros PB P nf EP Enf L i HL Hi k here.
  pose proof (bt_walk PB L ltac:(lia)) as W.
  destruct (global_best (pro L) i) as [q g] eqn:Eg.
  pose proof (decided L i q g HL Hi Eg) as (Dl & Do & Ds). destruct (best_gain L i q g Eg) as (Hq & Sg & Mx).
  change (level_offset L + i) with k in *.
  assert (E0 : nth 0 (pro L) [] = find_splits_ap p (S mb) L ghs (l_bt (lev L)) P).
  { unfold props, proposals. rewrite tab_nth by exact Np. apply nth_error_nth with (d := dparty) in EP. now rewrite EP. }
  assert (Lb : length (l_bt (lev L)) = length ghs) by (apply (sh_bt _ _ _ _ (levels_shape p scale (S mb) ghs _ depth L))).
  unfold fitted in Fit. rewrite Forall_forall in Fit. destruct (Fit P) as (nf' & data & EP0 & Ld & R); [eapply nth_error_In; eauto|].
  assert (nf' = nf) by (rewrite <- Enf, EP0; unfold n_feats; cbn [bin_party p_bins]; now rewrite tab_length). subst nf'.
  assert (Hh : forall f b, split_gain p ghs here (at_most P f b) = split_gain p ghs (fun j => nth j (l_bt (lev L)) 0 =? level_offset L + i) (at_most P f b)).
  { intros f b. unfold split_gain. cbv zeta.
    rewrite (sum_where_ext ghs here (fun j => nth j (l_bt (lev L)) 0 =? level_offset L + i)) by (intros j Hj; unfold here; now rewrite W).
    rewrite (sum_where_ext ghs (fun j => here j && at_most P f b j) (fun j => (nth j (l_bt (lev L)) 0 =? level_offset L + i) && at_most P f b j)) by (intros j Hj; unfold here; now rewrite W).
    rewrite (sum_where_ext ghs (fun j => here j && negb (at_most P f b j)) (fun j => (nth j (l_bt (lev L)) 0 =? level_offset L + i) && negb (at_most P f b j))) by (intros j Hj; unfold here; now rewrite W).
    reflexivity. }
  split.
  - intros El f b Hf Hb. rewrite <- not_leaf_worth. rewrite Dl in El. specialize (Mx 0 Np). rewrite E0 in Mx.
    pose proof (ap_split_spec p mb L ghs (l_bt (lev L)) nf data Mb Ld Lb i Hi ltac:(lia)) as (_ & _ & _ & D). rewrite <- EP0 in D.
    specialize (D f b Hf Hb). rewrite Hh. cbv zeta in D. rewrite (leaf_mono _ _ D); [discriminate|]. eapply leaf_mono; eauto.
  - intros El Eo. rewrite Dl in El. rewrite Do in Eo. assert (q = 0) by lia. subst q. destruct (Ds El) as (Ls & Df & Dt). rewrite E0 in *.
    assert (Nf : 0 < nf). { destruct nf; [|lia]. rewrite EP0 in Sg. rewrite (ap_split_none p mb L ghs (l_bt (lev L)) 0 data) in Sg by auto. rewrite <- Sg in El. discriminate. }
    pose proof (ap_split_spec p mb L ghs (l_bt (lev L)) nf data Mb Ld Lb i Hi Nf) as (A & B & C & D). rewrite <- EP0 in A, B, C, D.
    set (s := nth i (find_splits_ap p (S mb) L ghs (l_bt (lev L)) P) dsplit) in *.
    assert (Thr : s_thr s < mb - 1).
    { destruct (Nat.lt_ge_cases (s_thr s) (mb - 1)) as [H|H]; auto. exfalso. assert (E1 : s_thr s = mb - 1) by lia.
      rewrite E1 in C. rewrite Sg in C. apply leaf_eq in C. rewrite EP0 in C. rewrite (last_threshold p mb ghs (l_bt (lev L)) nf data) in C by auto. congruence. }
    exists (s_feat s), (s_thr s). split; [exact B|]. split; [exact Thr|]. split; [exact Df|]. split.
    { rewrite Dt. assert (EP1 : nth 0 parties dparty = P) by (apply nth_error_nth with (d := dparty) in EP; exact EP). rewrite EP1, EP0.
      cbn [bin_party p_bins]. rewrite (jget_in (@nil (option Q))) by (rewrite tab_length; exact B). rewrite tab_nth by exact B. rewrite jget_in by (rewrite build_bins_length; exact Thr). reflexivity. }
    rewrite Hh. split.
    + apply not_leaf_worth. rewrite <- (leaf_eq _ _ C). now rewrite Sg.
    + intros f' b' Hf' Hb'. rewrite Hh. specialize (D f' b' Hf' Hb'). 
      assert (X : gain_lt (split_gain p ghs (fun j => nth j (l_bt (lev L)) 0 =? level_offset L + i) (at_most P (s_feat s) (s_thr s))) (s_gain s) = false).
      { rewrite (gain_lt_eq _ _ _ C). apply gain_lt_irrefl. }
      eapply gain_lt_trans; [exact D|exact X].
Qed.
End Train.
