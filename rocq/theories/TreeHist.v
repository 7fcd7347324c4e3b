(** Histograms of the passive parties: subtraction, and what the split search reads. *)
From Coq Require Import List ZArith QArith Qfield Bool Arith Lia Setoid Morphisms.
From Verif Require Import MPCBase BFVModel BFVSpec SGBModel TreeModel TreeSpec TreeProofs TreePredict TreeSplit TreeTrain.
Import ListNotations.
Local Open Scope nat_scope.

(** ** sums of quantised gradients *)
Lemma q_sum scale qg qh (P : nat -> bool) m :
  gh_eq (zsum m (fun j => if P j then nth j qg 0%Z else 0%Z) # scale, zsum m (fun j => if P j then nth j qh 0%Z else 0%Z) # scale)
        (gsum (map (fun j => (nth j qg 0%Z # scale, nth j qh 0%Z # scale)) (filter P (seq 0 m)))).
Proof.
  induction m as [|m IH]; [cbn; split; cbn; reflexivity|].
  cbn [zsum]. rewrite seq_S, filter_app, map_app, gsum_app, <- IH. cbn [plus filter].
  destruct (P m); cbn [map gsum fold_right]; split; cbn [fst snd gadd gzero]; unfold Qeq, Qplus; cbn [Qnum Qden]; rewrite ?Pos2Z.inj_mul; ring.
Qed.

Section H.
Variables (scale : positive) (ghs : list gh).
Let qg := qg_of scale ghs.
Let qh := qh_of scale ghs.
Let qs := quantized scale ghs.

Lemma qs_nth j : j < length ghs -> nth j qs gzero = (nth j qg 0%Z # scale, nth j qh 0%Z # scale).
Proof.
  intros H. unfold qs, quantized, qg, qh, qg_of, qh_of. rewrite !map_nth_lt with (d' := gzero) by exact H. reflexivity.
Qed.
Lemma qs_len : length qs = length ghs. Proof. apply map_length. Qed.

(** the decrypted histogram of a node is the cumulative sums over its samples *)
Lemma decrypted_nth mem bins nb b : b < nb ->
  gh_eq (nth b (decrypted_hist scale qg qh mem bins nb) gzero) (sum_where qs (fun j => nth j mem false && (nth j bins 0 <=? b))).
Proof.
  intros Hb. unfold decrypted_hist. cbv zeta. set (h := map _ (combine _ _)).
  assert (Lh : @length gh h = nb) by (unfold h, plain_histogram; rewrite map_length, combine_length, !map_length, seq_length; lia).
  unfold cumsum. rewrite cumsum_from_nth by (rewrite Lh; exact Hb). rewrite gadd_0_l.
  apply (hist_prefix qs (fun j => nth j mem false) (fun j => nth j bins 0) h nb); auto.
  intros b' Hb'. unfold h. rewrite nth_map2 with (da := 0%Z) (db := 0%Z) by (unfold plain_histogram; rewrite !map_length, ?seq_length; auto).
  unfold plain_histogram. rewrite !map_nth_lt with (d' := 0) by (now rewrite seq_length). rewrite seq_nth by exact Hb'. cbn [plus fst snd].
  assert (Lg : length qg = length ghs) by apply map_length. assert (Lqh : length qh = length ghs) by apply map_length. rewrite Lg, Lqh.
  rewrite (q_sum scale qg qh (in_node mem bins b') (length ghs)). unfold sum_where. rewrite qs_len. unfold in_node.
  erewrite map_ext_in; [reflexivity|]. intros j Hj. apply filter_In in Hj. destruct Hj as [Hj _]. apply in_seq in Hj. symmetry. apply qs_nth. lia.
Qed.
Lemma decrypted_len mem bins nb : length (decrypted_hist scale qg qh mem bins nb) = nb.
Proof. unfold decrypted_hist, cumsum, plain_histogram. cbv zeta. rewrite cumsum_from_len, map_length, combine_length, !map_length, seq_length. lia. Qed.
Lemma members_nth L i bt j : j < length bt -> nth j (members L i bt) false = (nth j bt 0 =? level_offset L + i).
Proof.
  intros H. unfold members, bt_level. rewrite map_map. rewrite map_nth_lt with (d' := 0) by exact H.
  destruct (Nat.eqb_spec (nth j bt 0) (level_offset L + i)); [apply Z.eqb_eq|apply Z.eqb_neq]; lia.
Qed.
End H.

Section Sub.
Variables (p : params) (scale : positive) (nb : nat) (ghs : list gh) (parties : list party) (depth : nat).
Let np := length parties.
Let m := length ghs.
Let qs := quantized scale ghs.
Hypothesis Np : 0 < np.
Notation lev := (levels p scale nb ghs parties depth).
Variable q : nat.
Hypothesis Hq : 0 < q < np.
Let P := nth q parties dparty.
Let H L := nth q (l_hists (lev (S L))) [].

Lemma hists_eq L : H L = pp_hists scale (qg_of scale ghs) (qh_of scale ghs) L nb (nth q (l_hists (lev L)) []) (l_bt (lev L)) P.
Proof.
  unfold H. rewrite levels_S, step_eq. cbv zeta. cbn [l_hists]. rewrite tab_nth by (unfold np in Hq; lia). destruct q as [|q']; [lia|reflexivity].
Qed.

Definition direct_ok (L i : nat) (h : list (list gh)) : Prop :=
  length h = n_feats P /\ forall f, f < n_feats P -> length (nth f h []) = nb /\
    forall b, b < nb -> gh_eq (nth b (nth f h []) gzero)
      (sum_where qs (fun j => (nth j (l_bt (lev L)) 0 =? level_offset L + i) && (nth j (idx_column P f) 0 <=? b))).

Lemma bt_len L : length (l_bt (lev L)) = m.
Proof. apply (sh_bt _ _ _ _ (levels_shape p scale nb ghs parties depth L)). Qed.

Lemma fhe_ok L nodes k : k < length nodes -> direct_ok L (nth k nodes 0) (nth k (fhe_hists scale (qg_of scale ghs) (qh_of scale ghs) L nb nodes (l_bt (lev L)) P) []).
Proof.
  intros Hk. unfold fhe_hists. rewrite map_nth_lt with (d' := 0) by exact Hk. split; [apply tab_length|]. intros f Hf. rewrite tab_nth by exact Hf.
  split; [apply decrypted_len|]. intros b Hb. rewrite decrypted_nth by exact Hb.
  erewrite sum_where_ext; [reflexivity|]. intros j Hj. cbv beta. rewrite members_nth; [reflexivity|]. rewrite bt_len. rewrite qs_len in Hj. exact Hj.
Qed.

(** every sample of a split node is afterwards in exactly one of its children, and the children
    hold no other samples *)
Lemma child_samples L i j : L < depth -> i < 2 ^ L -> j < m -> nth (level_offset L + i) (l_leaf (lev (S L))) false = false ->
  (nth j (l_bt (lev (S L))) 0 =? level_offset (S L) + 2 * i + 1) =
  (nth j (l_bt (lev L)) 0 =? level_offset L + i) && negb (nth j (l_bt (lev (S L))) 0 =? level_offset (S L) + 2 * i) /\
  ((nth j (l_bt (lev (S L))) 0 =? level_offset (S L) + 2 * i) = true -> (nth j (l_bt (lev L)) 0 =? level_offset L + i) = true).
Proof.
  intros HL Hi Hj El. pose proof (levels_shape p scale nb ghs parties depth L) as Sh.
  destruct (levels_bt p scale nb ghs parties depth L Np ltac:(lia) j Hj) as [A B].
  pose proof (step_bt p scale nb ghs (qg_of scale ghs) (qh_of scale ghs) parties m depth L (lev L) j HL Sh Np Hj) as X. cbv zeta in X.
  rewrite <- levels_S in X. set (b := nth j (l_bt (lev L)) 0) in *. set (b' := nth j (l_bt (lev (S L))) 0) in *.
  pose proof (off_S L). pose proof (off_pow L). pose proof (off_S (S L)).
  destruct (Nat.leb_spec (level_offset L) b) as [K1|K1]; cbn [andb] in X.
  - replace (b <? level_offset (S L)) with true in X by (symmetry; apply Nat.ltb_lt; exact A).
    destruct (global_best (proposals p scale nb ghs (qg_of scale ghs) (qh_of scale ghs) parties L (lev L)) (b - level_offset L)) as [w g] eqn:Eg.
    destruct (Nat.eqb_spec b (level_offset L + i)) as [Eb|Eb].
    + assert (Lg : is_new_leaf g = false).
      { rewrite levels_S, step_eq in El. cbv zeta in El. cbn [l_leaf] in El. rewrite set_level_in in El.
        2:{ lia. } 2:{ rewrite (sh_leaf _ _ _ _ Sh). pose proof (off_mono (S L) (S depth) ltac:(lia)). lia. }
        unfold winners in El. replace (level_offset L + i - level_offset L) with i in El by lia.
        rewrite map_nth_lt with (d' := (0, None)) in El by (now rewrite tab_length). rewrite (tab_nth (2 ^ L)) in El by exact Hi.
        replace (b - level_offset L) with i in Eg by lia. rewrite Eg in El. exact El. }
      rewrite Lg in X.
      destruct (jget _ _ _ <=? _); destruct (Nat.eqb_spec b' (level_offset (S L) + 2 * i + 1)), (Nat.eqb_spec b' (level_offset (S L) + 2 * i)); cbn; split; auto; lia.
    + destruct (is_new_leaf g); [|destruct (jget _ _ _ <=? _)];
        destruct (Nat.eqb_spec b' (level_offset (S L) + 2 * i + 1)), (Nat.eqb_spec b' (level_offset (S L) + 2 * i)); cbn; split; auto; lia.
  - destruct (Nat.eqb_spec b (level_offset L + i)), (Nat.eqb_spec b' (level_offset (S L) + 2 * i + 1)), (Nat.eqb_spec b' (level_offset (S L) + 2 * i)); cbn; split; auto; lia.
Qed.

Lemma combine_level_nth (left parent : hists) i : length left = length parent -> i < length parent ->
  nth (2 * i) (combine_level left parent) [] = nth i left [] /\ nth (2 * i + 1) (combine_level left parent) [] = node_sub (nth i parent []) (nth i left []).
Proof.
  intros E Hi. unfold combine_level.
  assert (F : Forall (fun l => length l = 2) (map (fun p0 : list (list gh) * list (list gh) => [snd p0; node_sub (fst p0) (snd p0)]) (combine parent left))).
  { apply Forall_map. apply Forall_forall. reflexivity. }
  rewrite !(concat_nth_u _ 2 ltac:(lia) _ F).
  replace (2 * i / 2) with i by (rewrite Nat.mul_comm, Nat.div_mul; lia). replace ((2 * i) mod 2) with 0 by (rewrite Nat.mul_comm, Nat.mod_mul; lia).
  replace ((2 * i + 1) / 2) with i by (replace (2 * i + 1) with (1 + i * 2) by lia; rewrite Nat.div_add by lia; reflexivity).
  replace ((2 * i + 1) mod 2) with 1 by (replace (2 * i + 1) with (1 + i * 2) by lia; rewrite Nat.mod_add by lia; reflexivity).
  rewrite nth_map2 with (da := []) (db := []) by (auto; lia). cbn. auto.
Qed.

Lemma hist_inv L : L < depth -> length (H L) = 2 ^ L /\
  forall i, i < 2 ^ L -> open_above (l_leaf (lev L)) L (level_offset L + i) -> direct_ok L i (nth i (H L) []).
Proof.
  induction L as [|L IH]; intros HL; rewrite hists_eq.
  - split; [reflexivity|]. intros i Hi _. assert (i = 0) by (cbn in Hi; lia). subst. apply (fhe_ok 0 [0] 0). cbn. lia.
  - destruct (IH ltac:(lia)) as [LenH Ok]. cbn [pp_hists]. replace (S L - 1) with L by lia. fold (H L).
    set (nodes := map (fun i => 2 * i) (seq 0 (2 ^ L))). assert (Ln : length nodes = 2 ^ L) by (unfold nodes; now rewrite map_length, seq_length).
    set (left := fhe_hists _ _ _ _ _ nodes _ _). assert (Ll : length left = 2 ^ L) by (unfold left, fhe_hists; now rewrite map_length).
    split.
    { unfold combine_level. rewrite (concat_len 2) by (apply Forall_map, Forall_forall; reflexivity). rewrite map_length, combine_length. rewrite Ll, LenH. cbn [Nat.pow]. lia. }
    intros i Hi Op. cbn [open_above] in Op. destruct Op as [El Op].
    set (i' := i / 2). assert (Hi' : i' < 2 ^ L) by (apply Nat.div_lt_upper_bound; cbn [Nat.pow] in Hi; lia).
    pose proof (Nat.div_mod i 2 ltac:(lia)) as Dm. pose proof (Nat.mod_upper_bound i 2 ltac:(lia)) as Um. fold i' in Dm.
    pose proof (off_S L) as OS. pose proof (off_pow L) as OP.
    assert (Par : (level_offset (S L) + i - 1) / 2 = level_offset L + i').
    { replace (level_offset (S L) + i - 1) with (i mod 2 + (level_offset L + i') * 2) by lia. rewrite Nat.div_add by lia. rewrite Nat.div_small by lia. lia. }
    rewrite Par in *.
    destruct (combine_level_nth left (H L) i' ltac:(lia) ltac:(lia)) as [CL CR].
    assert (OkL : direct_ok (S L) (2 * i') (nth i' left [])).
    { replace (2 * i') with (nth i' nodes 0) by (unfold nodes; rewrite map_nth_lt with (d' := 0) by (now rewrite seq_length); rewrite seq_nth by exact Hi'; lia).
      apply fhe_ok. lia. }
    destruct (i mod 2) as [|[|?]] eqn:Em; try lia.
    + assert (Ei : i = 2 * i') by lia. rewrite Ei, CL. exact OkL.
    + assert (Ei : i = 2 * i' + 1) by lia. rewrite Ei, CR.
      assert (OpL : open_above (l_leaf (lev L)) L (level_offset L + i')).
      { revert Op. assert (G : forall d k, k < level_offset (S d) -> d <= L -> open_above (l_leaf (lev (S L))) d k -> open_above (l_leaf (lev L)) d k).
        { clear - Np. induction d as [|d IHd]; intros k Hk Hd Ho; auto. cbn [open_above] in *. destruct Ho as [E Ho].
          assert (Hp : (k - 1) / 2 < level_offset (S d)) by (pose proof (off_S (S d)); pose proof (off_S d); apply Nat.div_lt_upper_bound; lia).
          split; [|apply IHd; auto; lia].
          rewrite levels_S, step_eq in E. cbv zeta in E. cbn [l_leaf] in E. rewrite set_level_out in E; auto. left.
          eapply Nat.lt_le_trans; [exact Hp|]. apply off_mono. lia. }
        apply G; lia. }
      destruct (Ok i' Hi' OpL) as [LenP OkP]. destruct OkL as [LenL OkL].
      split; [unfold node_sub; rewrite map_length, combine_length; lia|]. intros f Hf.
      destruct (OkP f Hf) as [LPf OkPf]. destruct (OkL f Hf) as [LLf OkLf].
      assert (En : nth f (node_sub (nth i' (H L) []) (nth i' left [])) [] = hist_sub (nth f (nth i' (H L) []) []) (nth f (nth i' left []) [])).
      { unfold node_sub. rewrite nth_map2 with (da := []) (db := []) by lia. reflexivity. }
      rewrite En. split; [unfold hist_sub; rewrite map_length, combine_length; lia|]. intros b Hb.
      unfold hist_sub. rewrite nth_map2 with (da := gzero) (db := gzero) by lia. cbn [fst snd]. rewrite OkPf, OkLf by exact Hb.
      rewrite (sum_where_split qs (fun j => (nth j (l_bt (lev L)) 0 =? level_offset L + i') && (nth j (idx_column P f) 0 <=? b))
                (fun j => nth j (l_bt (lev (S L))) 0 =? level_offset (S L) + 2 * i')).
      rewrite (sum_where_ext qs (fun j => (nth j (l_bt (lev (S L))) 0 =? level_offset (S L) + 2 * i') && (nth j (idx_column P f) 0 <=? b))
         (fun j => (nth j (l_bt (lev L)) 0 =? level_offset L + i') && (nth j (idx_column P f) 0 <=? b) && (nth j (l_bt (lev (S L))) 0 =? level_offset (S L) + 2 * i'))).
      2:{ intros j Hj. unfold qs in Hj. rewrite qs_len in Hj. destruct (child_samples L i' j ltac:(lia) Hi' Hj El) as [_ C].
          destruct (nth j (l_bt (lev (S L))) 0 =? level_offset (S L) + 2 * i'); [rewrite (C eq_refl)|]; rewrite ?andb_true_r, ?andb_false_r; reflexivity. }
      rewrite gsub_add. erewrite sum_where_ext; [reflexivity|]. intros j Hj. cbv beta. unfold qs in Hj. rewrite qs_len in Hj.
      destruct (child_samples L i' j ltac:(lia) Hi' Hj El) as [C _]. replace (level_offset (S L) + (2 * i' + 1)) with (level_offset (S L) + 2 * i' + 1) by lia. rewrite C.
      rewrite <- !andb_assoc. f_equal. apply andb_comm.
Qed.
End Sub.

(** ** what the split search reads from a cumulative histogram *)
Lemma weighted_ext ghs w w' : (forall j, j < length ghs -> w j = w' j) -> weighted_sum ghs w = weighted_sum ghs w'.
Proof. intros E. unfold weighted_sum. f_equal. apply map_ext_in. intros j Hj. apply in_seq in Hj. now rewrite E by lia. Qed.
Lemma weighted_step ghs w (A : nat -> bool) :
  gh_eq (gadd (weighted_sum ghs w) (sum_where ghs A)) (weighted_sum ghs (fun j => w j + if A j then 1 else 0)).
Proof.
  unfold weighted_sum, sum_where. induction (seq 0 (length ghs)) as [|j l IH]; [cbn; split; cbn; ring|].
  cbn [filter map]. rewrite !gsum_cons. destruct (A j).
  - cbn [map]. rewrite gsum_cons, <- IH. rewrite Nat2Z.inj_add, inject_Z_plus. destruct (nth j ghs gzero) as [g h]; split; cbn [fst snd gadd]; ring.
  - rewrite <- IH. rewrite Nat.add_0_r. symmetry. etransitivity; [|symmetry; apply gadd_assoc || reflexivity]. apply gadd_assoc.
Qed.
Lemma weighted_0 ghs : gh_eq (weighted_sum ghs (fun _ => 0)) gzero.
Proof.
  unfold weighted_sum. induction (seq 0 (length ghs)) as [|j l IH]; [split; reflexivity|]. cbn [map]. rewrite gsum_cons, IH. split; cbn; ring.
Qed.

Section Twice.
Variables (ghs : list gh) (A : nat -> bool) (bin : nat -> nat) (h : list gh) (nb : nat).
Hypothesis Lh : length h = nb.
Hypothesis Hh : forall b, b < nb -> gh_eq (nth b h gzero) (sum_where ghs (fun j => A j && (bin j <=? b))).

Lemma twice_prefix n : n <= nb -> gh_eq (gsum (firstn n h)) (weighted_sum ghs (fun j => if A j then n - bin j else 0)).
Proof.
  induction n as [|n IH]; intros Hn.
  - cbn [firstn gsum fold_right]. rewrite (weighted_ext ghs _ (fun _ => 0)) by (intros j _; destruct (A j); lia). symmetry. apply weighted_0.
  - assert (X : firstn (S n) h = firstn n h ++ [nth n h gzero]).
    { clear - Lh Hn. revert h nb Lh Hn. induction n as [|n IHn]; intros [|x h] nb L Hn; cbn in L; try lia; [reflexivity|].
      change (firstn (S (S n)) (x :: h)) with (x :: firstn (S n) h). change (firstn (S n) (x :: h)) with (x :: firstn n h). cbn [nth app].
      f_equal. apply (IHn h (nb - 1)); lia. }
    rewrite X, gsum_app, IH by lia. rewrite gsum_cons. cbn [gsum fold_right]. rewrite gadd_0_r, Hh by lia. rewrite weighted_step.
    rewrite (weighted_ext ghs (fun j => (if A j then n - bin j else 0) + (if A j && (bin j <=? n) then 1 else 0)) (fun j => if A j then S n - bin j else 0)); [reflexivity|].
    intros j _. destruct (A j); cbn [andb]; auto. destruct (Nat.leb_spec (bin j) n); lia.
Qed.

Lemma twice_gain p t : t < nb - 1 -> gain_eq (nth t (gains_of p h) None) (repeated_gain p ghs A bin nb t).
Proof.
  intros Ht. rewrite gains_of_nth by lia. unfold repeated_gain. cbv zeta.
  set (l := weighted_sum ghs (fun j => if A j then t + 1 - bin j else 0)). set (a := weighted_sum ghs (fun j => if A j then nb - bin j else 0)).
  change (gain_eq (gain_from p (gsum h) (nth t (cumsum h) gzero)) (gain_from p a l)). apply gain_from_proper.
  - rewrite <- (firstn_all h), Lh. now apply twice_prefix.
  - unfold cumsum. rewrite cumsum_from_nth by lia. rewrite gadd_0_l. rewrite twice_prefix by lia. unfold l. now replace (S t) with (t + 1) by lia.
Qed.
End Twice.
