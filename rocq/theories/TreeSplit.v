(** Histograms, gains and the choice of splits. *)
From Coq Require Import List ZArith QArith Bool Arith Lia Setoid Morphisms.
From Verif Require Import MPCBase BFVModel SGBModel TreeModel TreeSpec TreeProofs TreePredict.
Import ListNotations.
Local Open Scope nat_scope.

(** ** sums *)
Lemma gh_eq_refl x : gh_eq x x. Proof. split; reflexivity. Qed.
Lemma gh_eq_sym x y : gh_eq x y -> gh_eq y x. Proof. intros [A B]; split; now symmetry. Qed.
Lemma gh_eq_trans x y z : gh_eq x y -> gh_eq y z -> gh_eq x z. Proof. intros [A B] [C D]; split; etransitivity; eauto. Qed.
#[export] Instance gh_eq_equiv : Equivalence gh_eq. Proof. split; [exact gh_eq_refl|exact gh_eq_sym|exact gh_eq_trans]. Qed.
#[export] Instance gadd_proper : Proper (gh_eq ==> gh_eq ==> gh_eq) gadd.
Proof. intros x x' [A B] y y' [C D]. split; cbn; [now rewrite A, C|now rewrite B, D]. Qed.
#[export] Instance gsub_proper : Proper (gh_eq ==> gh_eq ==> gh_eq) gsub.
Proof. intros x x' [A B] y y' [C D]. split; cbn; [now rewrite A, C|now rewrite B, D]. Qed.
#[export] Instance fst_proper : Proper (gh_eq ==> Qeq) (@fst Q Q). Proof. intros x y [A B]; exact A. Qed.
#[export] Instance snd_proper : Proper (gh_eq ==> Qeq) (@snd Q Q). Proof. intros x y [A B]; exact B. Qed.

Lemma gadd_0_l x : gh_eq (gadd gzero x) x. Proof. split; cbn; ring. Qed.
Lemma gadd_0_r x : gh_eq (gadd x gzero) x. Proof. split; cbn; ring. Qed.
Lemma gadd_assoc x y z : gh_eq (gadd x (gadd y z)) (gadd (gadd x y) z). Proof. split; cbn; ring. Qed.
Lemma gadd_comm x y : gh_eq (gadd x y) (gadd y x). Proof. split; cbn; ring. Qed.
Lemma gsub_add x y : gh_eq (gsub (gadd x y) x) y. Proof. split; cbn; ring. Qed.

Lemma gsum_app l l' : gh_eq (gsum (l ++ l')) (gadd (gsum l) (gsum l')).
Proof.
  induction l as [|x l IH]; cbn [app gsum fold_right]; [symmetry; apply gadd_0_l|].
  change (fold_right gadd gzero (l ++ l')) with (gsum (l ++ l')). rewrite IH. apply gadd_assoc.
Qed.
Lemma gsum_cons x l : gsum (x :: l) = gadd x (gsum l). Proof. reflexivity. Qed.

Lemma sum_where_ext ghs P Q' : (forall j, j < length ghs -> P j = Q' j) -> sum_where ghs P = sum_where ghs Q'.
Proof.
  intros H. unfold sum_where. f_equal. f_equal. apply filter_ext_in. intros j Hj. apply in_seq in Hj. apply H. lia.
Qed.
Lemma sum_where_split ghs P Q' : gh_eq (sum_where ghs P) (gadd (sum_where ghs (fun j => P j && Q' j)) (sum_where ghs (fun j => P j && negb (Q' j)))).
Proof.
  unfold sum_where. induction (seq 0 (length ghs)) as [|j l IH]; [cbn; split; cbn; ring|].
  cbn [filter]. destruct (P j); cbn [andb]; [|exact IH].
  destruct (Q' j); cbn [negb map]; rewrite !gsum_cons, IH.
  - apply gadd_assoc.
  - rewrite gadd_assoc. rewrite (gadd_comm (nth j ghs gzero)). symmetry. apply gadd_assoc.
Qed.
Lemma sum_where_false ghs : sum_where ghs (fun _ => false) = gzero.
Proof. unfold sum_where. induction (seq 0 (length ghs)); auto. Qed.

Lemma filter_combine {A B} (P : A -> bool) (da : A) (db : B) : forall l1 l2, length l1 = length l2 ->
  map snd (filter (fun q => P (fst q)) (combine l1 l2)) =
  map (fun j => nth j l2 db) (filter (fun j => P (nth j l1 da)) (seq 0 (length l2))).
Proof.
  induction l1 as [|a l1 IH]; intros [|b l2] L; cbn in L; try discriminate; auto.
  cbn [combine filter length seq nth fst]. rewrite <- seq_shift.
  assert (X : forall l, map (fun j => nth j (b :: l2) db) (filter (fun j => P (nth j (a :: l1) da)) (map S l)) =
              map (fun j => nth j l2 db) (filter (fun j => P (nth j l1 da)) l)).
  { clear. induction l as [|k l IHl]; auto. cbn [map filter]. change (nth (S k) (a :: l1) da) with (nth k l1 da).
    destruct (P (nth k l1 da)); cbn [map]; [|exact IHl]. f_equal. exact IHl. }
  destruct (P a); cbn [map snd]; rewrite X; [f_equal|]; apply IH; lia.
Qed.

Lemma segment_sum_nth num ids ghs s : length ids = length ghs -> s < num ->
  nth s (segment_sum num ids ghs) gzero = sum_where ghs (fun j => (nth j ids (-1) =? Z.of_nat s)%Z).
Proof. intros L H. unfold segment_sum. rewrite tab_nth by exact H. unfold sum_where. f_equal. now apply (filter_combine (fun z => (z =? Z.of_nat s)%Z)). Qed.

(** ** histograms of the active party *)
Lemma nth_map2 {A B C} (f : A * B -> C) (la : list A) (lb : list B) da db dc j : length la = length lb -> j < length la ->
  nth j (map f (combine la lb)) dc = f (nth j la da, nth j lb db).
Proof.
  intros L H. rewrite map_nth_lt with (d' := (da, db)) by (rewrite combine_length; lia). now rewrite combine_nth by exact L.
Qed.

Lemma firstn_skipn_nth {A} (d : A) n s l b : b < n -> nth b (firstn n (skipn s l)) d = nth (s + b) l d.
Proof.
  revert l b. assert (F : forall l b, b < n -> nth b (firstn n l) d = nth b l d).
  { induction n as [|n IH]; intros l b H; [lia|]. destruct l, b; cbn; auto. apply IH. lia. }
  intros l b H. rewrite F by exact H. clear F H. revert l. induction s as [|s IH]; intros l; cbn; auto. destruct l; cbn; [now destruct b|apply IH].
Qed.

Section Ap.
Variables (nb level : nat) (ghs : list gh) (bt : list nat) (bins : list nat).
Hypothesis Lb : length bt = length ghs.
Hypothesis Li : length bins = length ghs.
Hypothesis Bd : forall j, j < length ghs -> nth j bins 0 < nb.

Definition at_node (node j : nat) : bool := nth j bt 0 =? level_offset level + node.
Definition node_hist (node : nat) : list gh := firstn nb (skipn (node * nb) (local_hist (2 ^ level) nb ghs (bt_level level bt) bins)).

Lemma bt_level_nth j d : j < length bt -> nth j (bt_level level bt) d = (Z.of_nat (nth j bt 0%nat) - Z.of_nat (level_offset level))%Z.
Proof. intros H. unfold bt_level. now rewrite map_nth_lt with (d' := 0). Qed.
Lemma bt_level_len : length (bt_level level bt) = length ghs.
Proof. unfold bt_level. now rewrite map_length. Qed.

Lemma node_hist_len node : node < 2 ^ level -> length (node_hist node) = nb.
Proof.
  intros H. unfold node_hist. rewrite firstn_length, skipn_length. unfold local_hist, segment_sum. rewrite tab_length.
  assert (node * nb + nb <= 2 ^ level * nb) by nia. lia.
Qed.

Lemma node_hist_nth node b : node < 2 ^ level -> b < nb ->
  nth b (node_hist node) gzero = sum_where ghs (fun j => at_node node j && (nth j bins 0 =? b)).
Proof.
  intros Hn Hb. unfold node_hist. rewrite firstn_skipn_nth by exact Hb. unfold local_hist. cbv zeta.
  rewrite segment_sum_nth; [|rewrite !map_length, !combine_length, bt_level_len, Li; lia|nia].
  unfold sum_where. rewrite map_length, combine_length, bt_level_len, Nat.min_id.
  assert (C : forall j, j < length ghs -> (nth j (map (fun p => (fst p * Z.of_nat nb + Z.of_nat (snd p))%Z) (combine (bt_level level bt) bins)) (-1) =? Z.of_nat (node * nb + b))%Z
     = at_node node j && (nth j bins 0 =? b)).
  { intros j Hj. rewrite nth_map2 with (da := 0%Z) (db := 0) by (rewrite bt_level_len; auto; lia). cbn [fst snd].
    rewrite bt_level_nth by lia. unfold at_node. specialize (Bd j Hj).
    set (v := nth j bt 0) in *. set (c := nth j bins 0) in *. destruct (Nat.eqb_spec v (level_offset level + node)) as [E|E]; cbn [andb].
    - destruct (Nat.eqb_spec c b); [apply Z.eqb_eq|apply Z.eqb_neq]; nia.
    - apply Z.eqb_neq. intros X. assert (Z.of_nat v - Z.of_nat (level_offset level) = Z.of_nat node)%Z by nia. lia. }
  f_equal.
  erewrite filter_ext_in; [|intros j Hj; apply in_seq in Hj; apply C; lia].
  apply map_ext_in. intros j Hj. apply filter_In in Hj. destruct Hj as [Hj E]. apply in_seq in Hj.
  rewrite nth_map2 with (da := gzero) (db := 0%Z) by (rewrite ?bt_level_len; auto; lia). cbn [fst snd].
  rewrite bt_level_nth by lia. apply andb_true_iff in E. destruct E as [E _]. apply Nat.eqb_eq in E. rewrite E.
  now replace (0 <=? _)%Z with true by (symmetry; apply Z.leb_le; lia).
Qed.
End Ap.

(** ** cumulative sums and gains *)
Lemma cumsum_from_len l : forall acc, length (cumsum_from acc l) = length l.
Proof. induction l; intros; cbn; auto. Qed.
Lemma cumsum_from_nth l : forall acc t, t < length l ->
  gh_eq (nth t (cumsum_from acc l) gzero) (gadd acc (gsum (firstn (S t) l))).
Proof.
  induction l as [|x l IH]; intros acc t H; [cbn in H; lia|]. cbn [cumsum_from]. destruct t as [|t].
  - cbn [nth firstn]. rewrite gsum_cons. cbn [gsum fold_right]. now rewrite gadd_0_r.
  - cbn [nth]. rewrite IH by (cbn in H; lia). change (firstn (S (S t)) (x :: l)) with (x :: firstn (S t) l).
    rewrite gsum_cons. symmetry. apply gadd_assoc.
Qed.
Lemma removelast_nth {A} (d : A) l : forall t, t < length l - 1 -> nth t (removelast l) d = nth t l d.
Proof.
  induction l as [|x l IH]; intros t H; [cbn in H; lia|]. destruct l as [|y l]; [cbn in H; lia|].
  change (removelast (x :: y :: l)) with (x :: removelast (y :: l)). destruct t; auto. cbn [nth]. apply IH. cbn in *. lia.
Qed.
Lemma removelast_len {A} (l : list A) : length (removelast l) = length l - 1.
Proof. induction l as [|x [|y l] IH]; auto. change (removelast (x :: y :: l)) with (x :: removelast (y :: l)). cbn [length] in *. lia. Qed.

Definition gain_from (p : params) (total l : gh) : option Q :=
  let r := gsub total l in
  if Qle_bool (min_child_weight p) (snd l) && Qle_bool (min_child_weight p) (snd r)
  then Some ((score p l + score p r - score p total) / 2 - gamma p)%Q else None.
Lemma gains_of_len p h : length (gains_of p h) = length h - 1.
Proof. unfold gains_of. rewrite map_length, removelast_len. unfold cumsum. now rewrite cumsum_from_len. Qed.
Lemma gains_of_nth p h t : t < length h - 1 -> nth t (gains_of p h) None = gain_from p (gsum h) (nth t (cumsum h) gzero).
Proof.
  intros H. unfold gains_of. rewrite map_nth_lt with (d' := gzero) by (rewrite removelast_len; unfold cumsum; now rewrite cumsum_from_len).
  rewrite removelast_nth by (unfold cumsum; now rewrite cumsum_from_len). reflexivity.
Qed.

#[export] Instance score_proper p : Proper (gh_eq ==> Qeq) (score p).
Proof. intros x y E. unfold score. now rewrite E. Qed.
Lemma gain_from_proper p t t' l l' : gh_eq t t' -> gh_eq l l' -> gain_eq (gain_from p t l) (gain_from p t' l').
Proof.
  intros A B. unfold gain_from. cbv zeta.
  assert (C : gh_eq (gsub t l) (gsub t' l')) by now rewrite A, B.
  rewrite (Qleb_comp _ _ (Qeq_refl (min_child_weight p)) _ _ (snd_proper _ _ B)), (Qleb_comp _ _ (Qeq_refl (min_child_weight p)) _ _ (snd_proper _ _ C)).
  destruct (_ && _); cbn; auto. now rewrite A, B.
Qed.

(** prefix sums of a histogram are the sums over the samples of the lower buckets *)
Lemma hist_prefix ghs (A : nat -> bool) (bin : nat -> nat) (h : list gh) nb : length h = nb ->
  (forall b, b < nb -> gh_eq (nth b h gzero) (sum_where ghs (fun j => A j && (bin j =? b)))) ->
  forall t, t < nb -> gh_eq (gsum (firstn (S t) h)) (sum_where ghs (fun j => A j && (bin j <=? t))).
Proof.
  intros L H. induction t as [|t IH]; intros Ht.
  - destruct h as [|x h]; [cbn in L; lia|]. cbn [firstn]. rewrite gsum_cons. cbn [gsum fold_right]. rewrite gadd_0_r.
    specialize (H 0 Ht). cbn [nth] in H. rewrite H. erewrite sum_where_ext; [reflexivity|]. intros j _. cbn. f_equal. destruct (bin j); reflexivity.
  - assert (X : firstn (S (S t)) h = firstn (S t) h ++ [nth (S t) h gzero]).
    { clear - L Ht. revert h L Ht. generalize (S t) as k. induction k as [|k IHk] in nb |- *; intros [|x h] L Ht; cbn in L; try lia; [reflexivity|].
      change (firstn (S (S k)) (x :: h)) with (x :: firstn (S k) h). change (firstn (S k) (x :: h)) with (x :: firstn k h). cbn [nth app].
      f_equal. apply (IHk (nb - 1)); lia. }
    rewrite X, gsum_app, IH by lia. rewrite gsum_cons. cbn [gsum fold_right]. rewrite gadd_0_r, H by exact Ht.
    rewrite (sum_where_split ghs (fun j => A j && (bin j <=? S t)) (fun j => bin j <=? t)).
    erewrite sum_where_ext with (P := fun j => A j && (bin j <=? t)); [|intros j _; cbv beta; instantiate (1 := fun j => A j && (bin j <=? S t) && (bin j <=? t)); cbv beta; destruct (A j); cbn [andb]; auto; destruct (Nat.leb_spec (bin j) t), (Nat.leb_spec (bin j) (S t)); auto; lia].
    erewrite sum_where_ext with (P := fun j => A j && (bin j =? S t)); [reflexivity|]. intros j _. cbv beta. destruct (A j); cbn [andb]; auto.
    destruct (Nat.leb_spec (bin j) t), (Nat.leb_spec (bin j) (S t)), (Nat.eqb_spec (bin j) (S t)); auto; lia.
Qed.
Lemma hist_total ghs (A : nat -> bool) (bin : nat -> nat) (h : list gh) nb : 0 < nb -> length h = nb ->
  (forall j, j < length ghs -> bin j < nb) ->
  (forall b, b < nb -> gh_eq (nth b h gzero) (sum_where ghs (fun j => A j && (bin j =? b)))) ->
  gh_eq (gsum h) (sum_where ghs A).
Proof.
  intros P L Bd H. rewrite <- (firstn_all h). rewrite L. replace nb with (S (nb - 1)) by lia.
  rewrite (hist_prefix ghs A bin h nb L H (nb - 1)) by lia. erewrite sum_where_ext; [reflexivity|].
  intros j Hj. cbv beta. specialize (Bd j Hj). replace (bin j <=? nb - 1) with true by (symmetry; apply Nat.leb_le; lia). apply andb_true_r.
Qed.

Lemma gain_eq_trans a b c : gain_eq a b -> gain_eq b c -> gain_eq a c.
Proof. destruct a, b, c; cbn; try tauto. intros. etransitivity; eauto. Qed.

(** the gain computed from a histogram is the gain of the samples' split *)
Lemma gains_spec p ghs (A : nat -> bool) (bin : nat -> nat) (h : list gh) nb : length h = nb ->
  (forall j, j < length ghs -> bin j < nb) ->
  (forall b, b < nb -> nth b h gzero = sum_where ghs (fun j => A j && (bin j =? b))) ->
  forall t, t < nb - 1 -> gain_eq (nth t (gains_of p h) None) (split_gain p ghs A (fun j => bin j <=? t)).
Proof.
  intros L Bd H t Ht. rewrite gains_of_nth by lia. unfold split_gain. change (reg_score p) with (score p).
  set (l := sum_where ghs (fun j => A j && (bin j <=? t))). set (r := sum_where ghs (fun j => A j && negb (bin j <=? t))).
  set (a := sum_where ghs A).
  assert (El : gh_eq (nth t (cumsum h) gzero) l).
  { unfold cumsum. rewrite cumsum_from_nth by lia. rewrite gadd_0_l. apply (hist_prefix ghs A bin h nb); auto; try lia. intros b Hb. rewrite H by exact Hb. reflexivity. }
  assert (Et : gh_eq (gsum h) a) by (apply (hist_total ghs A bin h nb); auto; [lia|intros b Hb; rewrite H by exact Hb; reflexivity]).
  assert (Er : gh_eq (gsub a l) r) by (unfold a; rewrite (sum_where_split ghs A (fun j => bin j <=? t)); apply gsub_add).
  pose proof (gain_from_proper p _ _ _ _ Et El) as G.
  assert (G' : gain_eq (gain_from p a l) (if Qle_bool (min_child_weight p) (snd l) && Qle_bool (min_child_weight p) (snd r)
      then Some ((score p l + score p r - score p a) / 2 - gamma p)%Q else None)).
  { unfold gain_from. cbv zeta. rewrite (Qleb_comp _ _ (Qeq_refl (min_child_weight p)) _ _ (snd_proper _ _ Er)).
    destruct (_ && _); cbn; auto. now rewrite Er. }
  exact (gain_eq_trans _ _ _ G G').
Qed.

(** ** choosing *)
Lemma concat_len {A} n : forall (ls : list (list A)), Forall (fun l => length l = n) ls -> length (concat ls) = length ls * n.
Proof. induction 1; cbn; auto. rewrite app_length. lia. Qed.
Lemma concat_nth_u {A} (d : A) n : 0 < n -> forall (ls : list (list A)), Forall (fun l => length l = n) ls -> forall i, nth i (concat ls) d = nth (i mod n) (nth (i / n) ls []) d.
Proof.
  intros P. induction 1 as [|l ls E F IH]; intros i; cbn [concat].
  - now destruct i, (_ / n), (_ mod n).
  - destruct (Nat.lt_ge_cases i n) as [H|H].
    + rewrite app_nth1 by lia. now rewrite Nat.div_small, Nat.mod_small by lia.
    + rewrite app_nth2 by lia. rewrite IH, E. replace i with (i - n + 1 * n) at 3 4 by lia. rewrite Nat.div_add, Nat.mod_add by lia.
      now replace ((i - n) / n + 1) with (S ((i - n) / n)) by lia.
Qed.

Lemma best_split_spec p nb hs : 1 < nb -> Forall (fun h => length h = nb) hs ->
  let s := best_split p nb hs in
  s_thr s < nb - 1 /\
  nth (s_thr s) (gains_of p (nth (s_feat s) hs [])) None = s_gain s /\
  (s_gain s <> None -> s_feat s < length hs) /\ (hs <> [] -> s_feat s < length hs) /\
  forall f t, f < length hs -> t < nb - 1 -> gain_lt (s_gain s) (nth t (gains_of p (nth f hs [])) None) = false.
Proof.
  intros P F. unfold best_split. destruct (argmax (concat (map (gains_of p) hs))) as [i g] eqn:E. cbn [s_thr s_feat s_gain].
  pose proof (argmax_spec (concat (map (gains_of p) hs))) as [M V]. rewrite E in M, V. cbn [fst snd] in M, V.
  assert (F' : Forall (fun l => length l = nb - 1) (map (gains_of p) hs)).
  { apply Forall_map. eapply Forall_impl; [|exact F]. intros h Eh. cbv beta. now rewrite gains_of_len, Eh. }
  assert (Nm : forall f, nth f (map (gains_of p) hs) [] = gains_of p (nth f hs [])) by (intros f; now rewrite <- (map_nth (gains_of p))).
  split; [apply Nat.mod_upper_bound; lia|]. rewrite concat_nth_u with (n := nb - 1) in V by (auto; lia). rewrite Nm in V. split; auto.
  assert (R : s_feat (Split g (i / (nb - 1)) (i mod (nb - 1))) < length hs \/ length hs <= i / (nb - 1)) by (cbn; lia). cbn in R.
  split; [|split].
  - intros N. destruct R as [R|R]; auto. exfalso. apply N. rewrite <- V. rewrite (nth_overflow hs) by exact R. cbn. now destruct (_ mod _).
  - intros Nh. destruct hs as [|h hs]; [congruence|]. pose proof (argmax_lt (concat (map (gains_of p) (h :: hs)))) as X. rewrite E in X. cbn [fst] in X.
    rewrite (concat_len (nb - 1)) in X by exact F'. rewrite map_length in X. apply Nat.div_lt_upper_bound; [lia|].
    rewrite Nat.mul_comm. apply X. intros C. apply (f_equal (@length _)) in C. rewrite (concat_len (nb - 1)) in C by exact F'. rewrite map_length in C. cbn [length] in C. nia.
  - intros f t Hf Ht. specialize (M (f * (nb - 1) + t)). rewrite (concat_len (nb - 1)) in M by exact F'. rewrite map_length in M.
    specialize (M ltac:(nia)). rewrite concat_nth_u with (n := nb - 1) in M by (auto; lia).
    replace ((f * (nb - 1) + t) / (nb - 1)) with f in M by (rewrite Nat.add_comm, Nat.div_add by lia; rewrite Nat.div_small by lia; lia).
    replace ((f * (nb - 1) + t) mod (nb - 1)) with t in M by (rewrite Nat.add_comm, Nat.mod_add by lia; rewrite Nat.mod_small by lia; lia).
    now rewrite Nm in M.
Qed.
