(** Federated prediction equals plain traversal. *)
From Coq Require Import List ZArith QArith Bool Arith Lia.
From Verif Require Import MPCBase BFVModel SGBModel TreeModel TreeSpec TreeProofs.
Import ListNotations.
Local Open Scope nat_scope.

Lemma add_at_len k v l : length (add_at k v l) = length l. Proof. apply tab_length. Qed.
Lemma set_at_len k v l : length (set_at k v l) = length l. Proof. apply tab_length. Qed.
Lemma add_at_nth k v l i : i < length l -> nth i (add_at k v l) 0 = if i =? k then nth i l 0 + v else nth i l 0.
Proof. intros H. unfold add_at. now rewrite tab_nth. Qed.
Lemma set_at_nth k v l i : i < length l -> nth i (set_at k v l) 0 = if i =? k then v else nth i l 0.
Proof. intros H. unfold set_at. now rewrite tab_nth. Qed.

Section Pred.
Variables (t : tree) (rows : list (list Q)) (depth : nat).
Let n := 2 ^ (depth + 1) - 1.
Let leaf k := nth k (t_leaf t) false.
Let own k := nth k (t_own t) (-1)%Z.

Definition left_of (pid k : nat) : bool :=
  le_x (jget 0%Q (nth pid rows []) (nth k (nth pid (t_feat t) []) (-1)%Z)) (nth k (nth pid (t_thr t) []) None).

(** the nodes party [pid] cannot exclude *)
Inductive may (pid : nat) : nat -> Prop :=
| may_root : may pid 0
| may_left k : may pid k -> leaf k = false -> (own k = Z.of_nat pid -> left_of pid k = true) -> may pid (2 * k + 1)
| may_right k : may pid k -> leaf k = false -> (own k = Z.of_nat pid -> left_of pid k = false) -> may pid (2 * k + 2).

Lemma may_inv pid k : may pid k -> k = 0 \/ exists q, may pid q /\ leaf q = false /\
  ((k = 2 * q + 1 /\ (own q = Z.of_nat pid -> left_of pid q = true)) \/
   (k = 2 * q + 2 /\ (own q = Z.of_nat pid -> left_of pid q = false))).
Proof. destruct 1; [now left|right; exists k; auto 6|right; exists k; auto 6]. Qed.

Lemma parent_l q : (2 * q + 1 - 1) / 2 = q. Proof. replace (2 * q + 1 - 1) with (q * 2) by lia. apply Nat.div_mul. lia. Qed.
Lemma parent_r q : (2 * q + 2 - 1) / 2 = q.
Proof. replace (2 * q + 2 - 1) with (1 + q * 2) by lia. rewrite Nat.div_add by lia. reflexivity. Qed.
Lemma parent_of k : 0 < k -> k = 2 * ((k - 1) / 2) + 1 \/ k = 2 * ((k - 1) / 2) + 2.
Proof. intros H. pose proof (Nat.div_mod (k - 1) 2 ltac:(lia)). pose proof (Nat.mod_upper_bound (k - 1) 2 ltac:(lia)). lia. Qed.

Lemma may_l pid q : may pid (2 * q + 1) <-> may pid q /\ leaf q = false /\ (own q = Z.of_nat pid -> left_of pid q = true).
Proof.
  split; [|intros (A & B & C); now constructor]. intros H. apply may_inv in H. destruct H as [H|(q' & A & B & [[E C]|[E C]])]; try lia.
  replace q with q' by lia. auto.
Qed.
Lemma may_r pid q : may pid (2 * q + 2) <-> may pid q /\ leaf q = false /\ (own q = Z.of_nat pid -> left_of pid q = false).
Proof.
  split; [|intros (A & B & C); now constructor]. intros H. apply may_inv in H. destruct H as [H|(q' & A & B & [[E C]|[E C]])]; try lia.
  replace q with q' by lia. auto.
Qed.

Lemma n_half : n / 2 = 2 ^ depth - 1.
Proof.
  unfold n. rewrite Nat.pow_add_r. cbn [Nat.pow]. pose proof (pow2_pos depth).
  replace (2 ^ depth * (2 * 1) - 1) with (1 + (2 ^ depth - 1) * 2) by lia. rewrite Nat.div_add by lia. reflexivity.
Qed.
Lemma n_eq : n = 2 * (2 ^ depth - 1) + 1.
Proof. unfold n. rewrite Nat.pow_add_r. cbn [Nat.pow]. pose proof (pow2_pos depth). lia. Qed.

Definition prop_inv (pid I : nat) (locs : list nat) : Prop :=
  length locs = n /\ forall k, k < n -> (0 < nth k locs 0 <-> may pid k /\ (k < I -> leaf k = true) /\ (0 < k -> (k - 1) / 2 < I)).

Lemma propagate_inv pid I locs : I < 2 ^ depth - 1 -> prop_inv pid I locs ->
  prop_inv pid (S I) (propagate pid (nth pid rows []) (nth pid (t_feat t) []) (nth pid (t_thr t) []) (t_leaf t) (t_own t) I locs).
Proof.
  intros HI [L H]. pose proof n_eq as En.
  assert (Hh : 0 < nth I locs 0 <-> may pid I).
  { rewrite (H I) by lia. split; [tauto|]. intros M. split; auto. split; [lia|]. intros P. destruct (parent_of I P); lia. }
  assert (Z1 : nth (2 * I + 1) locs 0 = 0).
  { destruct (nth (2 * I + 1) locs 0) eqn:E; auto. exfalso. destruct (H (2 * I + 1)) as [H1 _]; [lia|]. rewrite E in H1.
    destruct (H1 ltac:(lia)) as (_ & _ & X). rewrite parent_l in X. lia. }
  assert (Z2 : nth (2 * I + 2) locs 0 = 0).
  { destruct (nth (2 * I + 2) locs 0) eqn:E; auto. exfalso. destruct (H (2 * I + 2)) as [H1 _]; [lia|]. rewrite E in H1.
    destruct (H1 ltac:(lia)) as (_ & _ & X). rewrite parent_r in X. lia. }
  assert (Other : forall k, k < n -> k <> I -> k <> 2 * I + 1 -> k <> 2 * I + 2 ->
     (0 < nth k locs 0 <-> may pid k /\ (k < S I -> leaf k = true) /\ (0 < k -> (k - 1) / 2 < S I))).
  { intros k Hk N0 N1 N2. rewrite (H k Hk). split; intros (A & B & C); split; auto; split; intros X.
    - apply B. lia.
    - specialize (C X). lia.
    - apply B. lia.
    - specialize (C X). destruct (parent_of k X); [|]; lia. }
  unfold propagate. fold (leaf I). fold (own I). fold (left_of pid I).
  destruct (leaf I) eqn:Ll; cbn [negb andb].
  - (* a leaf *)
    split; auto. intros k Hk. destruct (Nat.eq_dec k I) as [->|N0].
    + rewrite Hh. split; [|tauto]. intros M. repeat split; auto. intros P. destruct (parent_of I P); lia.
    + destruct (Nat.eq_dec k (2 * I + 1)) as [->|N1]; [rewrite Z1, may_l; split; [lia|intros ((_ & X & _) & _); congruence]|].
      destruct (Nat.eq_dec k (2 * I + 2)) as [->|N2]; [rewrite Z2, may_r; split; [lia|intros ((_ & X & _) & _); congruence]|]. now apply Other.
  - assert (Fin : forall l1 l2 v1 v2, l1 = add_at (2 * I + 1) v1 locs -> l2 = add_at (2 * I + 2) v2 l1 ->
       (0 < v1 <-> may pid (2 * I + 1)) -> (0 < v2 <-> may pid (2 * I + 2)) -> prop_inv pid (S I) (set_at I 0 l2)).
    { intros l1 l2 v1 v2 -> -> V1 V2. split; [now rewrite set_at_len, !add_at_len|]. intros k Hk.
      rewrite set_at_nth, !add_at_nth by (rewrite ?add_at_len; lia).
      destruct (Nat.eqb_spec k I) as [->|N0]; [split; [lia|intros (_ & X & _); rewrite X in Ll by lia; discriminate]|].
      destruct (Nat.eqb_spec k (2 * I + 2)) as [->|N2].
      - replace (2 * I + 2 =? 2 * I + 1) with false by (symmetry; apply Nat.eqb_neq; lia). rewrite Z2, Nat.add_0_l, V2, parent_r.
        split; [intros; split; auto; split; lia|tauto].
      - destruct (Nat.eqb_spec k (2 * I + 1)) as [->|N1]; [|now apply Other]. rewrite Z1, Nat.add_0_l, V1, parent_l.
        split; [intros; split; auto; split; lia|tauto]. }
    destruct (Z.eqb_spec (own I) (Z.of_nat pid)) as [Eo|Eo].
    + eapply Fin; [reflexivity|reflexivity| |].
      * rewrite may_l. destruct (left_of pid I) eqn:G; [rewrite Hh; split; [intros; repeat split; auto|tauto]|].
        split; [lia|]. intros (_ & _ & X). now specialize (X Eo).
      * rewrite may_r. destruct (left_of pid I) eqn:G; [split; [lia|intros (_ & _ & X); now specialize (X Eo)]|].
        rewrite Hh. split; [intros; repeat split; auto|tauto].
    + eapply Fin; [reflexivity|reflexivity| |]; rewrite ?may_l, ?may_r, Hh; (split; [intros; repeat split; auto; intros; contradiction|tauto]).
Qed.

Lemma locations_spec pid : prop_inv pid (2 ^ depth - 1) (locations pid (nth pid rows []) t n).
Proof.
  unfold locations. rewrite n_half.
  assert (X : forall I, I <= 2 ^ depth - 1 -> prop_inv pid I (fold_left (fun locs i =>
     propagate pid (nth pid rows []) (nth pid (t_feat t) []) (nth pid (t_thr t) []) (t_leaf t) (t_own t) i locs) (seq 0 I) (tab n (fun i => if i =? 0 then 1 else 0)))).
  { induction I as [|I IH]; intros HI.
    - cbn [seq fold_left]. split; [apply tab_length|]. intros k Hk. rewrite tab_nth by exact Hk. destruct (Nat.eqb_spec k 0) as [->|N0].
      + split; [|lia]. intros _. split; [constructor|split; lia].
      + split; [lia|]. intros (_ & _ & C). lia.
    - rewrite seq_S, fold_left_app. cbn [fold_left]. apply propagate_inv; [lia|]. apply IH. lia. }
  now apply X.
Qed.

(** ** consensus *)
Inductive truly : nat -> Prop :=
| tr_root : truly 0
| tr_step k : truly k -> leaf k = false -> truly (step_down t rows k).

Hypothesis PT : proper_tree t (length rows) depth.
Hypothesis NE : 0 < length rows.

Lemma goes_left_own q k : own k = Z.of_nat q -> goes_left t rows k = left_of q k.
Proof. intros E. unfold goes_left, left_of. fold (own k). rewrite E, Nat2Z.id. reflexivity. Qed.

Lemma truly_may k : truly k -> forall pid, may pid k.
Proof.
  induction 1 as [|k T IH L]; intros pid; [constructor|]. unfold step_down. fold (leaf k). rewrite L.
  destruct (goes_left t rows k) eqn:G; constructor; auto; intros E; now rewrite <- (goes_left_own pid k E).
Qed.

Lemma may_truly k : k < n -> (forall pid, pid < length rows -> may pid k) -> truly k.
Proof.
  induction k as [k IH] using (well_founded_induction lt_wf). intros Hk M.
  destruct (Nat.eq_dec k 0) as [->|N0]; [constructor|].
  set (q := (k - 1) / 2). pose proof (parent_of k ltac:(lia)) as P. fold q in P. pose proof n_eq.
  assert (Hq : q < 2 ^ depth - 1) by lia.
  assert (Lq : leaf q = false /\ forall pid, pid < length rows -> may pid q).
  { split.
    - specialize (M 0 NE). destruct P as [E|E]; rewrite E in M; [apply may_l in M|apply may_r in M]; tauto.
    - intros pid Hp. specialize (M pid Hp). destruct P as [E|E]; rewrite E in M; [apply may_l in M|apply may_r in M]; tauto. }
  destruct Lq as [Lq Mq]. assert (T : truly q) by (apply IH; auto; lia).
  destruct (proj2 PT q Hq Lq) as (o & Ho & Eo). specialize (M o Ho).
  assert (Ek : k = step_down t rows q).
  { unfold step_down. fold (leaf q). rewrite Lq, (goes_left_own o q Eo).
    destruct P as [E|E]; rewrite E in M; [apply may_l in M|apply may_r in M]; destruct M as (_ & _ & M); rewrite (M Eo); exact E. }
  rewrite Ek. now constructor.
Qed.

Lemma truly_walk k : truly k -> exists f, k = walk t rows f 0 /\ level_offset f <= k.
Proof.
  induction 1 as [|k T (f & E & B) L]; [exists 0; split; [reflexivity|unfold level_offset; cbn; lia]|].
  exists (S f). rewrite walk_end, <- E. split; auto. rewrite off_S. unfold step_down. fold (leaf k). rewrite L.
  destruct (goes_left t rows k); lia.
Qed.
Lemma walk_stays f : forall k, leaf k = true -> walk t rows f k = k.
Proof. induction f as [|f IH]; intros k L; cbn; auto. unfold step_down. fold (leaf k). rewrite L. auto. Qed.
Lemma walk_add a : forall b k, walk t rows (a + b) k = walk t rows b (walk t rows a k).
Proof. induction a as [|a IH]; intros b k; cbn; auto. Qed.

Lemma truly_unique k : truly k -> leaf k = true -> k < n -> k = walk t rows depth 0.
Proof.
  intros T L Hk. destruct (truly_walk k T) as (f & E & B).
  assert (Hf : f <= depth).
  { destruct (Nat.le_gt_cases f depth); auto. exfalso. pose proof (off_mono (S depth) f ltac:(lia)) as X.
    unfold n in Hk. unfold level_offset in *. replace (depth + 1) with (S depth) in Hk by lia. lia. }
  replace depth with (f + (depth - f)) by lia. rewrite walk_add, <- E. symmetry. now apply walk_stays.
Qed.

Lemma walk_truly f : truly (walk t rows f 0) /\ (leaf (walk t rows f 0) = true \/ level_offset f <= walk t rows f 0).
Proof.
  induction f as [|f [T IH]]; [split; [constructor|right; unfold level_offset; cbn; lia]|].
  rewrite walk_end. destruct (leaf (walk t rows f 0)) eqn:L.
  - unfold step_down. fold (leaf (walk t rows f 0)). rewrite L. auto.
  - split; [now constructor|]. destruct IH as [IH|IH]; [congruence|]. right. rewrite off_S. unfold step_down. fold (leaf (walk t rows f 0)). rewrite L.
    destruct (goes_left t rows (walk t rows f 0)); lia.
Qed.
Lemma walk_leaf : let k := walk t rows depth 0 in leaf k = true /\ k < n.
Proof.
  cbv zeta. assert (B : walk t rows depth 0 < n).
  { pose proof (walk_depth t rows depth 0 0 ltac:(unfold level_offset; cbn; lia)) as X. unfold n. unfold level_offset in X. replace (depth + 1) with (S (0 + depth)) by lia. exact X. }
  split; auto. destruct (walk_truly depth) as [_ [L|L]]; auto. apply (proj1 PT). unfold n, level_offset in *. lia.
Qed.

Lemma first_true_unique l : forall i k, k < length l -> nth k l false = true -> (forall k', k' < length l -> nth k' l false = true -> k' = k) ->
  first_true i l = Some (i + k).
Proof.
  induction l as [|b l IH]; intros i k Hk E U; [cbn in Hk; lia|]. cbn [first_true]. destruct b.
  - specialize (U 0 ltac:(cbn; lia) eq_refl). subst. now rewrite Nat.add_0_r.
  - destruct k as [|k]; [discriminate|]. rewrite (IH (S i) k).
    + f_equal. lia.
    + cbn in Hk. lia.
    + exact E.
    + intros k' H' E'. assert (S k' = S k) by (apply U; [cbn; lia|exact E']). lia.
Qed.

Lemma predict_is_walk : predict_tree t n rows = nth (walk t rows depth 0) (t_val t) 0%Q.
Proof.
  unfold predict_tree.
  set (final := tab n _).
  assert (F : forall k, k < n -> nth k final false = true <-> k = walk t rows depth 0).
  { intros k Hk. unfold final. rewrite tab_nth by exact Hk. fold (leaf k). rewrite andb_true_iff, forallb_forall. split.
    - intros [A L]. apply truly_unique; auto. apply may_truly; auto. intros pid Hp.
      assert (I : In (locations pid (nth pid rows []) t n) (map (fun p => locations (fst p) (snd p) t n) (combine (seq 0 (length rows)) rows))).
      { apply in_map_iff. exists (pid, nth pid rows []). split; auto.
        assert (X : nth pid (combine (seq 0 (length rows)) rows) (0, []) = (pid, nth pid rows [])).
        { rewrite combine_nth by apply seq_length. now rewrite seq_nth by exact Hp. }
        rewrite <- X. apply nth_In. rewrite combine_length, seq_length. lia. }
      specialize (A _ I). apply Nat.ltb_lt in A. apply (proj2 (locations_spec pid)) in A; [tauto|exact Hk].
    - intros ->. destruct walk_leaf as [L B]. split; auto. intros x Ix. apply in_map_iff in Ix. destruct Ix as ([pid row] & <- & Ic). cbn [fst snd].
      assert (Er : row = nth pid rows []).
      { apply In_nth with (d := (0, [])) in Ic. destruct Ic as (i & Hi & Ei). rewrite combine_length, seq_length in Hi.
        rewrite combine_nth in Ei by apply seq_length. rewrite seq_nth in Ei by lia. now injection Ei as <- <-. }
      subst row. apply Nat.ltb_lt. apply (proj2 (locations_spec pid)); auto. split; [apply truly_may; apply walk_truly|].
      split; [intros; exact L|]. intros P. pose proof (parent_of _ P). pose proof n_eq. lia. }
  destruct walk_leaf as [L B].
  rewrite (first_true_unique final 0 (walk t rows depth 0)); auto.
  - unfold final. now rewrite tab_length.
  - now apply F.
  - intros k' H' E'. apply F; auto. unfold final in H'. now rewrite tab_length in H'.
Qed.
End Pred.
