(** Proofs about SecureBoost trees. *)
From Coq Require Import List ZArith QArith Bool Arith Lia.
From Verif Require Import MPCBase BFVModel SGBModel TreeModel TreeSpec.
Import ListNotations.
Local Open Scope nat_scope.

(** ** arrays *)
Lemma pow2_pos n : 1 <= 2 ^ n. Proof. induction n; cbn; lia. Qed.
Lemma off_S l : level_offset (S l) = 2 * level_offset l + 1.
Proof. unfold level_offset. cbn. pose proof (pow2_pos l). lia. Qed.
Lemma off_pow l : level_offset l + 2 ^ l = level_offset (S l).
Proof. unfold level_offset. cbn. pose proof (pow2_pos l). lia. Qed.

Lemma set_level_len {A} (d : A) l vals old : length (set_level d l vals old) = length old.
Proof. apply tab_length. Qed.
Lemma set_level_in {A} (d : A) l vals old k : level_offset l <= k < level_offset (S l) -> k < length old ->
  nth k (set_level d l vals old) d = nth (k - level_offset l) vals d.
Proof.
  intros H L. unfold set_level. rewrite tab_nth by exact L. rewrite off_pow.
  replace (level_offset l <=? k) with true by (symmetry; apply Nat.leb_le; lia).
  replace (k <? level_offset (S l)) with true by (symmetry; apply Nat.ltb_lt; lia). reflexivity.
Qed.
Lemma set_level_out {A} (d : A) l vals old k : k < level_offset l \/ level_offset (S l) <= k ->
  nth k (set_level d l vals old) d = nth k old d.
Proof.
  intros H. destruct (Nat.lt_ge_cases k (length old)) as [L|L].
  - unfold set_level. rewrite tab_nth by exact L. rewrite off_pow.
    destruct (Nat.leb_spec (level_offset l) k); destruct (Nat.ltb_spec k (level_offset (S l))); cbn; auto; lia.
  - rewrite !nth_overflow; auto. now rewrite set_level_len.
Qed.

Lemma map_nth_lt {A B} (f : A -> B) l i d d' : i < length l -> nth i (map f l) d = f (nth i l d').
Proof. intros H. rewrite nth_indep with (d' := f d') by (now rewrite map_length). apply map_nth. Qed.

(** ** merging *)
Lemma merge_fold level bt tmp best l : forall acc j, length acc = length bt -> j < length bt ->
  nth j (fold_left (fun acc i => tab (length bt) (fun j =>
        if nth j bt 0 =? level_offset level + i then nth j (nth (nth i best 0) tmp []) 0 else nth j acc 0)) l acc) 0 =
  if existsb (fun i => nth j bt 0 =? level_offset level + i) l
  then nth j (nth (nth (nth j bt 0 - level_offset level) best 0) tmp []) 0 else nth j acc 0.
Proof.
  induction l as [|i l IH]; intros acc j La L; cbn [fold_left existsb]; auto.
  rewrite IH by (auto using tab_length). rewrite tab_nth by exact L.
  destruct (Nat.eqb_spec (nth j bt 0) (level_offset level + i)) as [E|E]; cbn [orb].
  - replace (nth j bt 0 - level_offset level) with i by lia. now destruct (existsb _ l).
  - reflexivity.
Qed.
Lemma merge_len level bt tmp best : length (merge_bt level bt tmp best) = length bt.
Proof.
  unfold merge_bt. generalize (seq 0 (2 ^ level)). intros l.
  assert (X : forall acc, length acc = length bt -> length (fold_left (fun acc i => tab (length bt) (fun j =>
        if nth j bt 0 =? level_offset level + i then nth j (nth (nth i best 0) tmp []) 0 else nth j acc 0)) l acc) = length bt).
  { induction l as [|i l IH]; intros acc H; cbn; auto. apply IH. apply tab_length. }
  now apply X.
Qed.
Lemma merge_nth level bt tmp best j : j < length bt ->
  nth j (merge_bt level bt tmp best) 0 =
  let b := nth j bt 0 in
  if (level_offset level <=? b) && (b <? level_offset (S level))
  then nth j (nth (nth (b - level_offset level) best 0) tmp []) 0 else b.
Proof.
  intros L. unfold merge_bt. rewrite merge_fold by auto. cbv zeta.
  replace (existsb (fun i => nth j bt 0 =? level_offset level + i) (seq 0 (2 ^ level))) with
    ((level_offset level <=? nth j bt 0) && (nth j bt 0 <? level_offset (S level))); auto.
  destruct (existsb _ (seq _ _)) eqn:E.
  - apply existsb_exists in E. destruct E as (i & Hi & E). apply in_seq in Hi. apply Nat.eqb_eq in E.
    pose proof (off_pow level). apply andb_true_iff. split; [apply Nat.leb_le|apply Nat.ltb_lt]; lia.
  - destruct (Nat.leb_spec (level_offset level) (nth j bt 0)); auto.
    destruct (Nat.ltb_spec (nth j bt 0) (level_offset (S level))); auto. exfalso.
    assert (existsb (fun i => nth j bt 0 =? level_offset level + i) (seq 0 (2 ^ level)) = true); [|congruence].
    apply existsb_exists. exists (nth j bt 0 - level_offset level). pose proof (off_pow level).
    split; [apply in_seq; lia|apply Nat.eqb_eq; lia].
Qed.

(** ** argmax *)
Lemma argmax_from_lt l : forall i best g, best < i -> fst (argmax_from i best g l) < i + length l.
Proof.
  induction l as [|x l IH]; intros i best g H; cbn; try lia.
  destruct (gain_lt g x); [pose proof (IH (S i) i x)|pose proof (IH (S i) best g)]; lia.
Qed.
Lemma argmax_lt l : l <> [] -> fst (argmax l) < length l.
Proof. destruct l as [|x l]; [congruence|]. intros _. cbn [argmax]. pose proof (argmax_from_lt l 1 0 x). cbn. lia. Qed.

Lemma gain_lt_trans a b c : gain_lt b a = false -> gain_lt c b = false -> gain_lt c a = false.
Proof.
  destruct a as [a|], b as [b|], c as [c|]; cbn; auto; try discriminate; rewrite ?negb_false_iff, ?Qle_bool_iff; auto.
  intros. eapply Qle_trans; eauto.
Qed.
Lemma gain_lt_asym a b : gain_lt a b = true -> gain_lt b a = false.
Proof.
  destruct a as [a|], b as [b|]; cbn; auto; try discriminate. rewrite negb_true_iff, negb_false_iff, Qle_bool_iff. intros H.
  apply Qlt_le_weak. apply Qnot_le_lt. rewrite <- Qle_bool_iff. congruence.
Qed.
Lemma gain_lt_irrefl a : gain_lt a a = false.
Proof. destruct a; cbn; auto. rewrite negb_false_iff. apply Qle_bool_iff. apply Qle_refl. Qed.

Lemma argmax_from_spec l : forall i best g, best < i ->
  let r := argmax_from i best g l in
  gain_lt (snd r) g = false /\ (forall k, k < length l -> gain_lt (snd r) (nth k l None) = false) /\
  ((fst r = best /\ snd r = g) \/ (i <= fst r < i + length l /\ nth (fst r - i) l None = snd r)).
Proof.
  induction l as [|x l IH]; intros i best g H; cbn [argmax_from].
  - cbn. repeat split; [apply gain_lt_irrefl|intros; lia|now left].
  - destruct (gain_lt g x) eqn:E.
    + destruct (IH (S i) i x) as (A & B & C); [lia|]. cbv zeta. repeat split.
      * eapply gain_lt_trans; [|exact A]. now apply gain_lt_asym.
      * intros [|k] Hk; cbn in *; auto. apply B. lia.
      * right. destruct C as [[C1 C2]|[C1 C2]].
        -- rewrite C1, C2, Nat.sub_diag. cbn. split; [lia|reflexivity].
        -- split; [cbn; lia|]. replace (fst (argmax_from (S i) i x l) - i) with (S (fst (argmax_from (S i) i x l) - S i)) by lia. exact C2.
    + destruct (IH (S i) best g) as (A & B & C); [lia|]. cbv zeta. repeat split; auto.
      * intros [|k] Hk; cbn in *; [|apply B; lia]. eapply gain_lt_trans; [|exact A]. exact E.
      * destruct C as [C|[C1 C2]]; [now left|right]. split; [cbn; lia|].
        replace (fst (argmax_from (S i) best g l) - i) with (S (fst (argmax_from (S i) best g l) - S i)) by lia. exact C2.
Qed.
Lemma argmax_spec l : (forall k, k < length l -> gain_lt (snd (argmax l)) (nth k l None) = false) /\
  nth (fst (argmax l)) l None = snd (argmax l).
Proof.
  destruct l as [|x l]; [split; [cbn; intros; lia|reflexivity]|].
  cbn [argmax]. destruct (argmax_from_spec l 1 0 x) as (A & B & C); [lia|]. split.
  - intros [|k] Hk; cbn in *; auto. apply B. lia.
  - destruct C as [[-> ->]|[C1 C2]]; auto. destruct (fst (argmax_from 1 0 x l)) as [|n]; [lia|]. cbn in *. now rewrite Nat.sub_0_r in C2.
Qed.

(** ** sorted boundaries *)
Definition ascending (b : list xq) : Prop :=
  forall i j x, i <= j -> j < length b -> le_x x (nth i b None) = true -> le_x x (nth j b None) = true.

Lemma x_lt_le b x : x_lt b x = negb (le_x x b). Proof. destruct b; reflexivity. Qed.

Lemma bin_index_le b x t : ascending b -> t < length b -> (bin_index b x <=? t) = le_x x (nth t b None).
Proof.
  intros A H.
  (* the boundaries below x form a prefix *)
  assert (X : forall l, (forall i j, i <= j -> j < length l -> le_x x (nth i l None) = true -> le_x x (nth j l None) = true) ->
     forall t, t < length l -> (length (filter (fun b => x_lt b x) l) <=? t) = le_x x (nth t l None)).
  { induction l as [|y l IH]; intros M u Hu; [cbn in Hu; lia|]. cbn [filter]. rewrite x_lt_le.
    destruct (le_x x y) eqn:E; cbn [negb].
    - replace (filter (fun b0 => x_lt b0 x) l) with (@nil xq).
      + cbn [length]. symmetry. apply (M 0 u); [lia|exact Hu|exact E].
      + symmetry. destruct (filter (fun b0 => x_lt b0 x) l) as [|z r] eqn:F; auto. exfalso.
        assert (I : In z (filter (fun b0 => x_lt b0 x) l)) by (rewrite F; now left). apply filter_In in I. destruct I as [I HZ].
        apply In_nth with (d := None) in I. destruct I as (k & Hk & Ek). rewrite x_lt_le in HZ.
        assert (Z' : le_x x z = true) by (rewrite <- Ek; apply (M 0 (S k)); [lia|apply -> Nat.succ_lt_mono; exact Hk|exact E]). rewrite Z' in HZ. discriminate.
    - destruct u as [|u]; cbn [nth].
      + cbn. now rewrite E.
      + cbn [length]. cbn [Nat.leb]. apply IH; [|cbn in Hu; lia]. intros i j Hij Hj. apply (M (S i) (S j)); cbn; lia. }
  apply X; auto. intros i j Hij Hj. apply A; auto.
Qed.

Lemma build_bins_length x mb : length (build_bins x mb) = mb - 1.
Proof.
  unfold build_bins. destruct x as [|a [|b r]]; rewrite ?repeat_length; auto.
  destruct (negb _); rewrite ?repeat_length, ?map_length, ?seq_length; auto.
Qed.
Lemma repeat_ascending n : ascending (repeat None n).
Proof. intros i j x _ _ _. destruct (nth_in_or_default j (repeat (@None Q) n) None) as [H| ->]; [apply repeat_spec in H; now rewrite H|reflexivity]. Qed.
Lemma build_bins_ascending x mb : ascending (build_bins x mb).
Proof.
  unfold build_bins. destruct x as [|a [|b r]]; auto using repeat_ascending.
  destruct (Qle_bool (1 # 1000000000) _) eqn:E; cbn [negb]; auto using repeat_ascending.
  set (mn := qmin a (b :: r)) in *. set (mx := qmax a (b :: r)) in *. apply Qle_bool_iff in E.
  intros i j y Hij Hj Hy. rewrite map_length, seq_length in Hj.
  rewrite map_nth_lt with (d' := 0) in * by (rewrite seq_length; lia). rewrite seq_nth in * by lia.
  cbn [le_x] in *. apply Qle_bool_iff in Hy. apply Qle_bool_iff. eapply Qle_trans; [exact Hy|].
  apply Qplus_le_r. unfold Qdiv. apply Qmult_le_compat_r.
  - rewrite !(Qmult_comm (mx - mn)). apply Qmult_le_compat_r.
    + rewrite <- Zle_Qle. lia.
    + eapply Qle_trans; [|exact E]. discriminate.
  - apply Qinv_le_0_compat. change 0%Q with (inject_Z 0). rewrite <- Zle_Qle. lia.
Qed.

(** ** indexing *)
Definition clampi (n f : nat) : nat := Nat.min f (n - 1).
Lemma jget_nat {A} (d : A) l f : jget d l (Z.of_nat f) = nth (clampi (length l) f) l d.
Proof.
  unfold jget, clampi. replace (Z.of_nat f <? 0)%Z with false by (symmetry; apply Z.ltb_ge; lia).
  destruct l as [|x l]; [cbn; now destruct (Z.to_nat _), (Nat.min _ _)|]. f_equal. cbn [length]. lia.
Qed.
Lemma jget_in {A} (d : A) l f : f < length l -> jget d l (Z.of_nat f) = nth f l d.
Proof. intros H. rewrite jget_nat. unfold clampi. f_equal. lia. Qed.

(** the split a party proposes sends a sample where the stored threshold sends it *)
Lemma split_agrees mb nf data j f t : j < length data -> Forall (fun row => length row = nf) data -> t < mb - 1 ->
  let P := bin_party mb nf data in
  (jget 0 (nth j (p_idx P) []) (Z.of_nat f) <=? t) =
  le_x (jget 0%Q (nth j (p_data P) []) (Z.of_nat f)) (jget None (jget [] (p_bins P) (Z.of_nat f)) (Z.of_nat t)).
Proof.
  intros Hj R Ht P. cbn [P bin_party p_data p_idx p_bins].
  rewrite map_nth_lt with (d' := []) by exact Hj.
  assert (Lr : length (nth j data []) = nf) by (rewrite Forall_forall in R; apply R; now apply nth_In).
  rewrite !jget_nat, !tab_length. rewrite Lr.
  destruct nf as [|nf'].
  { unfold tab. cbn [seq map]. assert (Nn : forall (A : Type) (d : A) k, nth k [] d = d) by (intros A d [|k]; reflexivity).
    rewrite !Nn. reflexivity. }
  set (f' := clampi (S nf') f). assert (Hf : f' < S nf') by (unfold f', clampi; lia).
  rewrite !tab_nth by exact Hf. rewrite bin_index_le; [|apply build_bins_ascending|now rewrite build_bins_length].
  f_equal. rewrite build_bins_length. unfold clampi. f_equal. lia.
Qed.

(** ** walking *)
Lemma walk_end t rows f : forall k, walk t rows (S f) k = step_down t rows (walk t rows f k).
Proof.
  induction f as [|f IH]; intros k; auto. change (walk t rows (S (S f)) k) with (walk t rows (S f) (step_down t rows k)).
  rewrite IH. reflexivity.
Qed.

Definition same_above (t t' : tree) (rows : list (list Q)) (n : nat) : Prop :=
  forall k, k < n -> step_down t rows k = step_down t' rows k.

Lemma walk_depth t rows f : forall a k, k < level_offset (S a) -> walk t rows f k < level_offset (S (a + f)).
Proof.
  induction f as [|f IH]; intros a k H; cbn [walk].
  - now rewrite Nat.add_0_r.
  - replace (a + S f) with (S a + f) by lia. apply IH. rewrite (off_S (S a)). unfold step_down.
    destruct (nth k (t_leaf t) false); [lia|]. destruct (goes_left t rows k); lia.
Qed.

Lemma walk_same t t' rows f : forall a k, k < level_offset (S a) -> same_above t t' rows (level_offset (a + f)) ->
  walk t rows f k = walk t' rows f k.
Proof.
  induction f as [|f IH]; intros a k H D; cbn [walk]; auto.
  assert (Lk : k < level_offset (a + S f)).
  { eapply Nat.lt_le_trans; [exact H|]. unfold level_offset. apply Nat.sub_le_mono_r. apply Nat.pow_le_mono_r; lia. }
  rewrite <- (D k Lk). apply (IH (S a)).
  - rewrite (off_S (S a)). unfold step_down. destruct (nth k (t_leaf t) false); [lia|]. destruct (goes_left t rows k); lia.
  - replace (S a + f) with (a + S f) by lia. exact D.
Qed.

(** ** one level *)
Section Level.
Variables (p : params) (scale : positive) (nb : nat) (ghs : list gh) (qg qh : list Z) (parties : list party).
Let np := length parties.

Definition proposals (level : nat) (s : lstate) : list (list split) :=
  tab np (fun k => match k with
    | O => find_splits_ap p nb level ghs (l_bt s) (nth 0 parties dparty)
    | S _ => find_splits_pp p nb (pp_hists scale qg qh level nb (nth k (l_hists s) []) (l_bt s) (nth k parties dparty))
    end).
Definition winners (level : nat) (s : lstate) : list (nat * option Q) := tab (2 ^ level) (global_best (proposals level s)).

Lemma step_eq level s : level_step p scale nb ghs qg qh parties level s =
  let all := proposals level s in
  let best := winners level s in
  let leaf := set_level false level (map (fun b => is_new_leaf (snd b)) best) (l_leaf s) in
  let own := set_level (-1)%Z level (map (fun b => Z.of_nat (fst b)) best) (l_own s) in
  LState (merge_bt level (l_bt s)
           (tab np (fun k => update_bt level leaf (p_idx (nth k parties dparty)) (nth k all []) (l_bt s))) (map fst best))
    leaf own
    (tab np (fun k => update_feats k level (nth k all []) leaf own (nth k (l_feat s) [])))
    (tab np (fun k => update_thrs k level (p_bins (nth k parties dparty)) (nth k all []) leaf own (nth k (l_thr s) [])))
    (tab np (fun k => match k with
                             | O => []
                             | S _ => pp_hists scale qg qh level nb (nth k (l_hists s) []) (l_bt s) (nth k parties dparty)
                             end))
    (l_log s ++ [all]).
Proof.
  unfold level_step. fold np.
  replace (tab np (fun k => match k with O => find_splits_ap p nb level ghs (l_bt s) (nth 0 parties dparty)
     | S _ => find_splits_pp p nb (nth k (tab np (fun k => match k with
                             | O => []
                             | S _ => pp_hists scale qg qh level nb (nth k (l_hists s) []) (l_bt s) (nth k parties dparty)
                             end)) []) end)) with (proposals level s).
  - reflexivity.
  - apply tab_ext. intros [|k] Hk; auto. now rewrite tab_nth by exact Hk.
Qed.

Definition state_tree (s : lstate) : tree := Tree (l_feat s) (l_thr s) [] (l_leaf s) (l_own s).

Record shape (m depth : nat) (s : lstate) : Prop := {
  sh_bt : length (l_bt s) = m;
  sh_leaf : length (l_leaf s) = level_offset (S depth);
  sh_own : length (l_own s) = level_offset (S depth);
  sh_feat : forall k, k < np -> length (nth k (l_feat s) []) = level_offset (S depth);
  sh_thr : forall k, k < np -> length (nth k (l_thr s) []) = level_offset (S depth)
}.

Lemma step_shape m depth level s : shape m depth s -> shape m depth (level_step p scale nb ghs qg qh parties level s).
Proof.
  intros [A B C D E]. rewrite step_eq. cbv zeta. split; cbn [l_bt l_leaf l_own l_feat l_thr].
  - now rewrite merge_len.
  - now rewrite set_level_len.
  - now rewrite set_level_len.
  - intros k Hk. rewrite tab_nth by exact Hk. unfold update_feats. cbv zeta. rewrite tab_length, set_level_len. auto.
  - intros k Hk. rewrite tab_nth by exact Hk. unfold update_thrs. cbv zeta. rewrite tab_length, set_level_len. auto.
Qed.

(** nodes above the level keep their meaning *)
Lemma step_above m depth level s : level < depth -> shape m depth s ->
  (forall k, k < level_offset level -> nth k (l_leaf s) false = false -> exists q, q < np /\ nth k (l_own s) (-1)%Z = Z.of_nat q) ->
  forall rows, same_above (state_tree s) (state_tree (level_step p scale nb ghs qg qh parties level s)) rows (level_offset level).
Proof.
  intros Ld [A B C D E] O rows k Hk. rewrite step_eq. cbv zeta. unfold step_down, goes_left, state_tree. cbn [t_leaf t_own t_feat t_thr l_leaf l_own l_feat l_thr].
  rewrite !set_level_out by (left; exact Hk).
  destruct (nth k (l_leaf s) false) eqn:El; auto. destruct (O k Hk El) as (q & Hq & Eq).
  rewrite Eq. rewrite Nat2Z.id. rewrite !tab_nth by exact Hq.
  assert (Lk : k < level_offset (S depth)).
  { eapply Nat.lt_le_trans; [exact Hk|]. unfold level_offset. apply Nat.sub_le_mono_r. apply Nat.pow_le_mono_r; lia. }
  unfold update_feats, update_thrs. cbv zeta. rewrite !set_level_len, D, E by exact Hq. rewrite !tab_nth by exact Lk.
  rewrite !set_level_out by (left; exact Hk). rewrite El, Eq, Z.eqb_refl. reflexivity.
Qed.

Definition dsplit := Split None 0 0.

(** where the level sends the samples *)
Lemma step_bt m depth level s j : level < depth -> shape m depth s -> 0 < np -> j < m ->
  let s' := level_step p scale nb ghs qg qh parties level s in
  let b := nth j (l_bt s) 0 in
  nth j (l_bt s') 0 =
  if (level_offset level <=? b) && (b <? level_offset (S level)) then
    let i := b - level_offset level in
    let '(q, g) := global_best (proposals level s) i in
    let sp := nth i (nth q (proposals level s) []) dsplit in
    if is_new_leaf g then b
    else if jget 0 (nth j (p_idx (nth q parties dparty)) []) (Z.of_nat (s_feat sp)) <=? s_thr sp then 2 * b + 1 else 2 * b + 2
  else b.
Proof.
  intros Ld [A B C D E] Np Hj. rewrite step_eq. cbv zeta. cbn [l_bt]. rewrite merge_nth by lia. cbv zeta.
  destruct (_ && _) eqn:Ei; auto. apply andb_true_iff in Ei. destruct Ei as [E1 E2]. apply Nat.leb_le in E1. apply Nat.ltb_lt in E2.
  set (b := nth j (l_bt s) 0) in *. set (i := b - level_offset level).
  assert (Hi : i < 2 ^ level) by (unfold i; pose proof (off_pow level); lia).
  unfold winners. rewrite map_nth_lt with (d' := (0, None)) by (now rewrite tab_length). rewrite (tab_nth (2 ^ level)) by exact Hi.
  destruct (global_best (proposals level s) i) as [q g] eqn:Eg. cbn [fst].
  assert (Hq : q < np).
  { pose proof (argmax_lt (map (fun l => s_gain (nth i l (Split None 0 0))) (proposals level s))) as X.
    unfold global_best in Eg. rewrite Eg, map_length in X. cbn in X. unfold proposals in X at 2. rewrite tab_length in X. apply X.
    intros Y. apply (f_equal (@length _)) in Y. rewrite map_length in Y. unfold proposals in Y. rewrite tab_length in Y. cbn in Y. lia. }
  rewrite tab_nth by exact Hq. unfold update_bt. rewrite tab_nth by lia. fold b. cbv zeta.
  assert (Lb : b < length (l_leaf s)).
  { rewrite B. eapply Nat.lt_le_trans; [exact E2|]. unfold level_offset. apply Nat.sub_le_mono_r. apply Nat.pow_le_mono_r; lia. }
  rewrite set_level_in by (auto; lia). fold i.
  rewrite map_nth_lt with (d' := (0, None)) by (now rewrite tab_length). rewrite (tab_nth (2 ^ level)) by exact Hi. rewrite Eg. cbn [snd].
  destruct (is_new_leaf g) eqn:Lg; auto.
  replace (Z.of_nat b - Z.of_nat (level_offset level))%Z with (Z.of_nat i) by (unfold i; lia).
  assert (X : jget (Split None 0 0) (nth q (proposals level s) []) (Z.of_nat i) = nth i (nth q (proposals level s) []) dsplit).
  { rewrite jget_nat. unfold clampi.
    destruct (Nat.lt_ge_cases i (length (nth q (proposals level s) []))) as [H|H]; [f_equal; lia|].
    exfalso. (* a gain that is not -inf comes from an existing proposal *)
    pose proof (argmax_spec (map (fun l => s_gain (nth i l (Split None 0 0))) (proposals level s))) as [_ Y].
    unfold global_best in Eg. rewrite Eg in Y. cbn [fst snd] in Y.
    assert (Hq' : q < length (proposals level s)) by (unfold proposals; now rewrite tab_length).
    rewrite map_nth_lt with (d' := []) in Y by exact Hq'. rewrite nth_overflow in Y by exact H. cbn in Y. rewrite <- Y in Lg. discriminate. }
  rewrite X. reflexivity.
Qed.
End Level.

Lemma off_mono a b : a <= b -> level_offset a <= level_offset b.
Proof. intros H. unfold level_offset. apply Nat.sub_le_mono_r. apply Nat.pow_le_mono_r; lia. Qed.

Section Build.
Variables (p : params) (scale : positive) (nb : nat) (ghs : list gh) (parties : list party) (depth : nat).
Let np := length parties.
Let m := length ghs.
Definition qg_of := map (fun x : gh => quantize scale (fst x)) ghs.
Definition qh_of := map (fun x : gh => quantize scale (snd x)) ghs.

Definition levels (L : nat) : lstate :=
  fold_left (fun s level => level_step p scale nb ghs qg_of qh_of parties level s) (seq 0 L) (init_state np m depth).
Lemma levels_S L : levels (S L) = level_step p scale nb ghs qg_of qh_of parties L (levels L).
Proof. unfold levels. rewrite seq_S, fold_left_app. reflexivity. Qed.
Definition props L := proposals p scale nb ghs qg_of qh_of parties L (levels L).

Lemma levels_log L : l_log (levels L) = map props (seq 0 L).
Proof.
  induction L as [|L IH]; [reflexivity|]. rewrite levels_S, seq_S, map_app. rewrite step_eq. cbv zeta. cbn [l_log]. rewrite IH. reflexivity.
Qed.
Lemma levels_shape L : shape parties m depth (levels L).
Proof.
  induction L as [|L IH].
  - unfold levels. cbn [seq fold_left]. unfold init_state. assert (X : 2 ^ (depth + 1) - 1 = level_offset (S depth)) by (unfold level_offset; f_equal; f_equal; lia).
    assert (R : forall (A : Type) (x d : A) k n, k < n -> nth k (repeat x n) d = x).
    { intros A x d k n H. rewrite nth_indep with (d' := x) by (now rewrite repeat_length). apply nth_repeat. }
    rewrite X. split; cbn [l_bt l_leaf l_own l_feat l_thr]; rewrite ?repeat_length; auto; intros k Hk; rewrite R by exact Hk; apply repeat_length.
  - rewrite levels_S. now apply step_shape.
Qed.

(** owners of decided split nodes *)
Lemma levels_owner L : 0 < np -> L <= depth -> forall k, k < level_offset L -> nth k (l_leaf (levels L)) false = false ->
  exists q, q < np /\ nth k (l_own (levels L)) (-1)%Z = Z.of_nat q.
Proof.
  intros Np. induction L as [|L IH]; intros HL k Hk El; [unfold level_offset in Hk; cbn in Hk; lia|].
  pose proof (levels_shape L) as [A B C D E]. rewrite levels_S in *. rewrite step_eq in *. cbv zeta in *. cbn [l_leaf l_own] in *.
  destruct (Nat.lt_ge_cases k (level_offset L)) as [H|H].
  - rewrite set_level_out in El by (left; exact H). rewrite set_level_out by (left; exact H). apply IH; auto; lia.
  - pose proof (off_mono (S L) (S depth) ltac:(lia)). rewrite set_level_in by (try rewrite C; lia).
    set (i := k - level_offset L). assert (Hi : i < 2 ^ L) by (unfold i; pose proof (off_pow L); lia).
    unfold winners. rewrite map_nth_lt with (d' := (0, None)) by (now rewrite tab_length). rewrite (tab_nth (2 ^ L)) by exact Hi.
    exists (fst (global_best (proposals p scale nb ghs qg_of qh_of parties L (levels L)) i)). split; auto.
    unfold global_best.
    pose proof (argmax_lt (map (fun l => s_gain (nth i l (Split None 0 0))) (proposals p scale nb ghs qg_of qh_of parties L (levels L)))) as X.
    rewrite map_length in X. unfold proposals in X at 3. rewrite tab_length in X. apply X.
    intros Y. apply (f_equal (@length _)) in Y. rewrite map_length in Y. unfold proposals in Y. rewrite tab_length in Y. cbn in Y. fold np in Y. lia.
Qed.

(** samples are at the level or at a leaf above it *)
Lemma levels_bt L : 0 < np -> L <= depth -> forall j, j < m ->
  let b := nth j (l_bt (levels L)) 0 in
  b < level_offset (S L) /\ (level_offset L <= b \/ nth b (l_leaf (levels L)) false = true).
Proof.
  intros Np. induction L as [|L IH]; intros HL j Hj.
  - cbv zeta. unfold levels. cbn [seq fold_left init_state l_bt]. replace (nth j (repeat 0 m) 0) with 0 by (symmetry; apply nth_repeat).
    unfold level_offset. cbn. lia.
  - destruct (IH ltac:(lia) j Hj) as [A B]. pose proof (levels_shape L) as Sh. cbv zeta. rewrite levels_S.
    rewrite (step_bt _ _ _ _ _ _ _ m depth) by (auto; lia). cbv zeta.
    set (b := nth j (l_bt (levels L)) 0) in *.
    destruct (Nat.leb_spec (level_offset L) b) as [H|H]; cbn [andb].
    + replace (b <? level_offset (S L)) with true by (symmetry; apply Nat.ltb_lt; exact A).
      destruct (global_best (proposals p scale nb ghs qg_of qh_of parties L (levels L)) (b - level_offset L)) as [q g] eqn:Eg.
      pose proof (off_S (S L)). pose proof (off_S L).
      destruct (is_new_leaf g) eqn:Lg.
      * split; [lia|]. right. rewrite step_eq. cbv zeta. cbn [l_leaf]. destruct Sh as [A' B' C' D' E'].
        rewrite set_level_in; [|lia|rewrite B'; pose proof (off_mono (S L) (S depth) ltac:(lia)); lia].
        assert (Hi : b - level_offset L < 2 ^ L) by (pose proof (off_pow L); lia).
        unfold winners. rewrite map_nth_lt with (d' := (0, None)) by (now rewrite tab_length). rewrite (tab_nth (2 ^ L)) by exact Hi.
        now rewrite Eg.
      * destruct (jget _ _ _ <=? _); split; lia.
    + destruct B as [B|B]; [lia|]. pose proof (off_S (S L)). pose proof (off_S L). split; [lia|]. right. rewrite step_eq. cbv zeta. cbn [l_leaf].
      rewrite set_level_out by (left; exact H). exact B.
Qed.

(** the nodes the training assigns are the nodes the tree prescribes *)
Lemma levels_walk mb : fitted mb m parties -> 0 < np -> boundary_exists mb (l_log (levels depth)) ->
  forall L, L <= depth -> forall j, j < m ->
  nth j (l_bt (levels L)) 0 = walk (state_tree (levels L)) (sample parties j) L 0.
Proof.
  intros F Np BE. induction L as [|L IH]; intros HL j Hj.
  - unfold levels. cbn [seq fold_left init_state l_bt walk]. apply nth_repeat.
  - rewrite walk_end. rewrite levels_S.
    pose proof (levels_shape L) as Sh. pose proof (step_above p scale nb ghs qg_of qh_of parties m depth L (levels L) ltac:(lia) Sh) as Ab.
    specialize (Ab (levels_owner L Np ltac:(lia)) (sample parties j)).
    rewrite <- (walk_same _ _ _ _ 0 0) with (2 := Ab) by (unfold level_offset; cbn; lia).
    rewrite <- IH by (auto; lia).
    rewrite (step_bt _ _ _ _ _ _ _ m depth) by (auto; lia). cbv zeta.
    destruct (levels_bt L Np ltac:(lia) j Hj) as [A B]. set (b := nth j (l_bt (levels L)) 0) in *.
    destruct (Nat.leb_spec (level_offset L) b) as [H|H]; cbn [andb].
    + replace (b <? level_offset (S L)) with true by (symmetry; apply Nat.ltb_lt; exact A).
      destruct (global_best (proposals p scale nb ghs qg_of qh_of parties L (levels L)) (b - level_offset L)) as [q g] eqn:Eg.
      assert (Hi : b - level_offset L < 2 ^ L) by (pose proof (off_pow L); lia).
      destruct Sh as [A' B' C' D' E'].
      assert (Lb : b < level_offset (S depth)) by (pose proof (off_mono (S L) (S depth) ltac:(lia)); lia).
      rewrite step_eq. cbv zeta. unfold step_down, goes_left, state_tree. cbn [t_leaf t_own t_feat t_thr l_leaf l_own l_feat l_thr].
      rewrite (set_level_in false) by (try rewrite B'; lia). rewrite (set_level_in (-1)%Z) by (try rewrite C'; lia).
      unfold winners. rewrite !map_nth_lt with (d' := (0, None)) by (now rewrite tab_length). rewrite !(tab_nth (2 ^ L)) by exact Hi.
      rewrite Eg. cbn [fst snd]. destruct (is_new_leaf g) eqn:Lg; auto.
      assert (Hq : q < np).
      { pose proof (argmax_lt (map (fun l => s_gain (nth (b - level_offset L) l (Split None 0 0))) (proposals p scale nb ghs qg_of qh_of parties L (levels L)))) as X.
        unfold global_best in Eg. rewrite Eg, map_length in X. unfold proposals in X at 2. rewrite tab_length in X. apply X.
        intros Y. apply (f_equal (@length _)) in Y. rewrite map_length in Y. unfold proposals in Y. rewrite tab_length in Y. cbn in Y. fold np in Y. lia. }
      rewrite Nat2Z.id. rewrite !(tab_nth (length parties)) by exact Hq.
      unfold update_feats, update_thrs. cbv zeta. rewrite !set_level_len, D', E' by exact Hq. rewrite !(tab_nth (level_offset (S depth))) by exact Lb.
      rewrite !(set_level_in false), !(set_level_in (-1)%Z), !(set_level_in None) by (rewrite ?B', ?C', ?D', ?E'; auto; lia).
      rewrite !map_nth_lt with (d' := (0, None)) by (now rewrite tab_length). rewrite !(tab_nth (2 ^ L)) by exact Hi.
      rewrite Eg. cbn [fst snd]. rewrite Lg, Z.eqb_refl.
      set (sp := nth q (proposals p scale nb ghs qg_of qh_of parties L (levels L)) []).
      assert (Ls : b - level_offset L < length sp).
      { destruct (Nat.lt_ge_cases (b - level_offset L) (length sp)) as [X|X]; auto. exfalso.
        pose proof (argmax_spec (map (fun l => s_gain (nth (b - level_offset L) l (Split None 0 0))) (proposals p scale nb ghs qg_of qh_of parties L (levels L)))) as [_ Y].
        unfold global_best in Eg. rewrite Eg in Y. cbn [fst snd] in Y.
        rewrite map_nth_lt with (d' := []) in Y by (unfold proposals; now rewrite tab_length). fold sp in Y. rewrite nth_overflow in Y by exact X.
        cbn in Y. rewrite <- Y in Lg. discriminate. }
      rewrite !map_nth_lt with (d' := dsplit) by exact Ls.
      unfold fitted in F. rewrite Forall_forall in F. destruct (F (nth q parties dparty)) as (nf & data & EP & Ld & R); [now apply nth_In|].
      unfold sample. rewrite map_nth_lt with (d' := dparty) by exact Hq. rewrite EP.
      rewrite split_agrees; auto; [rewrite Ld; exact Hj|].
      change (s_thr (nth (b - level_offset L) (nth q (props L) []) (Split None 0 0)) < mb - 1).
      apply (BE (props L) L (b - level_offset L) q g); auto.
      rewrite levels_log. rewrite nth_error_map. 
      assert (X : nth_error (seq 0 depth) L = Some L) by (rewrite nth_error_nth' with (d := 0) by (rewrite seq_length; lia); rewrite seq_nth by lia; reflexivity).
      now rewrite X.
    + destruct B as [B|B]; [lia|]. unfold step_down, state_tree. cbn [t_leaf]. rewrite step_eq. cbv zeta. cbn [l_leaf].
      rewrite set_level_out by (left; exact H). now rewrite B.
Qed.
End Build.
