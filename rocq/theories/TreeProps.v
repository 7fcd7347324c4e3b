(** C85-C88: SecureBoost (mplang/libs/ml/sgb.py) training and prediction. *)
From Coq Require Import List ZArith QArith Bool Arith Lia Setoid Morphisms Lqa.
From Verif Require Import MPCBase BFVModel BFVSpec SGBModel TreeModel TreeSpec TreeProofs TreePredict TreeSplit TreeTrain TreeHist.
Import ListNotations.
Local Open Scope nat_scope.

(** ** Example data: SecureBoost's defaults (lambda 1, gamma 0, min_child_weight 1, scale 2^15) *)
Definition defaults : params := Params 1 0 1.
Definition grad (prob : Q) (y : Z) : gh := (prob - inject_Z y, prob * (1 - prob))%Q.
(** 12 samples, half of them positive *)
Definition ghs12 : list gh := map (grad (1 # 2)) [0; 0; 0; 0; 1; 1; 0; 1; 1; 1; 1; 0]%Z.
Definition const12 : party := bin_party 3 1 (repeat [7%Q] 12).
Definition feat12 : party := bin_party 3 1 (map (fun x => [x]) [0; 0; 0; 0; 0; 1; 1; 1; 2; 2; 2; 2])%Q.
Definition mixed12 : party := bin_party 3 2 (map (fun x => [x; 5 - 2 * x]) [0; 0; 0; 0; 0; 1; 1; 1; 2; 2; 2; 2])%Q.
(** 5 samples, two positive *)
Definition ghs5 : list gh := map (grad (4 # 10)) [1; 1; 0; 0; 0]%Z.
Definition const5 : party := bin_party 2 1 (repeat [7%Q] 5).
Definition feat5 : party := bin_party 2 1 (map (fun x => [x]) [0; 0; 1; 1; 1])%Q.

Ltac fit := repeat constructor; do 2 eexists; (split; [reflexivity|split; [reflexivity|repeat constructor]]).

(** ** C85 *)

(** Federated prediction, where every party moves the sample through the nodes it owns and
    through both children of all others, gives the value of the leaf that a plain traversal
    reaches, in which the owner of each node compares its feature with its threshold. *)
Theorem C85_prediction_is_traversal :
  forall (t : tree) (rows : list (list Q)) (depth : nat),
  proper_tree t (length rows) depth -> 0 < length rows ->
  predict_tree t (2 ^ (depth + 1) - 1) rows = nth (walk t rows depth 0) (t_val t) 0%Q /\
  nth (walk t rows depth 0) (t_leaf t) false = true.
Proof. intros t rows depth PT NE. split; [now apply predict_is_walk|]. now apply walk_leaf. Qed.
Print Assumptions C85_prediction_is_traversal.

(** ... and the model's output is the initial logit plus learning rate times these values. *)
Theorem C85_ensemble :
  forall (init lr : Q) (trees : list tree) (rows : list (list Q)) (depth : nat),
  Forall (fun t => proper_tree t (length rows) depth) trees -> 0 < length rows ->
  (predict_logits init lr trees (2 ^ (depth + 1) - 1) rows ==
   init + lr * fold_right Qplus 0 (map (fun t => nth (walk t rows depth 0) (t_val t) 0) trees))%Q.
Proof.
  intros init lr trees rows depth F NE. unfold predict_logits. revert init.
  induction F as [|t l PT F IH]; intros init; cbn [fold_left map fold_right]; [ring|].
  rewrite IH. rewrite (predict_is_walk t rows depth PT NE). ring.
Qed.
Print Assumptions C85_ensemble.

(** a tree of depth 2 whose root belongs to party 1 and one of whose children to party 0 *)
Definition tree2 : tree :=
  Tree [[(-1)%Z; (-1)%Z; 1%Z; (-1)%Z; (-1)%Z; (-1)%Z; (-1)%Z]; [0%Z; (-1)%Z; (-1)%Z; (-1)%Z; (-1)%Z; (-1)%Z; (-1)%Z]]
    [[None; None; Some 3%Q; None; None; None; None]; [Some 1%Q; None; None; None; None; None; None]]
    [0; 10; 0; 0; 0; 20; 30]%Q [false; true; false; true; true; true; true] [1; -1; 0; -1; -1; -1; -1]%Z.
Example C85_example : proper_tree tree2 2 2 /\
  map (predict_tree tree2 7) [[[0; 0]; [1]]; [[0; 3]; [2]]; [[0; 4]; [2]]]%Q = [10; 20; 30]%Q.
Proof.
  split; [|reflexivity]. split.
  - intros k Hk. cbn in Hk. assert (k = 3 \/ k = 4 \/ k = 5 \/ k = 6) as [->|[->|[->| ->]]] by lia; reflexivity.
  - intros k Hk. cbn in Hk. assert (k = 0 \/ k = 1 \/ k = 2) as [->|[->| ->]] by lia; cbn; intros E; try discriminate; [exists 1|exists 0]; split; auto.
Qed.

(** ** C86 *)

(** If no passive party won a node with the threshold index that has no boundary, training
    leaves every training sample at the node that prediction reaches, and its prediction is the
    regularised weight -G/(H+lambda) of the training samples that prediction sends to the same
    leaf. *)
Theorem C135_training_agrees_with_prediction_partial :
  forall (p : params) (scale : positive) (mb : nat) (ghs : list gh) (parties : list party) (depth : nat),
  1 <= mb -> fitted mb (length ghs) parties -> 0 < length parties ->
  (0 <= gamma p)%Q \/ (0 < min_child_weight p)%Q ->
  passive_boundary_exists mb (l_log (run_levels p scale (mb + 1) ghs parties depth)) ->
  forall (t : tree) (bt : list nat), build_tree p scale (mb + 1) ghs parties depth = (t, bt) ->
  forall j, j < length ghs ->
  nth j bt 0 = walk t (sample parties j) depth 0 /\
  predict_tree t (2 ^ (depth + 1) - 1) (sample parties j) =
    leaf_weight p (sum_where ghs (fun i => walk t (sample parties i) depth 0 =? walk t (sample parties j) depth 0)).
Proof.
  intros p scale mb ghs parties depth Mb Fit Np Pen PB t bt E j Hj. replace (mb + 1) with (S mb) in * by lia.
  pose proof (agree p scale mb ghs parties depth Mb Fit Np Pen PB j Hj) as X. rewrite E in X. exact X.
Qed.
Print Assumptions C135_training_agrees_with_prediction_partial.

(** With the active party alone nothing else is needed. *)
Theorem C86_active_party_alone_agrees :
  forall (p : params) (scale : positive) (mb nf : nat) (ghs : list gh) (data : list (list Q)) (depth : nat),
  1 <= mb -> length data = length ghs -> Forall (fun row => length row = nf) data ->
  (0 <= gamma p)%Q \/ (0 < min_child_weight p)%Q ->
  let P := bin_party mb nf data in
  forall (t : tree) (bt : list nat), build_tree p scale (mb + 1) ghs [P] depth = (t, bt) ->
  forall j, j < length ghs ->
  nth j bt 0 = walk t [nth j data []] depth 0 /\
  predict_tree t (2 ^ (depth + 1) - 1) [nth j data []] =
    leaf_weight p (sum_where ghs (fun i => walk t [nth i data []] depth 0 =? walk t [nth j data []] depth 0)).
Proof.
  intros p scale mb nf ghs data depth Mb Ld R Pen P t bt E j Hj.
  apply (C135_training_agrees_with_prediction_partial p scale mb ghs [P] depth Mb) with (bt := bt); auto.
  - constructor; [|constructor]. exists nf, data. auto.
  - intros all L i q g Eall Hi Eg Lg Hq. exfalso.
    change (run_levels p scale (mb + 1) ghs [P] depth) with (levels p scale (mb + 1) ghs [P] depth depth) in Eall.
    rewrite levels_log, nth_error_map in Eall. destruct (nth_error (seq 0 depth) L) as [L'|]; [|discriminate]. injection Eall as <-.
    destruct q as [|q]; [lia|]. unfold global_best, props, proposals, tab in Eg. cbn in Eg. injection Eg as Eg _. lia.
Qed.
Print Assumptions C86_active_party_alone_agrees.

Example C86_example : let '(t, bt) := build_tree defaults 32768 4 ghs12 [const12; feat12] 1 in
  bt = [1; 1; 1; 1; 1; 1; 1; 1; 2; 2; 2; 2] /\ t_own t = [1; -1; -1]%Z /\
  fitted 3 12 [const12; feat12] /\ passive_boundary_exists 3 (l_log (run_levels defaults 32768 4 ghs12 [const12; feat12] 1)).
Proof.
  vm_compute (build_tree _ _ _ _ _ _). split; [reflexivity|]. split; [reflexivity|]. split; [fit|].
  set (log := l_log _). vm_compute in log. intros all L i q g E Hi Eg Lg Hq. destruct L as [|L]; cbn in E; [|destruct L; discriminate].
  injection E as <-. assert (i = 0) by (cbn in Hi; lia). subst i. vm_compute in Eg. injection Eg as <- _. vm_compute. lia.
Qed.

(** With a passive party it can fail, with SecureBoost's defaults, max_bin = 2 and depth 1: the
    passive party's proposal is the threshold index without a boundary; training keeps all five
    samples in the left child, the stored threshold sends three of them right, to a leaf that no
    training sample was put in. *)
Theorem C135_training_agrees_with_prediction_refuted :
  exists (ghs : list gh) (parties : list party) (t : tree) (bt : list nat),
  fitted 2 (length ghs) parties /\ length parties = 2 /\
  build_tree defaults 32768 3 ghs parties 1 = (t, bt) /\
  bt = [1; 1; 1; 1; 1] /\
  map (fun j => walk t (sample parties j) 1 0) (seq 0 5) = [1; 1; 2; 2; 2] /\
  t_leaf t = [false; true; true].
Proof.
  exists ghs5, [const5; feat5]. do 2 eexists. split; [fit|]. split; [reflexivity|]. split; [vm_compute; reflexivity|]. repeat split; vm_compute; reflexivity.
Qed.
Print Assumptions C135_training_agrees_with_prediction_refuted.

(** ** C87 *)

(** Every split of the active party is at the boundary with the best regularised gain over the
    node's samples among all the active party's features and boundaries, and that gain is
    positive; at every node that was made a leaf before the last level, none of the active party's
    candidates has a positive gain. *)
Theorem C187_active_party_splits_are_best :
  forall (p : params) (scale : positive) (mb : nat) (ghs : list gh) (parties : list party) (depth : nat),
  1 <= mb -> fitted mb (length ghs) parties -> 0 < length parties ->
  (0 <= gamma p)%Q \/ (0 < min_child_weight p)%Q ->
  passive_boundary_exists mb (l_log (run_levels p scale (mb + 1) ghs parties depth)) ->
  forall (P : party) (nf : nat), nth_error parties 0 = Some P -> n_feats P = nf ->
  forall L i, L < depth -> i < 2 ^ L ->
  let t := fst (build_tree p scale (mb + 1) ghs parties depth) in
  let k := 2 ^ L - 1 + i in
  let here := fun j => walk t (sample parties j) L 0 =? k in
  (nth k (t_leaf t) false = true -> forall f b, f < nf -> b < mb -> ~ worth_it (split_gain p ghs here (at_most P f b))) /\
  (nth k (t_leaf t) false = false -> nth k (t_own t) (-1)%Z = 0%Z ->
     exists f b, f < nf /\ b < mb - 1 /\ nth k (nth 0 (t_feat t) []) (-1)%Z = Z.of_nat f /\
       nth k (nth 0 (t_thr t) []) None = nth b (nth f (p_bins P) []) None /\
       worth_it (split_gain p ghs here (at_most P f b)) /\
       forall f' b', f' < nf -> b' < mb ->
         gain_lt (split_gain p ghs here (at_most P f b)) (split_gain p ghs here (at_most P f' b')) = false).
Proof.
  intros p scale mb ghs parties depth Mb Fit Np Pen PB P nf EP En L i HL Hi. replace (mb + 1) with (S mb) in * by lia.
  exact (ap_greedy p scale mb ghs parties depth Mb Fit Np Pen PB P nf EP En L i HL Hi).
Qed.
Print Assumptions C187_active_party_splits_are_best.

Example C87_example : let t := fst (build_tree defaults 32768 4 ghs12 [mixed12] 1) in
  nth 0 (t_leaf t) false = false /\ nth 0 (t_own t) (-1)%Z = 0%Z /\ nth 0 (nth 0 (t_feat t) []) (-1)%Z = 0%Z /\
  nth 0 (nth 0 (t_thr t) []) None = nth 0 (nth 0 (p_bins mixed12) []) None.
Proof. vm_compute. repeat split. Qed.

(** A passive party's proposal is the maximum of something else: its histograms are cumulative
    already when the split search accumulates them, so a sample in bucket b counts t+1-b times to
    the left of threshold t and n_buckets-b times in the total. *)
Theorem C87_passive_party_counts_repeatedly_partial :
  forall (p : params) (scale : positive) (nb : nat) (ghs : list gh) (parties : list party) (depth q L i : nat),
  1 < nb -> 0 < q < length parties -> L < depth -> i < 2 ^ L ->
  let P := nth q parties dparty in
  0 < n_feats P ->
  let before := state_before p scale nb ghs parties depth L in
  open_above (l_leaf before) L (2 ^ L - 1 + i) ->
  let here := fun j => nth j (l_bt before) 0 =? 2 ^ L - 1 + i in
  let bin := fun f j => nth f (nth j (p_idx P) []) 0 in
  let s := nth i (nth q (nth L (l_log (state_before p scale nb ghs parties depth (S L))) []) []) (Split None 0 0) in
  s_feat s < n_feats P /\ s_thr s < nb - 1 /\
  gain_eq (s_gain s) (repeated_gain p (quantized scale ghs) here (bin (s_feat s)) nb (s_thr s)) /\
  forall f t, f < n_feats P -> t < nb - 1 ->
    gain_lt (s_gain s) (repeated_gain p (quantized scale ghs) here (bin f) nb t) = false.
Proof.
  intros p scale nb ghs parties depth q L i Nb Hq HL Hi P Nf before Op here bin s.
  assert (Np : 0 < length parties) by lia.
  destruct (hist_inv p scale nb ghs parties depth Np q Hq L HL) as [LenH Ok]. specialize (Ok i Hi Op).
  set (H := nth q (l_hists (levels p scale nb ghs parties depth (S L))) []) in *.
  assert (Es : s = best_split p nb (nth i H [])).
  { unfold s. change (state_before p scale nb ghs parties depth (S L)) with (levels p scale nb ghs parties depth (S L)).
    rewrite levels_log, seq_S, map_app. cbn [plus map]. rewrite app_nth2 by (rewrite map_length, seq_length; lia).
    rewrite map_length, seq_length, Nat.sub_diag. cbn [nth]. unfold props, proposals. rewrite tab_nth by lia. destruct q as [|q']; [lia|].
    unfold H in LenH |- *. rewrite hists_eq in LenH |- * by lia. unfold find_splits_pp. rewrite map_nth_lt with (d' := []) by (rewrite LenH; exact Hi). reflexivity. }
  destruct Ok as [Lf Ok]. fold P in Lf, Ok.
  assert (F : Forall (fun h => length h = nb) (nth i H [])).
  { apply Forall_forall. intros h Hh. apply In_nth with (d := []) in Hh. destruct Hh as (f & Hf & <-). apply Ok. lia. }
  pose proof (best_split_spec p nb (nth i H []) Nb F) as (A & B & _ & C & D). rewrite <- Es in *. rewrite Lf in *.
  assert (Hne : nth i H [] <> []) by (intros X; rewrite X in Lf; cbn in Lf; lia). specialize (C Hne).
  assert (G : forall f t, f < n_feats P -> t < nb - 1 -> gain_eq (nth t (gains_of p (nth f (nth i H []) [])) None) (repeated_gain p (quantized scale ghs) here (bin f) nb t)).
  { intros f t Hf Ht. destruct (Ok f Hf) as [Lh Oh]. apply twice_gain; auto. intros b Hb. rewrite Oh by exact Hb.
    erewrite sum_where_ext; [reflexivity|]. intros j Hj. unfold here, bin, idx_column. cbv beta. f_equal. f_equal.
    destruct (Nat.lt_ge_cases j (length (p_idx P))) as [X|X].
    - rewrite map_nth_lt with (d' := []) by exact X. reflexivity.
    - rewrite nth_overflow by (rewrite map_length; exact X). rewrite (nth_overflow (p_idx P)) by exact X. now destruct f. }
  split; [exact C|]. split; [exact A|]. split.
  - rewrite <- B. now apply G.
  - intros f t Hf Ht. rewrite <- (gain_lt_eq _ _ _ (G f t Hf Ht)). now apply D.
Qed.
Print Assumptions C87_passive_party_counts_repeatedly_partial.

Example C87_passive_example : let s := nth 0 (nth 1 (nth 0 (l_log (state_before defaults 32768 4 ghs12 [const12; feat12] 1 1)) []) []) (Split None 0 0) in
  open_above (l_leaf (state_before defaults 32768 4 ghs12 [const12; feat12] 1 0)) 0 (2 ^ 0 - 1 + 0) /\ n_feats feat12 = 1 /\ s_feat s = 0 /\ s_thr s = 1.
Proof. vm_compute. repeat split. Qed.

(** So with a passive party the split chosen need not be the best one, although the same feature
    held by the active party would be split at the best boundary. *)
Theorem C87_splits_are_best_refuted :
  exists (ghs : list gh) (ap pp : party) (b better : nat) (x y : Q),
  fitted 3 (length ghs) [ap; pp] /\
  let t := fst (build_tree defaults 32768 4 ghs [ap; pp] 1) in
  let here := fun j => walk t (sample [ap; pp] j) 0 0 =? 0 in
  nth 0 (t_own t) (-1)%Z = 1%Z /\ nth 0 (t_leaf t) true = false /\
  nth 0 (nth 1 (t_feat t) []) (-1)%Z = 0%Z /\ nth 0 (nth 1 (t_thr t) []) None = nth b (nth 0 (p_bins pp) []) None /\
  split_gain defaults ghs here (at_most pp 0 b) = Some x /\
  split_gain defaults ghs here (at_most pp 0 better) = Some y /\ (2 * x < y)%Q /\
  nth 0 (nth 0 (t_thr (fst (build_tree defaults 32768 4 ghs [pp] 1))) []) None = nth better (nth 0 (p_bins pp) []) None.
Proof.
  exists ghs12, const12, feat12, 1, 0. do 2 eexists. split; [fit|]. cbv zeta.
  split; [vm_compute; reflexivity|]. split; [vm_compute; reflexivity|]. split; [vm_compute; reflexivity|]. split; [vm_compute; reflexivity|].
  split; [vm_compute; reflexivity|]. split; [vm_compute; reflexivity|]. split; vm_compute; reflexivity.
Qed.
Print Assumptions C87_splits_are_best_refuted.

(** ... and a node may be split although no candidate of any party has a positive gain, leaving a
    child without training samples, below min_child_weight. *)
Theorem C87_min_child_weight_refuted :
  exists (ghs : list gh) (ap pp : party),
  fitted 2 (length ghs) [ap; pp] /\
  let '(t, bt) := build_tree defaults 32768 3 ghs [ap; pp] 1 in
  nth 0 (t_leaf t) true = false /\ sum_where ghs (fun j => nth j bt 0 =? 2) = gzero /\
  (forall P b, In P [ap; pp] -> b < 2 -> ~ worth_it (split_gain defaults ghs (fun _ => true) (at_most P 0 b))).
Proof.
  exists ghs5, const5, feat5. split; [fit|]. vm_compute (build_tree _ _ _ _ _ _). split; [reflexivity|]. split; [reflexivity|].
  intros P b HP Hb. rewrite <- not_leaf_worth.
  assert (b = 0 \/ b = 1) as [-> | ->] by lia; destruct HP as [<-|[<-|[]]]; vm_compute; discriminate.
Qed.
Print Assumptions C87_min_child_weight_refuted.

(** ** C88 *)

(** Passive parties compute only the left children's histograms with encryption and get the right
    children's by subtraction.  For every node all of whose ancestors are split nodes the histogram
    the split search reads is, bucket by bucket, the sum of the quantised gradients of exactly the
    samples at the node whose bucket is at most b. *)
Theorem C88_subtracted_histograms_are_exact :
  forall (p : params) (scale : positive) (nb : nat) (ghs : list gh) (parties : list party) (depth q L i f b : nat),
  0 < q < length parties -> L < depth -> i < 2 ^ L ->
  let P := nth q parties dparty in
  f < n_feats P -> b < nb ->
  let before := state_before p scale nb ghs parties depth L in
  let after := state_before p scale nb ghs parties depth (S L) in
  open_above (l_leaf before) L (2 ^ L - 1 + i) ->
  gh_eq (nth b (nth f (nth i (nth q (l_hists after) []) []) []) gzero)
        (sum_where (quantized scale ghs)
           (fun j => (nth j (l_bt before) 0 =? 2 ^ L - 1 + i) && (nth j (idx_column P f) 0 <=? b))).
Proof.
  intros p scale nb ghs parties depth q L i f b Hq HL Hi P Hf Hb before after Op.
  destruct (hist_inv p scale nb ghs parties depth ltac:(lia) q Hq L HL) as [_ Ok].
  destruct (Ok i Hi Op) as [_ O]. destruct (O f Hf) as [_ O']. exact (O' b Hb).
Qed.
Print Assumptions C88_subtracted_histograms_are_exact.

(** below a leaf the subtraction attributes the leaf's samples to a node that holds none *)
Theorem C88_split_ancestors_are_needed :
  exists (ghs : list gh) (parties : list party),
  let before := state_before defaults 32768 3 ghs parties 2 1 in
  let after := state_before defaults 32768 3 ghs parties 2 2 in
  fitted 2 (length ghs) parties /\ nth 0 (l_leaf before) false = true /\
  forallb (fun b => negb (b =? 2)) (l_bt before) = true /\
  exists b, ~ gh_eq (nth b (nth 0 (nth 1 (nth 1 (l_hists after) []) []) []) gzero) gzero.
Proof.
  exists (map (grad (1 # 2)) [1; 0]%Z), [bin_party 2 1 [[7]; [7]]%Q; bin_party 2 1 [[0]; [1]]%Q]. cbv zeta.
  split; [fit|]. split; [vm_compute; reflexivity|]. split; [vm_compute; reflexivity|].
  exists 0. intros [_ X]. vm_compute in X. discriminate.
Qed.
Print Assumptions C88_split_ancestors_are_needed.

(** The fixed-point values: each is the nearest multiple of 1/scale (the even one of two), so a sum
    over n samples is off by at most n/(2 scale). *)
Lemma qround_near (x : Q) : (-(1 # 2) <= inject_Z (qround x) - x)%Q /\ (inject_Z (qround x) - x <= 1 # 2)%Q.
Proof.
  destruct x as [n d]. unfold qround. cbn [Qnum Qden]. pose proof (Z.div_mod n (Zpos d) ltac:(lia)) as E. pose proof (Z.mod_pos_bound n (Zpos d) ltac:(lia)) as B.
  set (f := (n / Zpos d)%Z) in *. set (r := (n mod Zpos d)%Z) in *.
  destruct (Z.ltb_spec (2 * r) (Zpos d)); [|destruct (Z.eqb_spec (2 * r) (Zpos d)); [destruct (Z.even f)|]]; unfold Qle; cbn; split; nia.
Qed.
Theorem C88_quantisation :
  forall (scale : positive) (x : Q),
  let d := (inject_Z (quantize scale x) - x * inject_Z (Zpos scale))%Q in
  (-(1 # 2) <= d)%Q /\ (d <= 1 # 2)%Q /\ ((d == 1 # 2)%Q \/ (d == -(1 # 2))%Q -> Z.even (quantize scale x) = true).
Proof.
  intros scale x d. unfold d, quantize. generalize (x * inject_Z (Zpos scale))%Q as y. intros y. destruct (qround_near y) as [H1 H2].
  split; [exact H1|]. split; [exact H2|]. clear H1 H2 d. destruct y as [n q]. unfold qround. cbn [Qnum Qden].
  pose proof (Z.div_mod n (Zpos q) ltac:(lia)) as E. pose proof (Z.mod_pos_bound n (Zpos q) ltac:(lia)) as B.
  set (f := (n / Zpos q)%Z) in *. set (r := (n mod Zpos q)%Z) in *. unfold Qeq. cbn [Qnum Qden inject_Z Qopp Qplus Qminus]. rewrite ?Pos.mul_1_l, ?Pos.mul_1_r, ?Z.mul_1_l, ?Z.mul_1_r. rewrite E.
  destruct (Z.ltb_spec (2 * r) (Zpos q)); [|destruct (Z.eqb_spec (2 * r) (Zpos q)); [destruct (Z.even f) eqn:Ev|]]; intros T; try assumption.
  - exfalso. destruct T; nia.
  - rewrite Z.even_add, Ev. reflexivity.
  - exfalso. destruct T; nia.
Qed.
Print Assumptions C88_quantisation.
Theorem C88_quantisation_error :
  forall (scale : positive) (ghs : list gh) (sel : nat -> bool),
  let bound := (Z.of_nat (length (filter sel (seq 0 (length ghs)))) # 2 * scale)%Q in
  let q := sum_where (quantized scale ghs) sel in let s := sum_where ghs sel in
  (- bound <= fst q - fst s)%Q /\ (fst q - fst s <= bound)%Q /\ (- bound <= snd q - snd s)%Q /\ (snd q - snd s <= bound)%Q.
Proof.
  intros scale ghs sel. unfold sum_where. assert (EL : length (quantized scale ghs) = length ghs) by apply map_length. rewrite EL. clear EL.
  assert (One : forall x, (-(1 # 2 * scale) <= (quantize scale x # scale) - x)%Q /\ ((quantize scale x # scale) - x <= 1 # 2 * scale)%Q).
  { intros x. unfold quantize. destruct (qround_near (x * inject_Z (Zpos scale))) as [H1 H2]. revert H1 H2.
    generalize (qround (x * inject_Z (Zpos scale))) as z. intros z. destruct x as [n d]. unfold Qle. cbn. rewrite !Pos.mul_1_r. intros H1 H2. split; nia. }
  assert (L : forall l, (forall j, In j l -> j < length ghs) ->
    let b := (Z.of_nat (length l) # 2 * scale)%Q in
    let q := gsum (map (fun j => nth j (quantized scale ghs) gzero) l) in let s := gsum (map (fun j => nth j ghs gzero) l) in
    (- b <= fst q - fst s)%Q /\ (fst q - fst s <= b)%Q /\ (- b <= snd q - snd s)%Q /\ (snd q - snd s <= b)%Q).
  { induction l as [|j l IH]; intros Hl; [vm_compute; repeat split; discriminate|]. cbv zeta in IH |- *. cbn [map gsum fold_right length].
    destruct IH as (I1 & I2 & I3 & I4); [intros; apply Hl; right; assumption|].
    change (fold_right gadd gzero (map (fun j0 => nth j0 (quantized scale ghs) gzero) l)) with (gsum (map (fun j0 => nth j0 (quantized scale ghs) gzero) l)).
    change (fold_right gadd gzero (map (fun j0 => nth j0 ghs gzero) l)) with (gsum (map (fun j0 => nth j0 ghs gzero) l)).
    set (q := gsum (map (fun j0 => nth j0 (quantized scale ghs) gzero) l)) in *. set (s := gsum (map (fun j0 => nth j0 ghs gzero) l)) in *.
    assert (En : nth j (quantized scale ghs) gzero = (quantize scale (fst (nth j ghs gzero)) # scale, quantize scale (snd (nth j ghs gzero)) # scale)).
    { unfold quantized. rewrite (map_nth_lt _ ghs j gzero gzero); [reflexivity|]. apply Hl. left. reflexivity. }
    rewrite En. unfold gadd. cbn [fst snd].
    destruct (One (fst (nth j ghs gzero))) as [A1 A2]. destruct (One (snd (nth j ghs gzero))) as [B1 B2].
    assert (Eb : (Z.of_nat (S (length l)) # 2 * scale == (1 # 2 * scale) + (Z.of_nat (length l) # 2 * scale))%Q) by (rewrite Qinv_plus_distr, Nat2Z.inj_succ; replace (1 + Z.of_nat (length l))%Z with (Z.succ (Z.of_nat (length l))) by lia; reflexivity).
    clear - A1 A2 B1 B2 I1 I2 I3 I4 Eb. revert A1 A2 B1 B2 I1 I2 I3 I4 Eb.
    generalize (Z.of_nat (S (length l)) # 2 * scale)%Q, (Z.of_nat (length l) # 2 * scale)%Q, (1 # 2 * scale)%Q, (quantize scale (fst (nth j ghs gzero)) # scale)%Q, (quantize scale (snd (nth j ghs gzero)) # scale)%Q, (fst (nth j ghs gzero)), (snd (nth j ghs gzero)), (fst q), (fst s), (snd q), (snd s).
    intros a b c x y u v e f g h A1 A2 B1 B2 I1 I2 I3 I4 Eb. repeat split; lra. }
  apply L. intros j Hj. apply filter_In in Hj. destruct Hj as [Hj _]. apply in_seq in Hj. lia.
Qed.
Print Assumptions C88_quantisation_error.
Example C88_quantisation_example : quantize 4 (3 # 8) = 2%Z /\ quantize 4 (5 # 8) = 2%Z /\ quantize 4 (7 # 10) = 3%Z /\ quantize 4 (- (1 # 3)) = (-1)%Z.
Proof. repeat split. Qed.
Example C88_example : let before := state_before defaults 32768 4 ghs12 [const12; feat12] 2 1 in
  open_above (l_leaf before) 1 2 /\ l_bt before = [1; 1; 1; 1; 1; 1; 1; 1; 2; 2; 2; 2] /\
  Forall2 gh_eq (nth 0 (nth 1 (nth 1 (l_hists (state_before defaults 32768 4 ghs12 [const12; feat12] 2 2)) []) []) []) [(0, 0); (0, 0); (- 1, 1); (- 1, 1)]%Q.
Proof. cbv zeta. split; [vm_compute; auto|]. split; [vm_compute; reflexivity|]. vm_compute. repeat constructor; discriminate. Qed.
