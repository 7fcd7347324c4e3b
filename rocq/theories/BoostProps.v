(** C196: SecureBoost is gradient boosting. *)
From Coq Require Import List ZArith QArith Qabs Bool Arith Lia Setoid Morphisms.
From Verif Require Import MPCBase BFVModel BFVSpec SGBModel TreeModel TreeSpec TreeProofs TreePredict TreeSplit TreeTrain TreeHist TreeProps BoostModel BoostSpec.
Import ListNotations.
Local Open Scope nat_scope.

Section P.
Variables (L : Type) (gradient : L -> Q -> gh) (p : params) (scale : positive) (lr : Q) (depth : nat).
Notation boost := (boost L gradient p scale lr depth).
Notation logits := (fun init trees rows => fold_left (fun acc t => (acc + lr * predict_tree t (n_nodes depth) rows)%Q) trees init).

Lemma combine_map_self {A B C D} (f : A -> B) (g : A -> C) (h : B * C -> D) l : map h (combine (map f l) (map g l)) = map (fun x => h (f x, g x)) l.
Proof. induction l as [|x l IH]; [reflexivity|]. cbn. now rewrite IH. Qed.

(** the state of the loop: predictions are those of the trees so far *)
Lemma boost_spec nb parties y n : forall (init : Q) (done : list tree),
  let rows := rows_of parties (length y) in
  let r := boost nb parties y n (map (logits init done) rows) in
  length (fst r) = n /\
  snd r = map (logits init (done ++ fst r)) rows /\
  forall k t, nth_error (fst r) k = Some t ->
    t = fst (build_tree p scale nb (map (fun lq => gradient (fst lq) (snd lq)) (combine y (map (logits init (done ++ firstn k (fst r))) rows))) parties depth).
Proof.
  induction n as [|n IH]; intros init done rows r.
  - unfold r. cbn. rewrite app_nil_r. repeat split. intros [|k] t H; discriminate H.
  - unfold r. cbn [BoostModel.boost]. fold rows.
    set (ghs := map _ (combine y _)). set (t0 := fst (build_tree p scale nb ghs parties depth)).
    rewrite combine_map_self. cbn [fst snd].
    replace (map (fun x => (logits init done x + lr * predict_tree t0 (n_nodes depth) x)%Q) rows) with (map (logits init (done ++ [t0])) rows).
    2:{ apply map_ext. intros x. now rewrite fold_left_app. }
    specialize (IH init (done ++ [t0])). cbv zeta in IH. fold rows in IH. destruct IH as (I1 & I2 & I3).
    set (q := boost nb parties y n (map (logits init (done ++ [t0])) rows)) in *. cbn [fst snd length].
    split; [now rewrite I1|]. split; [rewrite I2; now rewrite <- app_assoc|].
    intros [|k] t H; cbn in H.
    + injection H as <-. cbn [firstn]. rewrite app_nil_r. reflexivity.
    + rewrite (I3 k t H). cbn [firstn]. now rewrite <- app_assoc.
Qed.
Lemma boost_prefix nb parties y n k : forall preds, fst (boost nb parties y n preds) = firstn n (fst (boost nb parties y (n + k) preds)).
Proof. induction n as [|n IH]; intros preds; [reflexivity|]. cbn. now rewrite <- IH. Qed.
End P.

(** *** C196.  fit makes n_estimators trees; the k-th is the tree grown (C86, C87, C187) on the
    gradients and hessians that the model made of the first k trees has at the training samples;
    and predict gives, at every sample, the probability of the initial score plus learning rate
    times the values of the trees. *)
Theorem C196_boosting : forall (L : Type) (init_of : list L -> Q) (gradient : L -> Q -> gh) (p : params) (scale : positive) (lr : Q) (depth max_bin n : nat)
    (data : list (nat * list (list Q))) (y : list L) (y0 : L),
  let parties := map (fun d => bin_party max_bin (fst d) (snd d)) data in
  let m := fit L init_of gradient p scale lr depth max_bin n data y in
  let model_at k := Model (firstn k (m_trees m)) (m_init m) in
  length (m_trees m) = n /\ m_init m = init_of y /\
  forall k t, nth_error (m_trees m) k = Some t ->
  exists ghs, length ghs = length y /\
    (forall j, j < length y -> nth j ghs gzero = gradient (nth j y y0) (predict (fun x => x) lr depth (model_at k) (sample parties j))) /\
    t = fst (build_tree p scale (max_bin + 1) ghs parties depth).
Proof.
  intros L init_of gradient p scale lr depth max_bin n data y y0 parties m model_at.
  pose proof (boost_spec L gradient p scale lr depth (max_bin + 1) parties y n (init_of y) []) as B. cbv zeta in B.
  cbn [fold_left app] in B.
  assert (R : map (fun _ : list (list Q) => init_of y) (rows_of parties (length y)) = repeat (init_of y) (length y)).
  { unfold rows_of. rewrite map_map. generalize 0. generalize (length y). induction n0 as [|n0 IH]; intros i; [reflexivity|]. cbn. now rewrite IH. }
  rewrite R in B. destruct B as (B1 & _ & B3).
  split; [exact B1|]. split; [reflexivity|]. intros k t Ht.
  exists (map (fun lq => gradient (fst lq) (snd lq)) (combine y (map (fun rows => predict (fun x => x) lr depth (model_at k) rows) (rows_of parties (length y))))).
  assert (Lr : length (rows_of parties (length y)) = length y) by (unfold rows_of; now rewrite map_length, seq_length).
  split; [rewrite map_length, combine_length, map_length, Lr; lia|]. split; [|exact (B3 k t Ht)].
  intros j Hj. set (preds := map _ (rows_of parties (length y))).
  assert (Lp : length preds = length y) by (unfold preds; now rewrite map_length).
  rewrite (nth_indep _ gzero (gradient y0 (nth j preds 0%Q))) by (rewrite map_length, combine_length, Lp; lia).
  pose proof (map_nth (fun lq => gradient (fst lq) (snd lq)) (combine y preds) (y0, nth j preds 0%Q) j) as M. cbn [fst snd] in M. rewrite M, combine_nth by (symmetry; exact Lp). cbn [fst snd]. f_equal.
  unfold preds. rewrite (nth_indep _ _ (predict (fun x => x) lr depth (model_at k) [])) by (rewrite map_length, Lr; exact Hj).
  rewrite map_nth. f_equal. unfold rows_of. rewrite (nth_indep _ [] (map (fun P => nth 0 (p_data P) []) parties)) by (rewrite map_length, seq_length; exact Hj).
  rewrite (map_nth (fun j => map (fun P => nth j (p_data P) []) parties) (seq 0 (length y)) 0 j), seq_nth by exact Hj. reflexivity.
Qed.
Print Assumptions C196_boosting.

(** A model with more estimators extends one with fewer. *)
Theorem C196_more_estimators : forall (L : Type) (init_of : list L -> Q) (gradient : L -> Q -> gh) (p : params) (scale : positive) (lr : Q) (depth max_bin n k : nat)
    (data : list (nat * list (list Q))) (y : list L),
  m_trees (fit L init_of gradient p scale lr depth max_bin n data y) = firstn n (m_trees (fit L init_of gradient p scale lr depth max_bin (n + k) data y)).
Proof. intros. unfold fit. cbn [m_trees]. apply boost_prefix. Qed.
Print Assumptions C196_more_estimators.

(** predict: at every sample the score is the initial one plus the learning rate times the leaf
    values on the plain paths (for each tree: left exactly when the owner's feature is at most the
    node's threshold). *)
Theorem C196_prediction : forall (L : Type) (init_of : list L -> Q) (gradient : L -> Q -> gh) (prob : Q -> Q) (p : params) (scale : positive) (lr : Q) (depth max_bin n : nat)
    (data : list (nat * list (list Q))) (y : list L) (rows : list (list Q)),
  (forall a b, (a == b)%Q -> (prob a == prob b)%Q) -> 1 <= max_bin -> 0 < length data -> length rows = length data ->
  let m := fit L init_of gradient p scale lr depth max_bin n data y in
  Forall (fun t => proper_tree t (length rows) depth) (m_trees m) /\
  (predict prob lr depth m rows == prob (score (init_of y) lr depth (m_trees m) rows))%Q.
Proof.
  intros L init_of gradient prob p scale lr depth max_bin n data y rows Hp Mb Ld Lr m.
  assert (Ht : Forall (fun t => proper_tree t (length rows) depth) (m_trees m)).
  { unfold m, fit. cbn [m_trees]. set (parties := map _ data). assert (Lp : length parties = length rows) by (unfold parties; rewrite map_length; lia).
    generalize (repeat (init_of y) (length y)). induction n as [|n' IH]; intros preds; [constructor|]. cbn [BoostModel.boost fst]. constructor; [|apply IH].
    replace (max_bin + 1) with (S max_bin) by lia. rewrite <- Lp. apply t_proper; [exact Mb|lia]. }
  split; [exact Ht|]. unfold predict. apply Hp. exact (C85_ensemble (m_init m) lr (m_trees m) rows depth Ht ltac:(lia)).
Qed.
Print Assumptions C196_prediction.

(** With the active party alone: every tree adds to the score of a training sample learning rate
    times the Newton step -G/(H+lambda) of the samples in its leaf, with the gradients and
    hessians of the model so far. *)
Theorem C196_newton_steps : forall (L : Type) (init_of : list L -> Q) (gradient : L -> Q -> gh) (p : params) (scale : positive) (lr : Q) (depth max_bin n nf : nat)
    (data : list (list Q)) (y : list L) (y0 : L),
  1 <= max_bin -> length data = length y -> Forall (fun row => length row = nf) data -> (0 <= gamma p)%Q \/ (0 < min_child_weight p)%Q ->
  let m := fit L init_of gradient p scale lr depth max_bin n [(nf, data)] y in
  let at_ k j := predict (fun x => x) lr depth (Model (firstn k (m_trees m)) (m_init m)) [nth j data []] in
  forall k t, nth_error (m_trees m) k = Some t -> forall j, j < length y ->
  exists ghs, length ghs = length y /\ (forall i, i < length y -> nth i ghs gzero = gradient (nth i y y0) (at_ k i)) /\
    at_ (S k) j = (at_ k j + lr * leaf_weight p (sum_where ghs (fun i => (walk t [nth i data []] depth 0 =? walk t [nth j data []] depth 0)%nat)))%Q.
Proof.
  intros L init_of gradient p scale lr depth max_bin n nf data y y0 Mb Ld R Pen m at_ k t Ht j Hj.
  destruct (C196_boosting L init_of gradient p scale lr depth max_bin n [(nf, data)] y y0) as (Ln & _ & H). fold m in Ln, H. destruct (H k t Ht) as (ghs & Lg & Hg & Et).
  exists ghs. split; [exact Lg|]. split; [exact Hg|].
  destruct (build_tree p scale (max_bin + 1) ghs [bin_party max_bin nf data] depth) as [t' bt] eqn:E.
  assert (Ett : t = t') by (rewrite Et; change (map (fun d : nat * list (list Q) => bin_party max_bin (fst d) (snd d)) [(nf, data)]) with [bin_party max_bin nf data]; rewrite E; reflexivity). subst t'.
  destruct (C86_active_party_alone_agrees p scale max_bin nf ghs data depth Mb ltac:(congruence) R Pen t bt E j ltac:(lia)) as [_ W].
  unfold at_, predict. cbn [m_trees m_init].
  assert (F : firstn (S k) (m_trees m) = firstn k (m_trees m) ++ [t]).
  { clear -Ht. revert k Ht. induction (m_trees m) as [|a l IH]; intros [|k] Ht; try discriminate Ht; cbn in *; [injection Ht as ->; reflexivity|]. f_equal. now apply IH. }
  rewrite F, fold_left_app. cbn [fold_left]. unfold n_nodes. rewrite W. reflexivity.
Qed.
Print Assumptions C196_newton_steps.

(** An instance: 12 samples of the active party, two trees, a rational logistic function. *)
Definition ex_y : list Z := [0; 0; 0; 0; 1; 1; 0; 1; 1; 1; 1; 0]%Z.
Definition ex_gradient (y : Z) (s : Q) : gh := TreeProps.grad (Qred ((1 + s / (1 + Qabs.Qabs s)) / 2)) y.
Definition ex_data : list (list Q) := map (fun i => [inject_Z (Z.of_nat i)]) (seq 0 12).
Definition ex_model : model := fit Z (fun _ => 0%Q) ex_gradient defaults 32768 (1 # 2) 1 4 2 [(1, ex_data)] ex_y.
Definition ex_scores (n : nat) : list Q :=
  map (fun j => Qred (predict (fun x => x) (1 # 2) 1 (Model (firstn n (m_trees ex_model)) (m_init ex_model)) [nth j ex_data []])) (seq 0 12).
Example C196_example :
  length (m_trees ex_model) = 2 /\
  ex_scores 0 = repeat 0%Q 12 /\
  ex_scores 1 = repeat (-1 # 5)%Q 6 ++ repeat (1 # 5)%Q 6 /\
  ex_scores 2 = repeat (-89 # 295)%Q 6 ++ repeat (89 # 295)%Q 6 /\
  1 <= 4 /\ length ex_data = length ex_y /\ Forall (fun row => length row = 1) ex_data /\ (0 <= gamma defaults)%Q.
Proof.
  split; [vm_compute; reflexivity|]. split; [vm_compute; reflexivity|]. split; [vm_compute; reflexivity|]. split; [vm_compute; reflexivity|].
  split; [lia|]. split; [reflexivity|]. split; [repeat constructor|]. discriminate.
Qed.
