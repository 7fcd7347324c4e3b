(** SecureBoost.fit and predict: mplang/libs/ml/sgb.py:1575-1681 (fit_tree_ensemble), 1740-1838,
    1529-1567 (predict_ensemble), on top of the trees of TreeModel.

    Simplified as in TreeModel (rationals for floats, the encrypted histograms are the plaintext
    ones); the logistic functions of sgb.py:94-113 are parameters: [init_of] (compute_init_pred),
    [gradient] (one row of compute_gh), [prob] (sigmoid). *)
From Coq Require Import List ZArith QArith Bool Arith.
From Verif Require Import MPCBase BFVModel SGBModel TreeModel.
Import ListNotations.
Local Open Scope nat_scope.

Section Boost.
Variables (L : Type) (init_of : list L -> Q) (gradient : L -> Q -> gh) (prob : Q -> Q).
Variables (p : params) (scale : positive) (lr : Q) (depth : nat).

(** sgb.py:1666, 1829 *)
Definition n_nodes : nat := 2 ^ (depth + 1) - 1.

(** the features of the samples, one entry per sample: all_datas *)
Definition rows_of (parties : list party) (m : nat) : list (list (list Q)) :=
  map (fun j => map (fun P => nth j (p_data P) []) parties) (seq 0 m).

(** sgb.py:1619-1675: the loop over the estimators; [preds]: y_pred *)
Fixpoint boost (n_buckets : nat) (parties : list party) (y : list L) (n : nat) (preds : list Q) : list tree * list Q :=
  match n with
  | O => ([], preds)
  | S n' =>
      let ghs := map (fun lp => gradient (fst lp) (snd lp)) (combine y preds) in
      let t := fst (build_tree p scale n_buckets ghs parties depth) in
      let tp := map (predict_tree t n_nodes) (rows_of parties (length y)) in
      let preds' := map (fun q => (fst q + lr * snd q)%Q) (combine preds tp) in
      let r := boost n_buckets parties y n' preds' in
      (t :: fst r, snd r)
  end.

(** 80-86 TreeEnsemble *)
Record model : Type := Model { m_trees : list tree; m_init : Q }.

(** 1740-1814, 1597-1600 *)
Definition fit (max_bin n_estimators : nat) (data : list (nat * list (list Q))) (y : list L) : model :=
  let parties := map (fun d => bin_party max_bin (fst d) (snd d)) data in
  let init := init_of y in
  Model (fst (boost (max_bin + 1) parties y n_estimators (repeat init (length y)))) init.

(** 1529-1567: the probability of a sample with features [rows] at the parties *)
Definition predict (m : model) (rows : list (list Q)) : Q :=
  prob (fold_left (fun acc t => (acc + lr * predict_tree t n_nodes rows)%Q) (m_trees m) (m_init m)).
End Boost.
