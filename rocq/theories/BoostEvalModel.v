(** SecureBoost.evaluate: mplang/libs/ml/sgb.py:1844-1861, on top of [BoostModel.predict].

    Simplified: probabilities and labels are rationals, the mean is exact; labels have no, one or two axes.
    [==] is numpy's, with broadcasting, which is jax's. *)
From Coq Require Import List ZArith QArith Bool Arith.
From Verif Require Import BoostModel TreeModel.
Import ListNotations.
Local Open Scope nat_scope.

(** the tensor of labels, by number of axes *)
Inductive labels := Scalar (y : Q) | Vector (ys : list Q) | Matrix (rows : list (list Q)).
Inductive outcome := Raises | NotANumber | Accuracy (q : Q).

(** sgb.py:1854 y_pred > 0.5, as a float *)
Definition class_of (p : Q) : Q := if Qle_bool p (1 # 2) then 0%Q else 1%Q.
(** numpy: two rows are compared elementwise, one of length 1 with every element of the other *)
Definition row_eq (p y : list Q) : option (list bool) :=
  if length p =? length y then Some (map (fun c => Qeq_bool (fst c) (snd c)) (combine p y))
  else match p, y with
       | [x], _ => Some (map (Qeq_bool x) y)
       | _, [x] => Some (map (fun c => Qeq_bool c x) p)
       | _, _ => None
       end.
Fixpoint rows_eq (p : list Q) (rows : list (list Q)) : option (list bool) :=
  match rows with
  | [] => Some []
  | r :: rest => match row_eq p r, rows_eq p rest with Some a, Some b => Some (a ++ b) | _, _ => None end
  end.
(** 1855 jnp.mean *)
Definition mean (r : option (list bool)) : outcome :=
  match r with
  | None => Raises
  | Some [] => NotANumber
  | Some (b :: l) => Accuracy (inject_Z (Z.of_nat (length (filter id (b :: l)))) / inject_Z (Z.of_nat (length (b :: l))))
  end.
(** 1853-1856 compute_metrics *)
Definition metrics (y_pred : list Q) (y_true : labels) : outcome :=
  let c := map class_of y_pred in
  match y_true with
  | Scalar y => mean (row_eq c [y])
  | Vector ys => mean (row_eq c ys)
  | Matrix rows => mean (rows_eq c rows)
  end.
(** 1844-1861; [samples]: the features of each sample at every party *)
Definition evaluate (prob : Q -> Q) (lr : Q) (depth : nat) (m : model) (samples : list (list (list Q))) (y : labels) : outcome :=
  metrics (map (predict prob lr depth m) samples) y.
