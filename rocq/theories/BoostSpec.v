(** What gradient boosting is, independently of the loop (C196). *)
From Coq Require Import List ZArith QArith Bool Arith.
From Verif Require Import MPCBase BFVModel SGBModel TreeModel TreeSpec.
Import ListNotations.
Local Open Scope nat_scope.

(** the score of a sample: initial score plus learning rate times the values of its leaves *)
Definition score (init lr : Q) (depth : nat) (trees : list tree) (rows : list (list Q)) : Q :=
  (init + lr * fold_right Qplus 0 (map (fun t => nth (walk t rows depth 0) (t_val t) 0) trees))%Q.
