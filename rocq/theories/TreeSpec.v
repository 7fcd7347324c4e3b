(** Specifications for SecureBoost (C85-C88). *)
From Coq Require Import List ZArith QArith Bool Arith.
From Verif Require Import MPCBase BFVModel SGBModel TreeModel.
Import ListNotations.
Local Open Scope nat_scope.

(** ** Plain traversal of a tree *)

(** [rows]: the sample's feature values at every party.  The owner of a node compares
    its feature with its threshold. *)
Definition goes_left (t : tree) (rows : list (list Q)) (node : nat) : bool :=
  let p := Z.to_nat (nth node (t_own t) (-1)%Z) in
  le_x (jget 0%Q (nth p rows []) (nth node (nth p (t_feat t) []) (-1)%Z)) (nth node (nth p (t_thr t) []) None).

Definition step_down (t : tree) (rows : list (list Q)) (node : nat) : nat :=
  if nth node (t_leaf t) false then node
  else if goes_left t rows node then 2 * node + 1 else 2 * node + 2.

(** the node reached from [node] after [fuel] steps *)
Fixpoint walk (t : tree) (rows : list (list Q)) (fuel node : nat) : nat :=
  match fuel with O => node | S f => walk t rows f (step_down t rows node) end.

(** a tree of the given depth over parties 0 .. n_parties-1 *)
Definition proper_tree (t : tree) (n_parties depth : nat) : Prop :=
  (forall k, 2 ^ depth - 1 <= k < 2 ^ (depth + 1) - 1 -> nth k (t_leaf t) false = true) /\
  (forall k, k < 2 ^ depth - 1 -> nth k (t_leaf t) false = false ->
     exists p, p < n_parties /\ nth k (t_own t) (-1)%Z = Z.of_nat p).

(** ** Training data *)

(** the parties as SecureBoost.fit sets them up: party k has samples [data_k], all with
    [nf_k] features *)
Definition fitted (max_bin m : nat) (parties : list party) : Prop :=
  Forall (fun P => exists nf data, P = bin_party max_bin nf data /\ length data = m /\ Forall (fun row => length row = nf) data) parties.

(** the features of sample j at every party *)
Definition sample (parties : list party) (j : nat) : list (list Q) := map (fun P => nth j (p_data P) []) parties.

(** every split the levels decided on uses an existing boundary *)
Definition boundary_exists (max_bin : nat) (log : list (list (list split))) : Prop :=
  forall all level i p g, nth_error log level = Some all -> i < 2 ^ level ->
    global_best all i = (p, g) -> is_new_leaf g = false ->
    s_thr (nth i (nth p all []) (Split None 0 0)) < max_bin - 1.

(** ** Split quality, from the samples *)

(** sum of (g, h) over the samples selected by [sel] *)
Definition sum_where (ghs : list gh) (sel : nat -> bool) : gh :=
  gsum (map (fun j => nth j ghs gzero) (filter sel (seq 0 (length ghs)))).

Definition gain_eq (a b : option Q) : Prop :=
  match a, b with Some x, Some y => (x == y)%Q | None, None => True | _, _ => False end.

(** G^2 / (H + lambda), with the code's 1e-9 in the denominator *)
Definition reg_score (p : params) (x : gh) : Q := (fst x * fst x / (snd x + reg_lambda p + (1 # 1000000000)))%Q.

(** the regularised gain (sgb.py:196-207) of sending the samples of [at_node] with [left]
    to the left child and the others to the right; None: a child is too light *)
Definition split_gain (p : params) (ghs : list gh) (at_node left : nat -> bool) : option Q :=
  let l := sum_where ghs (fun j => at_node j && left j) in
  let r := sum_where ghs (fun j => at_node j && negb (left j)) in
  let a := sum_where ghs at_node in
  if Qle_bool (min_child_weight p) (snd l) && Qle_bool (min_child_weight p) (snd r)
  then Some ((reg_score p l + reg_score p r - reg_score p a) / 2 - gamma p)%Q
  else None.

(** "feature f of sample j is at most the t-th boundary of feature f" (the boundary after
    the last is +inf) *)
Definition at_most (P : party) (f t j : nat) : bool :=
  le_x (nth f (nth j (p_data P) []) 0%Q) (nth t (nth f (p_bins P) []) None).

(** the weight of a leaf holding samples with gradient and hessian sums [s] *)
Definition leaf_weight (p : params) (s : gh) : Q :=
  if Qeq_bool (snd s) 0 then 0%Q else (- fst s / (snd s + reg_lambda p))%Q.

(** the gains that make a node a split node *)
Definition worth_it (g : option Q) : Prop := exists x, g = Some x /\ (0 < x)%Q.

(** like [boundary_exists], only for the splits won by the passive parties *)
Definition passive_boundary_exists (max_bin : nat) (log : list (list (list split))) : Prop :=
  forall all level i p g, nth_error log level = Some all -> i < 2 ^ level ->
    global_best all i = (p, g) -> is_new_leaf g = false -> 0 < p ->
    s_thr (nth i (nth p all []) (Split None 0 0)) < max_bin - 1.

Definition gh_eq (a b : gh) : Prop := (fst a == fst b /\ snd a == snd b)%Q.
Definition hist_eq (a b : list gh) : Prop := Forall2 gh_eq a b.

(** all proper ancestors of [node] are split nodes *)
Fixpoint open_above (leaf : list bool) (depth node : nat) : Prop :=
  match depth with
  | O => True
  | S d => let parent := (node - 1) / 2 in nth parent leaf false = false /\ open_above leaf d parent
  end.

(** ** Passive parties *)

(** the gradients as they travel encrypted: fixed point with the given scale *)
Definition quantized (scale : positive) (ghs : list gh) : list gh :=
  map (fun x => (quantize scale (fst x) # scale, quantize scale (snd x) # scale)) ghs.

(** sample j counted [w j] times *)
Definition weighted_sum (ghs : list gh) (w : nat -> nat) : gh :=
  gsum (map (fun j => (inject_Z (Z.of_nat (w j)) * fst (nth j ghs gzero), inject_Z (Z.of_nat (w j)) * snd (nth j ghs gzero))%Q) (seq 0 (length ghs))).

(** the gain of threshold t when a sample of bucket b counts t+1-b times on the left and
    n_buckets-b times in total *)
Definition repeated_gain (p : params) (ghs : list gh) (at_node : nat -> bool) (bin : nat -> nat) (n_buckets t : nat) : option Q :=
  let l := weighted_sum ghs (fun j => if at_node j then t + 1 - bin j else 0) in
  let a := weighted_sum ghs (fun j => if at_node j then n_buckets - bin j else 0) in
  let r := gsub a l in
  if Qle_bool (min_child_weight p) (snd l) && Qle_bool (min_child_weight p) (snd r)
  then Some ((reg_score p l + reg_score p r - reg_score p a) / 2 - gamma p)%Q
  else None.

(** the state of training before level L *)
Definition state_before (p : params) (scale : positive) (n_buckets : nat) (ghs : list gh) (parties : list party) (depth L : nat) : lstate :=
  fold_left (fun s level => level_step p scale n_buckets ghs (map (fun x => quantize scale (fst x)) ghs) (map (fun x => quantize scale (snd x)) ghs) parties level s)
    (seq 0 L) (init_state (length parties) (length ghs) depth).
