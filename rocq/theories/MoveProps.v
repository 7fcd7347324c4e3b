(** C222: reshape, transpose, concat and gather move elements and change none
    (backends/tensor_impl.py:278-284, 764-814, modelled in TensorModel). *)
From Coq Require Import List ZArith Bool Arith Lia.
From Coq Require FinFun.
From Verif Require Import TensorModel TensorProofs.
Import ListNotations.
Local Open Scope nat_scope.

(** ** Specification *)
(** the elements of a tensor of shape [s] in row-major order *)
Fixpoint flatten (s : list nat) (g : list nat -> Z) : list Z :=
  match s with [] => [g []] | n :: s' => flat_map (fun i => flatten s' (fun idx => g (i :: idx))) (seq 0 n) end.
(** [idx] is an index of a tensor of shape [s] *)
Definition index (s idx : list nat) : Prop := Forall2 lt idx s.
(** axis [k] of a tensor of [rank] axes, as [axis] names it: negative names count from the end *)
Definition names (axis : Z) (rank k : nat) : Prop := k < rank /\ (axis = Z.of_nat k \/ axis = Z.of_nat k - Z.of_nat rank)%Z.

(** ** Proofs *)
Local Lemma index_len : forall s idx, index s idx -> length idx = length s.
Proof. intros s idx H. induction H; cbn; congruence. Qed.
Local Lemma index_in : forall s idx, index s idx <-> in_shape s idx = true.
Proof.
  induction s as [|n s IH]; intros [|i idx]; cbn [in_shape]; unfold index.
  - split; [reflexivity | constructor].
  - split; [intros H; inversion H | discriminate].
  - split; [intros H; inversion H | discriminate].
  - rewrite andb_true_iff, Nat.ltb_lt, <- IH. split; [intros H; inversion H; subst; auto | intros [A B]; constructor; assumption].
Qed.
Local Lemma unravel_ok : forall s k, k < size s -> index s (unravel s k) /\ ravel s (unravel s k) = k.
Proof.
  induction s as [|n s IH]; intros k Hk; cbn in *; [split; [constructor | unfold size in Hk; cbn in Hk; lia]|].
  change (fold_right Nat.mul 1 s) with (size s) in *.
  unfold size in Hk. cbn in Hk. change (fold_right Nat.mul 1 s) with (size s) in Hk.
  assert (P : size s <> 0) by (intros E; rewrite E in Hk; lia).
  destruct (IH (k mod size s) (Nat.mod_upper_bound _ _ P)) as [A B]. split.
  - constructor; [apply Nat.div_lt_upper_bound; lia | exact A].
  - rewrite B. pose proof (Nat.div_mod k (size s) P). lia.
Qed.
Local Lemma ravel_ok : forall s idx, index s idx -> ravel s idx < size s /\ unravel s (ravel s idx) = idx.
Proof.
  induction s as [|n s IH]; intros idx H; inversion H; subst; cbn; [split; [unfold size; cbn; lia | reflexivity]|].
  destruct (IH _ H4) as [A B]. unfold size at 2. cbn. change (fold_right Nat.mul 1 s) with (size s).
  split; [nia|]. rewrite Nat.div_add_l, Nat.div_small, Nat.add_0_r by lia. f_equal.
  rewrite Nat.add_comm, Nat.mod_add, Nat.mod_small by lia. exact B.
Qed.
Local Lemma grid : forall (h : nat -> nat -> Z) m n,
  flat_map (fun i => map (h i) (seq 0 m)) (seq 0 n) = map (fun k => h (k / m) (k mod m)) (seq 0 (n * m)).
Proof.
  intros h m n. destruct m as [|m']; [rewrite Nat.mul_0_r; cbn; induction (seq 0 n) as [|x l IH]; [reflexivity | exact IH]|].
  set (m := S m'). induction n as [|n IH]; [reflexivity|]. rewrite seq_S, flat_map_app, IH. cbn [flat_map Nat.add]. rewrite app_nil_r.
  replace (S n * m) with (n * m + m) by lia. rewrite seq_app, map_app. f_equal. cbn [Nat.add].
  replace (seq (n * m) m) with (map (Nat.add (n * m)) (seq 0 m)).
  - rewrite map_map. apply map_ext_in. intros k Hk. apply in_seq in Hk.
    rewrite Nat.div_add_l, Nat.div_small, Nat.add_0_r by (unfold m in *; lia).
    rewrite Nat.add_comm, Nat.mod_add, Nat.mod_small by (unfold m in *; lia). reflexivity.
  - clear. generalize (n * m) as a. generalize m. clear. intros m a. rewrite <- (Nat.add_0_r a) at 2. generalize 0 as b.
    induction m as [|m IH]; intros b; [reflexivity|]. cbn. f_equal. rewrite IH. f_equal. lia.
Qed.
Local Lemma flatten_map : forall s g, flatten s g = map (fun k => g (unravel s k)) (seq 0 (size s)).
Proof.
  induction s as [|n s IH]; intros g; [reflexivity|]. cbn [flatten]. unfold size. cbn [fold_right]. change (fold_right Nat.mul 1 s) with (size s).
  etransitivity; [|exact (grid (fun i k => g (i :: unravel s k)) (size s) n)]. apply flat_map_ext. intros i. apply IH.
Qed.
Local Lemma flatten_at : forall s g idx, index s idx -> nth (ravel s idx) (flatten s g) 0%Z = g idx.
Proof.
  intros s g idx H. destruct (ravel_ok s idx H) as [A B]. rewrite flatten_map.
  rewrite (nth_indep _ 0%Z (g (unravel s 0))) by (rewrite map_length, seq_length; exact A).
  rewrite (map_nth (fun k => g (unravel s k))), seq_nth by exact A. cbn [Nat.add]. rewrite B. reflexivity.
Qed.
Local Lemma size_zprod : forall ds, Forall (fun d => (0 <= d)%Z) ds -> Z.of_nat (size (map Z.to_nat ds)) = zprod ds.
Proof.
  induction ds as [|d ds IH]; intros H; [reflexivity|]. inversion H; subst. unfold size, zprod in *. cbn. rewrite Nat2Z.inj_mul, IH, Z2Nat.id by assumption. reflexivity.
Qed.
Local Lemma fill_prod : forall v ds, count_neg1 ds = 1 ->
  zprod (map (fun d => if (d =? -1)%Z then v else d) ds) = (v * zprod (filter (fun d => negb (d =? -1)%Z) ds))%Z.
Proof.
  intros v. assert (Z0 : forall ds, count_neg1 ds = 0 -> map (fun d => if (d =? -1)%Z then v else d) ds = ds /\ filter (fun d => negb (d =? -1)%Z) ds = ds).
  { induction ds as [|d ds IH]; intros C; [split; reflexivity|]. unfold count_neg1 in *. cbn in *. destruct (d =? -1)%Z; cbn in *; [discriminate|].
    destruct (IH C) as [-> ->]. split; reflexivity. }
  induction ds as [|d ds IH]; intros C; [discriminate|]. unfold count_neg1 in *. cbn in *. destruct (d =? -1)%Z; cbn in *.
  - injection C as C. destruct (Z0 ds C) as [-> ->]. reflexivity.
  - unfold zprod in *. cbn. rewrite IH by exact C. lia.
Qed.
Local Lemma reshape_ok : forall ns a r, np_reshape ns a = Ok r ->
  exists ds, sh r = map Z.to_nat ds /\ size (sh r) = size (sh a) /\ length ds = length ns /\
  (forall k, k < length ns -> nth k ns 0%Z <> (-1)%Z -> nth k ds 0%Z = nth k ns 0%Z /\ (0 <= nth k ns 0)%Z) /\
  forall idx, get r idx = get a (unravel (sh a) (ravel (sh r) idx)).
Proof.
  intros ns a r H. unfold np_reshape in H. destruct (Nat.eqb_spec (count_neg1 ns) 0).
  - destruct (forallb _ ns) eqn:F; [|discriminate]. destruct (Z.eqb_spec (zprod ns) (zsize (sh a))) as [E|]; [|discriminate]. cbn [andb] in H. injection H as <-.
    exists ns. cbn [sh get]. assert (P : Forall (fun d => (0 <= d)%Z) ns).
    { apply Forall_forall. rewrite forallb_forall in F. intros d Hd. apply Z.leb_le, F, Hd. }
    split; [reflexivity|]. split; [apply Nat2Z.inj; rewrite size_zprod by exact P; exact E|]. split; [reflexivity|]. split; [|reflexivity].
    intros k Hk _. split; [reflexivity|]. rewrite Forall_forall in P. apply P, nth_In, Hk.
  - destruct (Nat.eqb_spec (count_neg1 ns) 1) as [C|]; [|discriminate]. set (known := zprod (filter _ ns)) in *.
    destruct (forallb _ ns) eqn:F; [|discriminate]. destruct (Z.eqb_spec known 0) as [|K]; [discriminate|].
    destruct (Z.eqb_spec (zsize (sh a) mod known) 0) as [M|]; [|discriminate]. cbn [andb negb] in H. injection H as <-.
    set (f := fun d => if (d =? -1)%Z then (zsize (sh a) / known)%Z else d). exists (map f ns). cbn [sh get].
    assert (F' : forall d, In d ns -> d = (-1)%Z \/ (0 <= d)%Z).
    { intros d Hd. rewrite forallb_forall in F. specialize (F d Hd). apply orb_prop in F. destruct F as [F|F]; [left; apply Z.eqb_eq, F | right; apply Z.leb_le, F]. }
    assert (Kp : (0 < known)%Z).
    { assert (0 <= known)%Z; [|lia]. unfold known. clear -F'. induction ns as [|d ns IH]; [cbn; lia|]. cbn. destruct (Z.eqb_spec d (-1)); cbn; [apply IH; intros; apply F'; right; assumption|].
      specialize (IH ltac:(intros; apply F'; right; assumption)). destruct (F' d (or_introl eq_refl)); [contradiction|]. unfold zprod in *. cbn. lia. }
    assert (Pd : Forall (fun d => (0 <= d)%Z) (map f ns)).
    { apply Forall_map, Forall_forall. intros d Hd. unfold f. destruct (Z.eqb_spec d (-1)); [apply Z.div_pos; unfold zsize; lia|]. destruct (F' d Hd); [contradiction | assumption]. }
    split; [reflexivity|]. split.
    + apply Nat2Z.inj. rewrite size_zprod by exact Pd. unfold f. rewrite fill_prod by exact C. fold known.
      pose proof (Z.div_mod (zsize (sh a)) known K). unfold zsize in *. lia.
    + split; [apply map_length|]. split; [|reflexivity]. intros k Hk N1. change 0%Z with (f 0%Z) at 1. rewrite map_nth. unfold f.
      destruct (Z.eqb_spec (nth k ns 0%Z) (-1)); [contradiction|]. split; [reflexivity|]. destruct (F' (nth k ns 0%Z) (nth_In _ _ Hk)); [contradiction | assumption].
Qed.

(** ** The theorems *)

(** Reshaping gives the shape asked for and keeps the elements in row-major order. *)
Theorem C222_reshape : forall (new_shape : list Z) (x r : arr), np_reshape new_shape x = Ok r ->
  length (sh r) = length new_shape /\
  (forall k, k < length new_shape -> nth k new_shape 0%Z <> (-1)%Z -> Z.of_nat (nth k (sh r) 0) = nth k new_shape 0%Z) /\
  flatten (sh r) (get r) = flatten (sh x) (get x).
Proof.
  intros ns a r H. destruct (reshape_ok ns a r H) as (ds & S0 & Sz & L & D & G). split; [rewrite S0, map_length; exact L|]. split.
  - intros k Hk N1. destruct (D k Hk N1) as [E P]. rewrite S0. change 0 with (Z.to_nat 0). rewrite map_nth, E. lia.
  - rewrite !flatten_map, Sz. apply map_ext_in. intros k Hk. apply in_seq in Hk. rewrite G.
    destruct (unravel_ok (sh r) k ltac:(lia)) as [_ ->]. reflexivity.
Qed.
Print Assumptions C222_reshape.

(** Reshaping back gives the tensor one started from. *)
Theorem C222_reshape_back : forall (new_shape : list Z) (x r : arr), np_reshape new_shape x = Ok r ->
  exists y, np_reshape (map Z.of_nat (sh x)) r = Ok y /\ sh y = sh x /\ forall idx, index (sh x) idx -> get y idx = get x idx.
Proof.
  intros ns a r H. destruct (reshape_ok ns a r H) as (ds & S0 & Sz & _ & _ & G).
  assert (N0 : count_neg1 (map Z.of_nat (sh a)) = 0).
  { unfold count_neg1. clear. induction (sh a) as [|d s IH]; [reflexivity|]. cbn [map filter]. destruct (Z.eqb_spec (Z.of_nat d) (-1)); [lia | exact IH]. }
  assert (P : Forall (fun d => (0 <= d)%Z) (map Z.of_nat (sh a))) by (apply Forall_map, Forall_forall; intros; lia).
  assert (Id : map Z.to_nat (map Z.of_nat (sh a)) = sh a) by (rewrite map_map; rewrite <- (map_id (sh a)) at 2; apply map_ext; intros; apply Nat2Z.id).
  assert (Ex : exists y, np_reshape (map Z.of_nat (sh a)) r = Ok y).
  { unfold np_reshape. rewrite N0. cbn [Nat.eqb]. rewrite <- size_zprod, Id by exact P. unfold zsize. rewrite Sz, Z.eqb_refl.
    replace (forallb _ _) with true; [eexists; reflexivity|]. symmetry. apply forallb_forall. rewrite Forall_forall in P. intros d Hd. apply Z.leb_le, P, Hd. }
  destruct Ex as [y Hy]. exists y. split; [exact Hy|]. assert (Sy : sh y = sh a).
  { unfold np_reshape in Hy. rewrite N0 in Hy. cbn [Nat.eqb] in Hy. destruct (_ && _); [|discriminate]. injection Hy as <-. exact Id. }
  split; [exact Sy|]. intros idx Hi. destruct (C222_reshape _ _ _ H) as (_ & _ & F1). destruct (C222_reshape _ _ _ Hy) as (_ & _ & F2).
  rewrite <- (flatten_at (sh a) (get y) idx Hi), <- (flatten_at (sh a) (get a) idx Hi). rewrite <- F1, <- F2, Sy. reflexivity.
Qed.
Print Assumptions C222_reshape_back.

Local Lemma index_of_nth : forall x l, In x l -> nth (index_of x l) l 0%Z = x /\ index_of x l < length l.
Proof.
  induction l as [|y l IH]; intros H; [contradiction|]. cbn. destruct (Z.eqb_spec x y) as [->|N]; [split; [reflexivity | lia]|].
  destruct H as [->|H]; [contradiction|]. destruct (IH H). split; [assumption | lia].
Qed.
(** Transposing puts the element at index j where axis k has position j(perm k); every such index is one of
    the result, whose extents are permuted likewise. *)
Theorem C222_transpose : forall (perm : list Z) (x r : arr), np_transpose perm x = Ok r ->
  let moved (j : list nat) := map (fun p => nth (Z.to_nat p) j 0) perm in
  sh r = moved (sh x) /\ forall j, index (sh x) j -> index (sh r) (moved j) /\ get r (moved j) = get x j.
Proof.
  intros perm x r H moved. unfold np_transpose in H. destruct (is_perm perm (length (sh x))) eqn:P; [|discriminate]. injection H as <-. cbn [sh get].
  unfold is_perm in P. apply andb_prop in P. destruct P as [L A]. apply Nat.eqb_eq in L. rewrite forallb_forall in A.
  assert (I : forall k, k < length (sh x) -> In (Z.of_nat k) perm).
  { intros k Hk. specialize (A (Z.of_nat k)). unfold zmem in A. assert (In (Z.of_nat k) (zrange (length (sh x)))) as Hin by (apply in_map, in_seq; lia).
    apply A in Hin. apply existsb_exists in Hin. destruct Hin as (y & Hy & E). apply Z.eqb_eq in E. subst y. exact Hy. }
  assert (B : forall p, In p perm -> (0 <= p < Z.of_nat (length (sh x)))%Z).
  { assert (N : NoDup (zrange (length (sh x)))) by (apply FinFun.Injective_map_NoDup; [intros u v E; lia | apply seq_NoDup]).
    assert (Inc : incl perm (zrange (length (sh x)))).
    { apply NoDup_length_incl; [exact N | unfold zrange; rewrite map_length, seq_length; lia|]. intros z Hz. apply in_map_iff in Hz. destruct Hz as (k & <- & Hk). apply in_seq in Hk. apply I. lia. }
    intros p Hp. apply Inc, in_map_iff in Hp. destruct Hp as (k & <- & Hk). apply in_seq in Hk. lia. }
  split; [reflexivity|]. intros j Hj. pose proof (index_len _ _ Hj) as Lj. split.
  - unfold moved, index. clear -B Hj. induction perm as [|p perm IH]; cbn; constructor.
    + specialize (B p (or_introl eq_refl)). assert (Hp : Z.to_nat p < length (sh x)) by lia. revert Hp. generalize (Z.to_nat p). clear -Hj.
      induction Hj; intros [|n] Hp; cbn in *; try lia. apply IHHj. lia.
    + apply IH. intros q Hq. apply B. right. exact Hq.
  - f_equal. apply (nth_ext _ _ 0 0); [rewrite map_length, seq_length; lia|]. intros k Hk. rewrite map_length, seq_length in Hk.
    rewrite (nth_indep _ 0 (nth (index_of (Z.of_nat 0) perm) (moved j) 0)) by (rewrite map_length, seq_length; exact Hk).
    rewrite (map_nth (fun q => nth (index_of (Z.of_nat q) perm) (moved j) 0)), seq_nth by exact Hk. cbn [Nat.add].
    destruct (index_of_nth (Z.of_nat k) perm (I k Hk)) as [E1 E2]. unfold moved.
    rewrite (nth_indep _ 0 (nth (Z.to_nat 0) j 0)) by (rewrite map_length; exact E2). rewrite (map_nth (fun p => nth (Z.to_nat p) j 0)), E1, Nat2Z.id. reflexivity.
Qed.
Print Assumptions C222_transpose.

Local Lemma index_set : forall s idx k n, index s idx -> k < length s -> n < nth k s 0 -> index s (set_nth k n idx).
Proof.
  intros s idx k n H. revert k. induction H; intros k Hk Hn; cbn in *; [lia|]. destruct k as [|k]; cbn; constructor; try assumption. apply IHForall2; [lia | exact Hn].
Qed.
Local Lemma set_set : forall (l : list nat) k a b, set_nth k a (set_nth k b l) = set_nth k a l.
Proof. induction l as [|x l IH]; intros [|k] a b; cbn; try reflexivity. f_equal. apply IH. Qed.
Local Lemma set_id : forall (l : list nat) k, k < length l -> set_nth k (nth k l 0) l = l.
Proof. induction l as [|x l IH]; intros [|k] H; cbn in *; try lia; [reflexivity|]. f_equal. apply IH. lia. Qed.
Local Lemma names_norm : forall axis rank, (norm_axis axis rank <? 0)%Z || (Z.of_nat rank <=? norm_axis axis rank)%Z = false ->
  names axis rank (Z.to_nat (norm_axis axis rank)).
Proof.
  intros axis rank H. apply orb_false_iff in H. destruct H as [H1 H2]. apply Z.ltb_ge in H1. apply Z.leb_gt in H2.
  split; [lia|]. unfold norm_axis in *. destruct (Z.leb_spec 0 axis); lia.
Qed.
Local Lemma concat_at : forall k before part after idx, k < length idx -> nth k idx 0 < nth k (sh part) 0 ->
  concat_get k (before ++ part :: after) (set_nth k (fold_right (fun b n => nth k (sh b) 0 + n) 0 before + nth k idx 0) idx) = get part idx.
Proof.
  intros k before part after idx Hl Hk. induction before as [|b before IH]; cbn [app fold_right concat_get]; rewrite nth_set_nth, Nat.eqb_refl by exact Hl.
  - cbn [Nat.add]. destruct (Nat.ltb_spec (nth k idx 0) (nth k (sh part) 0)); [|lia]. rewrite set_id by exact Hl. reflexivity.
  - destruct (Nat.ltb_spec (nth k (sh b) 0 + fold_right (fun b n => nth k (sh b) 0 + n) 0 before + nth k idx 0) (nth k (sh b) 0)); [lia|].
    rewrite set_set. rewrite <- IH. f_equal. f_equal. lia.
Qed.
(** Concatenating puts the parts one after the other along the axis: the element at [idx] of a part stands
    behind as many as the parts before it have there. *)
Theorem C222_concat : forall (ax : Z) (l : list arr) (r : arr), np_concat ax l = Ok r ->
  exists k, names ax (length (sh r)) k /\ nth k (sh r) 0 = list_sum (map (fun b => nth k (sh b) 0) l) /\
  (forall part, In part l -> length (sh part) = length (sh r) /\ forall j, j <> k -> nth j (sh part) 0 = nth j (sh r) 0) /\
  forall before part after idx, l = before ++ part :: after -> index (sh part) idx ->
    let there := set_nth k (list_sum (map (fun b => nth k (sh b) 0) before) + nth k idx 0) idx in
    index (sh r) there /\ get r there = get part idx.
Proof.
  intros ax l r H. assert (Sum : forall k m, fold_right (fun b n => nth k (sh b) 0 + n) 0 m = list_sum (map (fun b => nth k (sh b) 0) m)).
  { intros k m. induction m as [|b m IH]; [reflexivity|]. cbn. rewrite IH. reflexivity. }
  unfold np_concat in H. destruct l as [|a l]; [discriminate|]. destruct (_ || _) eqn:Nm in H; [discriminate|]. apply names_norm in Nm.
  set (k := Z.to_nat (norm_axis ax (length (sh a)))) in *. destruct (forallb _ l) eqn:F; [|discriminate]. injection H as <-. exists k. cbn [sh get].
  pose proof (proj1 Nm) as Hk. clearbody k. rewrite set_nth_length, Sum. split; [exact Nm|].
  assert (Sr : nth k (set_nth k (list_sum (map (fun b => nth k (sh b) 0) (a :: l))) (sh a)) 0 = list_sum (map (fun b => nth k (sh b) 0) (a :: l))).
  { rewrite nth_set_nth, Nat.eqb_refl by exact Hk. reflexivity. }
  assert (Same : forall part, In part (a :: l) -> same_but k (sh a) (sh part) = true).
  { intros part [<-|Hin].
    - unfold same_but. rewrite Nat.eqb_refl. apply forallb_forall. intros q _. rewrite Nat.eqb_refl. apply orb_true_r.
    - rewrite forallb_forall in F. apply F, Hin. }
  assert (Sizes : forall part, In part (a :: l) -> length (sh part) = length (sh a) /\ forall j, j <> k -> nth j (sh part) 0 = nth j (sh a) 0).
  { intros part Hin. specialize (Same part Hin). unfold same_but in Same. apply andb_prop in Same. destruct Same as [Ls Es]. apply Nat.eqb_eq in Ls.
    rewrite forallb_forall in Es. split; [symmetry; exact Ls|]. intros j Nj. destruct (Nat.lt_ge_cases j (length (sh a))) as [Hj|Hj].
    - specialize (Es j ltac:(apply in_seq; lia)). apply orb_prop in Es. destruct Es as [Es|Es]; [apply Nat.eqb_eq in Es; contradiction | symmetry; apply Nat.eqb_eq, Es].
    - rewrite !nth_overflow by lia. reflexivity. }
  split; [exact Sr|]. split.
  { intros part Hin. destruct (Sizes part Hin) as [A B]. split; [exact A|]. intros j Nj. rewrite nth_set_nth by exact Hk.
    destruct (Nat.eqb_spec j k); [contradiction | apply B, Nj]. }
  intros before part after idx E Hi. set (there := set_nth k (list_sum (map (fun b => nth k (sh b) 0) before) + nth k idx 0) idx). rewrite E in *. clear Sr.
  destruct (Sizes part ltac:(rewrite ?E; apply in_or_app; right; left; reflexivity)) as [Ls' Es]. pose proof (eq_sym Ls') as Ls.
  pose proof (index_len _ _ Hi) as Li. assert (Hn : nth k idx 0 < nth k (sh part) 0).
  { assert (Hp : k < length (sh part)) by lia. revert Hp. generalize k. clear -Hi. induction Hi; intros [|n] Hp; cbn in *; try lia. apply IHHi. lia. }
  assert (Eq : nth k (sh a) 0 + list_sum (map (fun b => nth k (sh b) 0) l) =
      list_sum (map (fun b => nth k (sh b) 0) before) + (nth k (sh part) 0 + list_sum (map (fun b => nth k (sh b) 0) after))).
  { transitivity (list_sum (map (fun b => nth k (sh b) 0) (a :: l))); [reflexivity|]. rewrite E, map_app, list_sum_app. reflexivity. }
  split; [|unfold there; rewrite <- Sum; change (concat_get k (a :: l) (set_nth k (fold_right (fun b n => nth k (sh b) 0 + n) 0 before + nth k idx 0) idx) = get part idx); rewrite E; apply concat_at; [lia | exact Hn]].
  unfold there. apply index_set.
  - assert (Sp : set_nth k (nth k (sh part) 0) (sh a) = sh part).
    { apply (nth_ext _ _ 0 0); [rewrite set_nth_length; exact Ls|]. intros q Hq. rewrite set_nth_length in Hq. rewrite nth_set_nth by exact Hk.
      destruct (Nat.eqb_spec q k) as [->|Nq]; [reflexivity | symmetry; apply Es, Nq]. }
    rewrite <- Sp in Hi. unfold index in *. set (big := nth k (sh a) 0 + list_sum _).
    assert (Hb : nth k (sh part) 0 <= big) by (unfold big; lia). clearbody big. revert Hi Hb. generalize (nth k (sh part) 0) as w. clear. intros w Hi Hw.
    remember (set_nth k w (sh a)) as t eqn:Et. revert k Et. generalize (sh a) as s. induction Hi; intros s k Et.
    + destruct s as [|z s]; [destruct k; constructor|]. destruct k; discriminate.
    + destruct s as [|z s]; [destruct k; discriminate|]. destruct k as [|k]; cbn in *; injection Et as -> ->; constructor; try lia; try assumption. apply (IHHi s k eq_refl).
  - rewrite set_nth_length. exact Hk.
  - rewrite nth_set_nth, Nat.eqb_refl by exact Hk. cbn [map list_sum fold_right]. change (fold_right Nat.add 0 (map (fun b => nth k (sh b) 0) l)) with (list_sum (map (fun b => nth k (sh b) 0) l)). lia.
Qed.
Print Assumptions C222_concat.

Local Lemma whole : forall n, py_slice (Z.of_nat n) 0 (Z.of_nat n) 1 = (0%Z, Z.of_nat n).
Proof.
  intros n. unfold py_slice. cbn [Z.ltb Z.compare]. rewrite Z.min_id. replace (Z.of_nat n <? 0)%Z with false by (symmetry; apply Z.ltb_ge; lia).
  replace (Z.min 0 (Z.of_nat n)) with 0%Z by lia. destruct (Z.ltb_spec 0 (Z.of_nat n)); f_equal; [rewrite Z.div_1_r; lia | lia].
Qed.
Local Lemma part_of : forall m off n, off + n <= m -> py_slice (Z.of_nat m) (Z.of_nat off) (Z.of_nat (off + n)) 1 = (Z.of_nat off, Z.of_nat n).
Proof.
  intros m off n H. unfold py_slice. cbn [Z.ltb Z.compare]. replace (Z.of_nat (off + n) <? 0)%Z with false by (symmetry; apply Z.ltb_ge; lia).
  replace (Z.of_nat off <? 0)%Z with false by (symmetry; apply Z.ltb_ge; lia).
  replace (Z.min (Z.of_nat off) (Z.of_nat m)) with (Z.of_nat off) by lia. replace (Z.min (Z.of_nat (off + n)) (Z.of_nat m)) with (Z.of_nat (off + n)) by lia.
  destruct (Z.ltb_spec (Z.of_nat off) (Z.of_nat (off + n))); f_equal; [rewrite Z.div_1_r; lia | lia].
Qed.
Local Lemma cut : forall off n s k, k < length s -> off + n <= nth k s 0 ->
  exists l, np_slices s (repeat 0%Z k ++ [Z.of_nat off]) (map Z.of_nat (firstn k s) ++ [Z.of_nat (off + n)]) (repeat 1%Z (S k)) = Ok l /\
  map (fun p => Z.to_nat (snd (fst p))) l = set_nth k n s /\
  forall idx, length idx = length s -> slice_index l idx = set_nth k (off + nth k idx 0) idx.
Proof.
  intros off n s. induction s as [|m s IH]; intros k Hk H; cbn in Hk; [lia|]. destruct k as [|k].
  - cbn [repeat app firstn map np_slices]. cbn [nth] in H. rewrite part_of by exact H. change (1 =? 0)%Z with false. cbn iota beta.
    assert (T : np_slices s [] [] [] = Ok (map (fun n => (0%Z, Z.of_nat n, 1%Z)) s)) by (destruct s; reflexivity). rewrite T.
    eexists. split; [reflexivity|]. split.
    + cbn [map fst snd set_nth]. rewrite Nat2Z.id. f_equal. rewrite map_map. rewrite <- (map_id s) at 2. apply map_ext. intros q. apply Nat2Z.id.
    + intros [|i idx] L; [discriminate|]. cbn [slice_index nth set_nth]. f_equal; [lia|]. injection L as L. clear -L. revert idx L.
      induction s as [|q s IHs]; intros [|i idx] L; try discriminate; [reflexivity|]. cbn [map slice_index]. f_equal; [lia | apply IHs; injection L as L; exact L].
  - destruct (IH k ltac:(lia) H) as (l & A & B & C). cbn [repeat app firstn map np_slices].
    change (1%Z :: repeat 1%Z k) with (repeat 1%Z (S k)). rewrite A. change (1 =? 0)%Z with false. cbn iota beta. rewrite whole.
    eexists. split; [reflexivity|]. split; [cbn [map fst snd set_nth]; rewrite Nat2Z.id, B; reflexivity|].
    intros [|i idx] L; [discriminate|]. cbn [slice_index nth set_nth]. rewrite C by (injection L as L; exact L). f_equal. lia.
Qed.
(** A part is got back from the concatenation by slicing at its offset. *)
Theorem C222_cut_back : forall (ax : Z) (l before after : list arr) (part r : arr), np_concat ax l = Ok r -> l = before ++ part :: after ->
  exists k, names ax (length (sh r)) k /\
  let off := list_sum (map (fun b => nth k (sh b) 0) before) in
  exists y, slice_impl r (repeat 0%Z k ++ [Z.of_nat off]) (map Z.of_nat (firstn k (sh r)) ++ [Z.of_nat (off + nth k (sh part) 0)]) None = Ok y /\
    sh y = sh part /\ forall idx, index (sh part) idx -> get y idx = get part idx.
Proof.
  intros ax l before after part r H E. destruct (C222_concat ax l r H) as (k & Nm & Sum & Sizes & Elems). exists k. split; [exact Nm|]. intros off.
  destruct (Sizes part ltac:(rewrite E; apply in_or_app; right; left; reflexivity)) as [Ls Es].
  assert (Fit : off + nth k (sh part) 0 <= nth k (sh r) 0) by (rewrite Sum, E, map_app, list_sum_app; cbn; unfold off; lia).
  destruct (cut off (nth k (sh part) 0) (sh r) k (proj1 Nm) Fit) as (sl & A & B & C).
  unfold slice_impl. rewrite app_length, repeat_length. cbn [length]. rewrite Nat.add_1_r, A. eexists. split; [reflexivity|]. cbn [sh get]. split.
  - rewrite B. apply (nth_ext _ _ 0 0); [rewrite set_nth_length; symmetry; exact Ls|]. intros q Hq. rewrite nth_set_nth by apply Nm.
    destruct (Nat.eqb_spec q k) as [->|Nq]; [reflexivity | symmetry; apply Es, Nq].
  - intros idx Hi. rewrite C by (rewrite (index_len _ _ Hi); exact Ls). apply (Elems before part after idx E Hi).
Qed.
Print Assumptions C222_cut_back.

(** Gathering puts, for every index of the tensor of positions, the slab of that position (negative ones
    count from the end); positions outside the axis are rejected. *)
Theorem C222_gather : forall (x ix r : arr) (ax : Z), np_take x ix ax = Ok r ->
  exists k, names ax (length (sh x)) k /\ sh r = firstn k (sh x) ++ sh ix ++ skipn (S k) (sh x) /\
  forall pre mid post : list nat, length pre = k -> index (sh ix) mid ->
    exists i, i < nth k (sh x) 0 /\ (get ix mid = Z.of_nat i \/ get ix mid = Z.of_nat i - Z.of_nat (nth k (sh x) 0%nat))%Z /\
    get r (pre ++ mid ++ post) = get x (pre ++ i :: post).
Proof.
  intros x ix r ax H. unfold np_take in H. destruct (_ || _) eqn:Nm in H; [discriminate|]. apply names_norm in Nm.
  set (k := Z.to_nat (norm_axis ax (length (sh x)))) in *. destruct (forallb _ _) eqn:F in H; [|discriminate]. injection H as <-. exists k. cbn [sh get].
  split; [exact Nm|]. split; [reflexivity|]. intros pre mid post Lp Hm. rewrite forallb_forall in F. pose proof (index_len _ _ Hm) as Lm.
  specialize (F mid (proj2 (all_idx_in _ _) (proj1 (index_in _ _) Hm))). apply andb_prop in F. destruct F as [F1 F2]. apply Z.leb_le in F1. apply Z.ltb_lt in F2.
  assert (E1 : firstn (length (sh ix)) (skipn k (pre ++ mid ++ post)) = mid).
  { rewrite <- Lp, skipn_app, skipn_all, Nat.sub_diag. cbn [app skipn]. rewrite <- Lm, firstn_app, firstn_all, Nat.sub_diag. cbn [firstn]. apply app_nil_r. }
  assert (E2 : firstn k (pre ++ mid ++ post) = pre) by (rewrite <- Lp, firstn_app, firstn_all, Nat.sub_diag; cbn [firstn]; apply app_nil_r).
  assert (E3 : skipn (k + length (sh ix)) (pre ++ mid ++ post) = post).
  { rewrite <- Lp, <- Lm, app_assoc, <- app_length, skipn_app, skipn_all, Nat.sub_diag. reflexivity. }
  rewrite E1, E2, E3. set (z := get ix mid) in *. exists (Z.to_nat (if (z <? 0)%Z then (z + Z.of_nat (nth k (sh x) 0%nat))%Z else z)).
  destruct (Z.ltb_spec z 0); (split; [lia|]); (split; [lia|]); reflexivity.
Qed.
Print Assumptions C222_gather.

(** A 2 by 3 tensor with elements 10 * row + column: transposed, reshaped with an open extent, put beside
    itself, and two of its columns. *)
Example C222_ex :
  let x := {| sh := [2; 3]; get := fun i => (10 * Z.of_nat (nth 0%nat i 0%nat) + Z.of_nat (nth 1%nat i 0%nat))%Z |} in
  let ix := {| sh := [2]; get := fun i : list nat => nth (nth 0 i 0) [2; -3]%Z 0%Z |} in
  (exists r, np_transpose [1; 0]%Z x = Ok r /\ sh r = [3; 2] /\ flatten (sh r) (get r) = [0; 10; 1; 11; 2; 12]%Z) /\
  (exists r, np_reshape [3; -1]%Z x = Ok r /\ sh r = [3; 2] /\ flatten (sh r) (get r) = [0; 1; 2; 10; 11; 12]%Z) /\
  (exists r, np_concat (-1)%Z [x; x] = Ok r /\ sh r = [2; 6] /\ flatten (sh r) (get r) = [0; 1; 2; 0; 1; 2; 10; 11; 12; 10; 11; 12]%Z) /\
  (exists r, np_take x ix 1%Z = Ok r /\ sh r = [2; 2] /\ flatten (sh r) (get r) = [2; 0; 12; 10]%Z) /\ index (sh x) [1; 2].
Proof.
  cbv zeta. split; [|split; [|split; [|split]]]; try (eexists; split; [reflexivity | split; vm_compute; reflexivity]). repeat constructor.
Qed.
