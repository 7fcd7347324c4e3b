From Coq Require Import String List ZArith Bool Arith Lia Sorting.Permutation.
From Verif Require Import MorphModel MorphProofs SimpModel TabConvModel ArgModel ArgSpec.
Import ListNotations.
Local Open Scope list_scope.

Lemma tree_map_eq {A B} (f : A -> B) t : tree_map f t = Some (canon (tmap f t)).
Proof.
  unfold tree_map, unflatten. rewrite <- (def_tmap f), <- leaves_tmap, <- (app_nil_r (leaves _)), take_leaves. reflexivity.
Qed.
Lemma deliver_eq {A B} (f : A -> B) args kwargs :
  deliver f args kwargs = Some (map (fun t => canon (tmap f t)) args, sort_keys (map (fun p => (fst p, canon (tmap f (snd p)))) kwargs)).
Proof. unfold deliver. rewrite tree_map_eq. cbn. now rewrite !map_map. Qed.

Lemma leb_total a b : String.leb a b = true \/ String.leb b a = true.
Proof. apply String.leb_total. Qed.
Lemma leb_antisym' a b : String.leb a b = true -> String.leb b a = true -> a = b.
Proof. apply String.leb_antisym. Qed.

Lemma insert_head {B} k (v : B) l : (match l with [] => True | p :: _ => String.leb k (fst p) = true end) -> insert_key k v l = (k, v) :: l.
Proof. destruct l as [|[k' v'] l]; cbn; auto. now intros ->. Qed.
Lemma sort_id {B} : forall l : list (string * B), ascending (map fst l) -> sort_keys l = l.
Proof.
  induction l as [|[k v] l IH]; auto. intros H. unfold sort_keys in *. cbn. rewrite IH.
  - apply insert_head. destruct l as [|[k' v'] l]; auto. cbn in H. tauto.
  - destruct l; cbn in *; tauto.
Qed.
Lemma insert_asc {B} k (v : B) : forall l, ascending (map fst l) -> ascending (map fst (insert_key k v l)).
Proof.
  induction l as [|[k' v'] l IH]; cbn; auto. intros H. destruct (String.leb k k') eqn:E; [cbn; destruct l; cbn in *; tauto|].
  assert (H' : ascending (map fst l)) by (destruct l; cbn in *; tauto). specialize (IH H').
  destruct (leb_total k k') as [X|X]; [congruence|]. destruct l as [|[k2 v2] l]; cbn in *; [tauto|].
  destruct (String.leb k k2) eqn:E2; cbn in *; tauto.
Qed.
Lemma sort_asc {B} : forall l : list (string * B), ascending (map fst (sort_keys l)).
Proof. induction l as [|[k v] l IH]; cbn; auto. apply insert_asc. exact IH. Qed.

Lemma fst_map {B C} (f : B -> C) (l : list (string * B)) : map fst (map (fun p => (fst p, f (snd p))) l) = map fst l.
Proof. induction l; cbn; congruence. Qed.

Lemma canon_in_order {A} : forall t : tree A, in_order (canon t).
Proof.
  apply tree_ind2; cbn; intros; try constructor.
  - now apply Forall_map.
  - now apply Forall_map.
  - apply sort_asc.
  - assert (F : Forall (fun p : string * tree A => in_order (snd p)) (map (fun p => (fst p, canon (snd p))) l)) by (apply Forall_map; auto).
    eapply Permutation_Forall; [apply sort_perm|exact F].
Qed.
Lemma canon_id {A} : forall t : tree A, in_order t -> canon t = t.
Proof.
  apply (tree_ind2 (fun t => in_order t -> canon t = t)); cbn; intros; auto; inversion H0; subst; f_equal.
  - clear H0. induction H; auto. inversion H2; subst. cbn. f_equal; auto.
  - clear H0. induction H; auto. inversion H2; subst. cbn. f_equal; auto.
  - assert (E : map (fun p => (fst p, canon (snd p))) l = l).
    { clear - H H3. induction H as [|[k v]]; auto. inversion H3; subst. cbn in *. f_equal; auto. rewrite H; auto. }
    rewrite E. now apply sort_id.
Qed.
Lemma tmap_id {A} : forall t : tree A, tmap (fun x => x) t = t.
Proof.
  apply tree_ind2; cbn; intros; auto; f_equal.
  - induction H; cbn; f_equal; auto.
  - induction H; cbn; f_equal; auto.
  - induction H as [|[k v]]; cbn; f_equal; auto. cbn in *. congruence.
Qed.
Lemma canon_canon {A} (t : tree A) : canon (canon t) = canon t.
Proof. apply canon_id, canon_in_order. Qed.

Lemma one_eq d : one (deliver (fun x => x) [d] []) = Some (canon d).
Proof. rewrite deliver_eq. cbn -[canon tmap]. now rewrite tmap_id. Qed.
Lemma data_eq d : data_kw (deliver (fun x => x) [] [("data"%string, d)]) = Some (canon d).
Proof. rewrite deliver_eq. cbn -[canon tmap]. now rewrite tmap_id. Qed.
Lemma call_const_eq table data : call_const table data = Some (if table then TableConstant (canon data) else TensorConstant (canon data)).
Proof.
  unfold call_const. rewrite !one_eq, canon_canon, data_eq, canon_canon. now destruct table.
Qed.
Lemma norm_one r : norm [r] = [r].
Proof.
  unfold norm. cbn [list_max fold_right]. rewrite Nat.max_0_r, seq_S, filter_app. cbn [filter existsb Nat.add].
  rewrite Nat.eqb_refl. cbn.
  assert (F : Forall (fun x => (Nat.eqb x r || false)%bool = false) (seq 0 r)).
  { apply Forall_forall. intros x Hx%in_seq. rewrite orb_false_r. apply Nat.eqb_neq. lia. }
  assert (X : filter (fun x => (Nat.eqb x r || false)%bool) (seq 0 r) = []) by (induction F; cbn; auto; now rewrite H).
  now rewrite X.
Qed.

(** ** tables *)
Lemma canon_cells l : map canon (map cell_tree l) = map cell_tree l.
Proof. rewrite map_map. apply map_ext. now intros []. Qed.
Lemma cells_back l : ArgModel.mapO as_cell (map cell_tree l) = Some l.
Proof. induction l as [|v l IH]; auto. cbn. rewrite IH. now destruct v. Qed.
Lemma dict_canon cols : canon (dict_of cols) = dict_of (sort_keys cols).
Proof.
  unfold dict_of. cbn. f_equal. rewrite map_map. cbn.
  rewrite <- (sort_map (fun l => TList (map cell_tree l))). f_equal. apply map_ext. intros c. now rewrite canon_cells.
Qed.
Lemma columns_back cols : columns_of (dict_of cols) = Some cols.
Proof.
  unfold dict_of, columns_of. induction cols as [|[n l] cols IH]; auto. cbn. rewrite cells_back. cbn. now rewrite IH.
Qed.
Lemma put_table_eq ps cols : put_table ps cols =
  option_map (fun t => (norm ps, (constant_type (sort_keys cols), t))) (constant_table (sort_keys cols)).
Proof.
  unfold put_table, simp_constant. cbn [dict_of]. change (TDict _) with (dict_of cols). rewrite call_const_eq. cbn -[canon dict_of sort_keys].
  rewrite dict_canon. cbn [run_made]. rewrite columns_back. destruct (constant_table (sort_keys cols)); reflexivity.
Qed.

Lemma constant_table_spec cols : forall t, constant_table cols = Some t ->
  map col_name t = map fst cols /\ map col_cells t = map (fun p => map cell_of (snd p)) cols /\ Forall2 (fun c p => arrow_type (snd p) = AType (col_ty c)) t cols.
Proof.
  induction cols as [|[n l] cols IH]; intros t E; cbn in E; [injection E as <-; repeat split; constructor|].
  destruct (arrow_type l) eqn:Ea; try discriminate. destruct (constant_table cols) as [t'|]; [|discriminate]. injection E as <-.
  destruct (IH _ eq_refl) as (E1 & E2 & E3). cbn. rewrite E1, E2. repeat split; auto.
Qed.
Lemma constant_table_some cols : (exists t, constant_table cols = Some t) <-> Forall (fun p => exists t, arrow_type (snd p) = AType t) cols.
Proof.
  induction cols as [|[n l] cols IH]; cbn; [split; eauto; intros; constructor|]. split.
  - intros [t E]. destruct (arrow_type l) eqn:Ea; try discriminate. destruct (constant_table cols); [|discriminate].
    constructor; [cbn; eauto|]. apply IH. eauto.
  - intros F. inversion F as [|? ? [t Et] F']; subst. cbn in Et. rewrite Et. apply IH in F' as [t' ->]. eauto.
Qed.
Lemma find_perm {B} (n : string) (l m : list (string * B)) : NoDup (map fst l) -> Permutation l m ->
  find (fun c => String.eqb (fst c) n) l = find (fun c => String.eqb (fst c) n) m.
Proof.
  intros ND P. induction P; auto; cbn.
  - inversion ND; subst. now rewrite IHP.
  - inversion ND as [|? ? Hn _]; subst. cbn in Hn. destruct (String.eqb_spec (fst y) n), (String.eqb_spec (fst x) n); auto.
    exfalso. apply Hn. left. congruence.
  - rewrite IHP1 by auto. apply IHP2. eapply Permutation_NoDup; [|exact ND]. now apply Permutation_map.
Qed.
Lemma column_of_table cols t n : constant_table cols = Some t -> column_named n t = option_map (map cell_of) (given n cols).
Proof.
  revert t. unfold column_named, given. induction cols as [|[m l] cols IH]; intros t E; cbn in E; [injection E as <-; reflexivity|].
  destruct (arrow_type l); try discriminate. destruct (constant_table cols) as [t'|]; [|discriminate]. injection E as <-.
  cbn. destruct (String.eqb m n); auto.
Qed.
Lemma type_of_schema cols n : type_named n (constant_type cols) = option_map pandas_type (given n cols).
Proof.
  unfold type_named, given, constant_type. cbn. induction cols as [|[m l] cols IH]; auto. cbn. destruct (String.eqb m n); auto.
Qed.
