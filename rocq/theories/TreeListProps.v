(** C223: what the structure checks of utils/func_utils.py accept. *)
From Coq Require Import List String Bool Arith ZArith Lia.
From Verif Require Import MorphModel.
Import ListNotations.
Local Open Scope list_scope.

(** ** Model *)
(** PyTreeDef.num_leaves *)
Fixpoint num_leaves (d : treedef) : nat :=
  match d with
  | Leaf _ => 1
  | TNone => 0
  | TList l | TTuple l => fold_right Nat.add 0 (map num_leaves l)
  | TDict items => fold_right Nat.add 0 (map (fun p => num_leaves (snd p)) items)
  end.
(** func_utils.py:126-151 (is_treedef_list): node_data is None for a leaf and else names the
    container; children are the sub-structures *)
Definition is_treedef_list (d : treedef) : bool :=
  match d with TList children => forallb (fun c => num_leaves c =? 1) children | _ => false end.

(** the values validate_morph_struct tells apart; [Other] is any other object (n stands for it) *)
Inductive pyobj : Type :=
| PTuple (l : list pyobj) | PList (l : list pyobj) | PInt (z : Z) | PBool (b : bool) | PTreeDef (d : treedef) | Other (n : nat).
(** isinstance(x, int): True and False are ints *)
Definition is_int (x : pyobj) : bool := match x with PInt _ | PBool _ => true | _ => false end.
Inductive verdict : Type := Accepted | TypeError (part : nat).
(** func_utils.py:31-61 (validate_morph_struct): the part is 3 for the struct as a whole, else the
    entry complained of *)
Definition validate_morph_struct (v : pyobj) : verdict :=
  match v with
  | PTuple [values_tree; split_info; immediates] =>
      match values_tree with
      | PTreeDef _ =>
          match split_info with
          | PTuple l =>
              if forallb is_int l then match immediates with PList _ => Accepted | _ => TypeError 2 end else TypeError 1
          | _ => TypeError 1
          end
      | _ => TypeError 0
      end
  | _ => TypeError 3
  end.
(** the tuple var_morph returns as its structure (func_utils.py:95-98) *)
Definition as_object {A} (o : A -> pyobj) (m : morph_struct A) : pyobj :=
  let '(d, pos, imms) := m in PTuple [PTreeDef d; PTuple (map (fun i => PInt (Z.of_nat i)) pos); PList (map o imms)].

(** ** Specification *)
(** a list none of whose items is a container *)
Definition simple_list {A} (t : tree A) : Prop := exists xs, t = TList (map Leaf xs).
(** [t] holds exactly one leaf, at any depth *)
Definition one_leaf {A} (t : tree A) : Prop := exists x, leaves t = [x].
(** increasing positions from [lo] up to but not including [hi] *)
Inductive increasing : nat -> nat -> list nat -> Prop :=
| IncNil lo hi : increasing lo hi []
| IncCons lo hi p l : lo <= p < hi -> increasing (S p) hi l -> increasing lo hi (p :: l).

(** ** Proofs *)
Local Fixpoint tsize {A} (t : tree A) : nat :=
  match t with
  | Leaf _ | TNone => 1
  | TList l | TTuple l => S (fold_right Nat.add 0 (map tsize l))
  | TDict items => S (fold_right Nat.add 0 (map (fun p => tsize (snd p)) items))
  end.
Local Lemma in_sum : forall {B} (f : B -> nat) l x, In x l -> f x <= fold_right Nat.add 0 (map f l).
Proof. intros B f l. induction l as [|y l IH]; intros x []; cbn; [subst; lia | specialize (IH _ H); lia]. Qed.
Local Lemma sum_sort : forall {B} (f : B -> nat) (l : list (string * B)),
  fold_right Nat.add 0 (map (fun p => f (snd p)) (sort_keys l)) = fold_right Nat.add 0 (map (fun p => f (snd p)) l).
Proof.
  intros B f l. induction l as [|[k v] l IH]; [reflexivity|]. cbn. rewrite <- IH.
  change (fold_right (fun p acc => insert_key (fst p) (snd p) acc) [] l) with (sort_keys l).
  generalize (sort_keys l). clear. induction l as [|[k' v'] l IH]; cbn; [reflexivity|].
  destruct (String.leb k k'); cbn; [reflexivity | rewrite IH; lia].
Qed.
Local Lemma len_flat : forall {B C} (f : B -> list C) l,
  List.length (flat_map f l) = fold_right Nat.add 0 (map (fun x => List.length (f x)) l).
Proof. intros B C f l. induction l as [|x l IH]; cbn; [reflexivity | rewrite app_length, IH; reflexivity]. Qed.
Local Lemma num_ok : forall {A} n (t : tree A), tsize t <= n -> num_leaves (def_of t) = List.length (leaves t).
Proof.
  intros A n. induction n as [|n IH]; intros t Hn; [destruct t; cbn in Hn; lia|].
  destruct t as [a| |l|l|items]; cbn in *; try reflexivity.
  - rewrite len_flat, map_map. f_equal. apply map_ext_in. intros x Hx. apply IH. pose proof (in_sum tsize l x Hx). lia.
  - rewrite len_flat, map_map. f_equal. apply map_ext_in. intros x Hx. apply IH. pose proof (in_sum tsize l x Hx). lia.
  - rewrite sum_sort, len_flat, (sum_sort (@List.length A)), !map_map. f_equal. apply map_ext_in. intros p Hp. cbn. apply IH.
    pose proof (in_sum (fun p => tsize (snd p)) items p Hp). cbn in *. lia.
Qed.
Local Lemma one : forall {A} (t : tree A), num_leaves (def_of t) =? 1 = true <-> one_leaf t.
Proof.
  intros A t. rewrite Nat.eqb_eq, (num_ok (tsize t) t (le_n _)). unfold one_leaf.
  destruct (leaves t) as [|x [|y l]]; cbn; split.
  - lia.
  - intros [z E]; discriminate.
  - intros _; exists x; reflexivity.
  - reflexivity.
  - lia.
  - intros [z E]; discriminate.
Qed.

(** the structure of a value is called a list exactly if the value is a list each of whose items
    holds one leaf *)
Theorem C223_list : forall A (t : tree A),
  is_treedef_list (def_of t) = true <-> exists items, t = TList items /\ Forall one_leaf items.
Proof.
  intros A t. split.
  - destruct t as [a| |l|l|items]; cbn; try discriminate. intros H. exists l. split; [reflexivity|].
    rewrite forallb_forall in H. apply Forall_forall. intros x Hx. apply one. apply H. apply in_map. exact Hx.
  - intros (items & -> & F). cbn. apply forallb_forall. intros d Hd. apply in_map_iff in Hd. destruct Hd as (x & <- & Hx).
    apply one. rewrite Forall_forall in F. apply F. exact Hx.
Qed.
Print Assumptions C223_list.
Example C223_list_ex :
  is_treedef_list (def_of (TList [Leaf 1; TDict [("b"%string, Leaf 2); ("a"%string, TNone)]])) = true
  /\ is_treedef_list (def_of (TList [Leaf 1; TNone])) = false /\ is_treedef_list (def_of (TTuple [Leaf 1])) = false.
Proof. repeat split; reflexivity. Qed.

(** every simple list, the empty one included, is accepted *)
Theorem C223_simple_accepted : forall A (t : tree A), simple_list t -> is_treedef_list (def_of t) = true.
Proof.
  intros A t [xs ->]. apply C223_list. exists (map Leaf xs). split; [reflexivity|].
  apply Forall_forall. intros y Hy. apply in_map_iff in Hy. destruct Hy as (x & <- & _). exists x. reflexivity.
Qed.
Print Assumptions C223_simple_accepted.
Example C223_simple_accepted_ex : simple_list (TList [Leaf 1; Leaf 2]) /\ simple_list (@TList nat []).
Proof. split; [exists [1; 2] | exists []]; reflexivity. Qed.

(** "all of its children are leaf nodes" (docstring) is not what is checked: a list of lists of one
    item each passes for a non-nested list *)
Theorem C223_simple_refuted : ~ (forall A (t : tree A), is_treedef_list (def_of t) = true -> simple_list t).
Proof.
  intros H. destruct (H nat (TList [TList [Leaf 1]; TList [Leaf 2]]) eq_refl) as [[|x xs] E]; discriminate.
Qed.
Print Assumptions C223_simple_refuted.

(** validate_morph_struct accepts exactly triples of a tree structure, a tuple of ints and a list *)
Theorem C223_validated : forall v,
  validate_morph_struct v = Accepted <->
  exists d pos imms, v = PTuple [PTreeDef d; PTuple pos; PList imms] /\ (forall x, In x pos -> (exists z, x = PInt z) \/ (exists b, x = PBool b)).
Proof.
  intros v. split.
  - destruct v as [[|a [|b [|c [|e l]]]]| | | | |]; cbn; try discriminate.
    destruct a as [| | | |d|]; try discriminate. destruct b as [l| | | | |]; try discriminate.
    destruct (forallb is_int l) eqn:E; try discriminate. destruct c as [|m| | | |]; try discriminate.
    intros _. exists d, l, m. split; [reflexivity|]. intros x Hx. rewrite forallb_forall in E. specialize (E x Hx).
    destruct x; try discriminate; [left | right]; eexists; reflexivity.
  - intros (d & pos & imms & -> & F). cbn. replace (forallb is_int pos) with true; [reflexivity|].
    symmetry. apply forallb_forall. intros x Hx. destruct (F x Hx) as [[z ->]|[b ->]]; reflexivity.
Qed.
Print Assumptions C223_validated.
Example C223_validated_ex :
  validate_morph_struct (PTuple [PTreeDef (TList [Leaf tt]); PTuple [PInt 0; PBool true]; PList []]) = Accepted
  /\ validate_morph_struct (PTuple [PTreeDef TNone; PList [PInt 0]; PList []]) = TypeError 1.
Proof. split; reflexivity. Qed.

(** what var_morph returns is always accepted *)
Theorem C223_morph_validated : forall A (o : A -> pyobj) pred (t : tree A),
  validate_morph_struct (as_object o (snd (var_morph pred t))) = Accepted.
Proof.
  intros A o pred t. apply C223_validated. destruct (snd (var_morph pred t)) as [[d pos] imms]. cbn.
  eexists _, _, _. split; [reflexivity|]. intros x Hx. apply in_map_iff in Hx. destruct Hx as (i & <- & _). left. eexists. reflexivity.
Qed.
Print Assumptions C223_morph_validated.
Example C223_morph_validated_ex :
  as_object (fun n => Other n) (snd (var_morph Nat.even (TTuple [Leaf 1; Leaf 2])))
  = PTuple [PTreeDef (TTuple [Leaf tt; Leaf tt]); PTuple [PInt 1]; PList [Other 1]].
Proof. reflexivity. Qed.

(** but the check does not make var_demorph safe: an accepted structure may fail even when given as
    many variables as it has positions *)
Theorem C223_validated_total_refuted : ~ (forall A (o : A -> pyobj) (m : morph_struct A) (vars : list A),
  validate_morph_struct (as_object o m) = Accepted -> List.length vars = List.length (snd (fst m)) ->
  exists t, var_demorph vars m = Some t).
Proof.
  intros H. destruct (H nat (fun n => Other n) (TTuple [Leaf tt; Leaf tt], [5], [7]) [8] eq_refl eq_refl) as [t E]. cbn in E. discriminate.
Qed.
Print Assumptions C223_validated_total_refuted.

Local Lemma take_list_ok : forall {A} (ds : list treedef) (xs : list A),
  (forall d, In d ds -> forall ys : list A, if num_leaves d <=? List.length ys then exists t, take d ys = Some (t, skipn (num_leaves d) ys) else take d ys = None) ->
  let n := fold_right Nat.add 0 (map num_leaves ds) in
  if n <=? List.length xs then exists ts, take_list take ds xs = Some (ts, skipn n xs) else take_list take ds xs = None.
Proof.
  intros A ds. induction ds as [|d ds IH]; intros xs H; cbn; [eexists; reflexivity|].
  pose proof (H d (or_introl eq_refl) xs) as Hd.
  destruct (Nat.leb_spec (num_leaves d) (List.length xs)) as [L|L].
  - destruct Hd as [t E]. rewrite E. specialize (IH (skipn (num_leaves d) xs) (fun d' Hd' => H d' (or_intror Hd'))). cbn in IH.
    rewrite skipn_length in IH. set (n := fold_right Nat.add 0 (map num_leaves ds)) in *.
    destruct (Nat.leb_spec n (List.length xs - num_leaves d)) as [M|M]; destruct (Nat.leb_spec (num_leaves d + n) (List.length xs)); try lia.
    + destruct IH as [ts E2]. rewrite E2. eexists. f_equal. f_equal. clear. rewrite Nat.add_comm.
      generalize (num_leaves d) as k. intros k. revert xs. induction k as [|k IHk]; intros xs; [rewrite Nat.add_0_r; reflexivity|].
      rewrite Nat.add_succ_r. destruct xs as [|x xs]; cbn; [apply skipn_nil | apply IHk].
    + rewrite IH. reflexivity.
  - rewrite Hd. destruct (Nat.leb_spec (num_leaves d + fold_right Nat.add 0 (map num_leaves ds)) (List.length xs)); [lia | reflexivity].
Qed.
Local Lemma take_dict_ok : forall {A} (ds : list (string * treedef)) (xs : list A),
  match take_dict take ds xs, take_list take (map snd ds) xs with
  | Some (_, r), Some (_, r') => r = r'
  | None, None => True
  | _, _ => False
  end.
Proof.
  intros A ds. induction ds as [|[k d] ds IH]; intros xs; cbn; [reflexivity|].
  destruct (take d xs) as [[t r]|]; [|exact I]. specialize (IH r).
  destruct (take_dict take ds r) as [[? ?]|], (take_list take (map snd ds) r) as [[? ?]|]; tauto.
Qed.
Local Lemma take_ok : forall {A} n (d : treedef) (xs : list A), tsize d <= n ->
  if num_leaves d <=? List.length xs then exists t, take d xs = Some (t, skipn (num_leaves d) xs) else @take A d xs = None.
Proof.
  intros A n. induction n as [|n IH]; intros d xs Hn; [destruct d; cbn in Hn; lia|].
  destruct d as [a| |l|l|items].
  - cbn. destruct xs as [|x xs]; cbn; [reflexivity | eexists; reflexivity].
  - cbn. eexists; reflexivity.
  - cbn in *. pose proof (take_list_ok l xs) as T. cbv zeta in T.
    assert (P : forall d, In d l -> forall ys : list A, if num_leaves d <=? List.length ys then exists t, take d ys = Some (t, skipn (num_leaves d) ys) else take d ys = None).
    { intros d Hd ys. apply IH. pose proof (in_sum tsize l d Hd). lia. }
    specialize (T P). destruct (_ <=? _).
    + destruct T as [ts E]. rewrite E. eexists; reflexivity.
    + rewrite T. reflexivity.
  - cbn in *. pose proof (take_list_ok l xs) as T. cbv zeta in T.
    assert (P : forall d, In d l -> forall ys : list A, if num_leaves d <=? List.length ys then exists t, take d ys = Some (t, skipn (num_leaves d) ys) else take d ys = None).
    { intros d Hd ys. apply IH. pose proof (in_sum tsize l d Hd). lia. }
    specialize (T P). destruct (_ <=? _).
    + destruct T as [ts E]. rewrite E. eexists; reflexivity.
    + rewrite T. reflexivity.
  - cbn in *. pose proof (take_list_ok (map snd items) xs) as T. cbv zeta in T. rewrite map_map in T.
    assert (P : forall d, In d (map snd items) -> forall ys : list A, if num_leaves d <=? List.length ys then exists t, take d ys = Some (t, skipn (num_leaves d) ys) else take d ys = None).
    { intros d Hd ys. apply in_map_iff in Hd. destruct Hd as (p & <- & Hp). apply IH.
      pose proof (in_sum (fun p => tsize (snd p)) items p Hp). cbn in *. lia. }
    specialize (T P). pose proof (take_dict_ok items xs) as D. unfold treedef in *.
    destruct (_ <=? _).
    + destruct T as [ts E]. rewrite E in D. destruct (take_dict take items xs) as [[ts' r]|]; [|contradiction]. subst r. eexists; reflexivity.
    + rewrite T in D. destruct (take_dict take items xs) as [[ts' r]|]; [contradiction | reflexivity].
Qed.
Local Lemma unflatten_ok : forall {A} (d : treedef) (xs : list A),
  (exists t, unflatten d xs = Some t) <-> List.length xs = num_leaves d.
Proof.
  intros A d xs. unfold unflatten. pose proof (take_ok (tsize d) d xs (le_n _)) as T.
  destruct (Nat.leb_spec (num_leaves d) (List.length xs)) as [L|L].
  - destruct T as [t E]. rewrite E. pose proof (skipn_length (num_leaves d) xs) as K.
    destruct (skipn (num_leaves d) xs) as [|x r]; cbn in K; split; intros H; [lia | eexists; reflexivity | destruct H; discriminate | lia].
  - rewrite T. split; intros H; [destruct H; discriminate | lia].
Qed.
Local Lemma inc_len : forall lo hi l, increasing lo hi l -> List.length l <= hi - lo.
Proof. intros lo hi l H. induction H; cbn; lia. Qed.
Local Lemma recon_ok : forall {A} n idx (f s : list A) idxs,
  n = List.length f + List.length s -> List.length idxs = List.length f -> increasing idx (idx + n) idxs ->
  exists xs, list_reconstruct_from n idx f s idxs = Some xs /\ List.length xs = n.
Proof.
  intros A n. induction n as [|n IH]; intros idx f s idxs Hn Hl Hi; [exists []; split; reflexivity|]. cbn.
  pose proof (inc_len _ _ _ Hi) as K. inversion Hi as [lo hi E1 E2 E3|lo hi p l Hp Hr E1 E2 E3]; subst; cbn in Hl.
  - destruct f; cbn in Hl; [|discriminate]. destruct s as [|x s]; cbn in Hn; [lia|].
    destruct (IH (S idx) [] s [] ltac:(cbn; lia) eq_refl (IncNil _ _)) as (xs & E & L). rewrite E. cbn. eexists; split; [reflexivity | cbn; lia].
  - destruct f as [|x f]; cbn in Hl; [discriminate|]. destruct (Nat.eqb_spec p idx) as [->|Hne].
    + replace (idx + S n) with (S idx + n) in Hr by lia. cbn in Hn.
      destruct (IH (S idx) f s l ltac:(lia) ltac:(lia) Hr) as (xs & E & L). rewrite E. cbn. eexists; split; [reflexivity | cbn; lia].
    + assert (Hi2 : increasing (S idx) (S idx + n) (p :: l)).
      { constructor; [lia|]. replace (S idx + n) with (idx + S n) by lia. exact Hr. }
      pose proof (inc_len _ _ _ Hi2) as K2. destruct s as [|y s]; cbn in *; [lia|].
      destruct (IH (S idx) (x :: f) s (p :: l) ltac:(cbn; lia) ltac:(cbn; lia) Hi2) as (xs & E & L). rewrite E. cbn. eexists; split; [reflexivity | cbn; lia].
Qed.

(** with as many variables as positions, positions that increase within the number of values, var_demorph
    succeeds exactly if there are as many values as the structure has leaves *)
Theorem C223_demorph : forall A (d : treedef) pos (imms vars : list A),
  List.length vars = List.length pos -> increasing 0 (List.length vars + List.length imms) pos ->
  (exists t, var_demorph vars (d, pos, imms) = Some t) <-> List.length vars + List.length imms = num_leaves d.
Proof.
  intros A d pos imms vars Hl Hi. unfold var_demorph, list_reconstruct.
  destruct (recon_ok (List.length vars + List.length imms) 0 vars imms pos eq_refl (eq_sym Hl) Hi) as (xs & E & L).
  rewrite E, <- L. apply unflatten_ok.
Qed.
Print Assumptions C223_demorph.
Example C223_demorph_ex :
  increasing 0 (1 + 2) [1] /\ var_demorph [8] (TList [Leaf tt; TTuple [Leaf tt]; Leaf tt], [1], [7; 9]) = Some (TList [Leaf 7; TTuple [Leaf 8]; Leaf 9])
  /\ var_demorph [8] (TList [Leaf tt], [1], [7; 9]) = None.
Proof. repeat split; try reflexivity. repeat constructor. Qed.
