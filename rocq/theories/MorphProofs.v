From Coq Require Import List String Bool Arith Lia Sorting.Permutation.
From Verif Require Import MorphModel.
Import ListNotations.
Local Open Scope list_scope.

Section TreeInd.
  Context {A : Type} (P : tree A -> Prop).
  Hypothesis HL : forall a, P (Leaf a).
  Hypothesis HN : P TNone.
  Hypothesis Hl : forall l, Forall P l -> P (TList l).
  Hypothesis Ht : forall l, Forall P l -> P (TTuple l).
  Hypothesis Hd : forall l, Forall (fun p => P (snd p)) l -> P (TDict l).
  Fixpoint tree_ind2 (t : tree A) : P t :=
    match t with
    | Leaf a => HL a
    | TNone => HN
    | TList l => Hl l ((fix go l : Forall P l := match l with [] => Forall_nil _ | x :: l' => Forall_cons _ (tree_ind2 x) (go l') end) l)
    | TTuple l => Ht l ((fix go l : Forall P l := match l with [] => Forall_nil _ | x :: l' => Forall_cons _ (tree_ind2 x) (go l') end) l)
    | TDict l => Hd l ((fix go (l : list (string * tree A)) : Forall (fun p => P (snd p)) l :=
        match l with [] => Forall_nil _ | x :: l' => Forall_cons _ (tree_ind2 (snd x)) (go l') end) l)
    end.
End TreeInd.

Lemma split_lengths {A} pred : forall (l : list A) i f s p, list_split pred i l = (f, s, p) ->
  List.length f = List.length p /\ List.length f + List.length s = List.length l /\ Forall (fun k => i <= k) p.
Proof.
  induction l as [|x l IH]; intros i f s p E; cbn in E; [injection E as <- <- <-; auto|].
  destruct (list_split pred (S i) l) as [[f0 s0] p0] eqn:E0. destruct (IH _ _ _ _ E0) as (H1 & H2 & H3).
  assert (H3' : Forall (fun k => i <= k) p0) by (eapply Forall_impl; [|exact H3]; cbn; lia).
  destruct (pred x); injection E as <- <- <-; cbn; repeat split; auto; lia.
Qed.
Lemma split_fst {A} pred : forall (l : list A) i f s p, list_split pred i l = (f, s, p) -> f = filter pred l /\ s = filter (fun x => negb (pred x)) l.
Proof.
  induction l as [|x l IH]; intros i f s p E; cbn in E; [injection E as <- <- <-; auto|].
  destruct (list_split pred (S i) l) as [[f0 s0] p0] eqn:E0. destruct (IH _ _ _ _ E0) as (-> & ->).
  cbn. destruct (pred x); injection E as <- <- <-; auto.
Qed.

Lemma reconstruct_from {A} pred : forall (l : list A) i f s p rs, list_split pred i l = (f, s, p) -> List.length rs = List.length f ->
  list_reconstruct_from (List.length l) i rs s p = Some (fill pred l rs).
Proof.
  induction l as [|x l IH]; intros i f s p rs E L; cbn in E; [injection E as <- <- <-; auto|].
  destruct (list_split pred (S i) l) as [[f0 s0] p0] eqn:E0.
  destruct (split_lengths _ _ _ _ _ _ E0) as (H1 & H2 & H3).
  cbn [List.length list_reconstruct_from fill]. destruct (pred x); injection E as <- <- <-.
  - rewrite Nat.eqb_refl. destruct rs as [|r rs]; [discriminate|]. cbn in L.
    rewrite (IH _ _ _ _ _ E0) by lia. reflexivity.
  - destruct p0 as [|k p0].
    + rewrite (IH _ _ _ _ _ E0) by lia. reflexivity.
    + inversion H3; subst. destruct (Nat.eqb_spec k i); [lia|]. rewrite (IH _ _ _ _ _ E0) by lia. reflexivity.
Qed.
Lemma reconstruct_split {A} pred (l : list A) f s p rs : list_split pred 0 l = (f, s, p) -> List.length rs = List.length f ->
  list_reconstruct rs s p = Some (fill pred l rs).
Proof.
  intros E L. unfold list_reconstruct. destruct (split_lengths _ _ _ _ _ _ E) as (_ & H2 & _).
  rewrite L, H2. eapply reconstruct_from; eauto.
Qed.
Lemma fill_filter {A} pred : forall (l : list A), fill pred l (filter pred l) = l.
Proof. induction l as [|x l IH]; cbn; auto. destruct (pred x); now rewrite IH. Qed.
Lemma fill_map {A} pred (g : A -> A) : forall (l : list A), fill pred l (map g (filter pred l)) = map (fun x => if pred x then g x else x) l.
Proof. induction l as [|x l IH]; cbn; auto. destruct (pred x); cbn; now rewrite IH. Qed.
Lemma fill_length {A} pred : forall (l rs : list A), List.length rs = List.length (filter pred l) -> List.length (fill pred l rs) = List.length l.
Proof. induction l as [|x l IH]; intros rs H; cbn in *; auto. destruct (pred x); cbn in *; [destruct rs as [|r rs]; [discriminate|]|]; cbn; f_equal; apply IH; cbn in H; lia. Qed.

(** sorting commutes with maps on the values *)
Lemma insert_map {B C} (f : B -> C) k v : forall l, insert_key k (f v) (map (fun p => (fst p, f (snd p))) l) = map (fun p => (fst p, f (snd p))) (insert_key k v l).
Proof. induction l as [|[k' v'] l IH]; cbn; auto. destruct (String.leb k k'); cbn; auto. now rewrite IH. Qed.
Lemma sort_map {B C} (f : B -> C) : forall l : list (string * B), sort_keys (map (fun p => (fst p, f (snd p))) l) = map (fun p => (fst p, f (snd p))) (sort_keys l).
Proof. induction l as [|[k v] l IH]; cbn; auto. fold (@sort_keys C). unfold sort_keys in *. cbn. rewrite IH. apply (insert_map f k v). Qed.
Lemma insert_perm {B} k (v : B) : forall l, Permutation ((k, v) :: l) (insert_key k v l).
Proof. induction l as [|[k' v'] l IH]; cbn; auto. destruct (String.leb k k'); auto. rewrite perm_swap. now constructor. Qed.
Lemma sort_perm {B} : forall l : list (string * B), Permutation l (sort_keys l).
Proof. induction l as [|[k v] l IH]; cbn; auto. rewrite IH at 1. apply insert_perm. Qed.

(** dict keys sorted *)
Fixpoint canon {A} (t : tree A) : tree A :=
  match t with
  | TList l => TList (map canon l)
  | TTuple l => TTuple (map canon l)
  | TDict items => TDict (sort_keys (map (fun p => (fst p, canon (snd p))) items))
  | _ => t
  end.
Lemma canon_pyeq {A} : forall t : tree A, pyeq t (canon t).
Proof.
  apply tree_ind2; cbn; intros; try constructor.
  - induction H; constructor; auto.
  - induction H; constructor; auto.
  - rewrite sort_map. apply EqDict with (l' := sort_keys l); [apply sort_perm|].
    assert (F : Forall (fun p : string * tree A => pyeq (snd p) (canon (snd p))) (sort_keys l)) by (eapply Permutation_Forall; [apply sort_perm|auto]).
    induction F; cbn; constructor; auto.
Qed.

(** flattening: the leaves fill the structure *)
Lemma take_leaves {A} : forall (t : tree A) r, take (def_of t) (leaves t ++ r) = Some (canon t, r).
Proof.
  apply (tree_ind2 (fun t => forall r, take (def_of t) (leaves t ++ r) = Some (canon t, r))); cbn; intros; auto.
  - assert (E : take_list take (map def_of l) (flat_map leaves l ++ r) = Some (map canon l, r)).
    { clear - H. revert r. induction H as [|t l Ht Hl IH]; intros r; cbn; auto.
      rewrite <- app_assoc, Ht. cbn. unfold take_list in IH. now rewrite IH. }
    now rewrite E.
  - assert (E : take_list take (map def_of l) (flat_map leaves l ++ r) = Some (map canon l, r)).
    { clear - H. revert r. induction H as [|t l Ht Hl IH]; intros r; cbn; auto.
      rewrite <- app_assoc, Ht. cbn. unfold take_list in IH. now rewrite IH. }
    now rewrite E.
  - rewrite !sort_map. assert (F : Forall (fun p : string * tree A => forall r, take (def_of (snd p)) (leaves (snd p) ++ r) = Some (canon (snd p), r)) (sort_keys l))
      by (eapply Permutation_Forall; [apply sort_perm|auto]).
    assert (E : take_dict take (map (fun p => (fst p, def_of (snd p))) (sort_keys l)) (flat_map snd (map (fun p => (fst p, leaves (snd p))) (sort_keys l)) ++ r)
      = Some (map (fun p => (fst p, canon (snd p))) (sort_keys l), r)).
    { clear - F. revert r. induction F as [|[k t] l' Ht Hl IH]; intros r; cbn; auto.
      rewrite <- app_assoc, Ht. cbn. unfold take_dict in IH. now rewrite IH. }
    now rewrite E.
Qed.

(** taking from mapped leaves gives the mapped tree *)
Lemma leaves_tmap {A B} (g : A -> B) : forall t, leaves (tmap g t) = map g (leaves t).
Proof.
  apply (tree_ind2 (fun t => leaves (tmap g t) = map g (leaves t))); cbn; intros; auto.
  - induction H; cbn; auto. now rewrite map_app, H, IHForall.
  - induction H; cbn; auto. now rewrite map_app, H, IHForall.
  - rewrite map_map. cbn. rewrite (sort_map leaves l).
    assert (F : Forall (fun p : string * tree A => leaves (tmap g (snd p)) = map g (leaves (snd p))) (sort_keys l))
      by (eapply Permutation_Forall; [apply sort_perm|auto]).
    rewrite (sort_map (fun x => leaves (tmap g x)) l).
    clear - F. induction F; cbn; auto. now rewrite map_app, H, IHF.
Qed.
Lemma def_tmap {A B} (g : A -> B) : forall t, def_of (tmap g t) = def_of t.
Proof.
  apply (tree_ind2 (fun t => def_of (tmap g t) = def_of t)); cbn; intros; auto.
  - f_equal. rewrite map_map. induction H; cbn; f_equal; auto.
  - f_equal. rewrite map_map. induction H; cbn; f_equal; auto.
  - f_equal. rewrite map_map. cbn. f_equal. induction H; cbn; f_equal; auto. now rewrite H.
Qed.
Lemma canon_tmap {A B} (g : A -> B) : forall t, canon (tmap g t) = tmap g (canon t).
Proof.
  apply (tree_ind2 (fun t => canon (tmap g t) = tmap g (canon t))); cbn; intros; auto.
  - f_equal. rewrite !map_map. induction H; cbn; f_equal; auto.
  - f_equal. rewrite !map_map. induction H; cbn; f_equal; auto.
  - f_equal. rewrite map_map. cbn. rewrite (sort_map (fun x => canon (tmap g x))), (sort_map canon), map_map. cbn.
    assert (F : Forall (fun p : string * tree A => canon (tmap g (snd p)) = tmap g (canon (snd p))) (sort_keys l))
      by (eapply Permutation_Forall; [apply sort_perm|auto]).
    clear - F. induction F; cbn; f_equal; auto. now rewrite H.
Qed.


Theorem demorph_map {A} pred (g : A -> A) (t : tree A) :
  var_demorph (map g (fst (var_morph pred t))) (snd (var_morph pred t)) = Some (canon (tmap (fun x => if pred x then g x else x) t)).
Proof.
  unfold var_morph. destruct (list_split pred 0 (leaves t)) as [[f s] p] eqn:E. cbn [fst snd var_demorph].
  destruct (split_fst _ _ _ _ _ _ E) as [Hf _].
  rewrite (reconstruct_split _ _ _ _ _ _ E) by apply map_length. rewrite Hf, fill_map.
  unfold unflatten. rewrite <- (def_tmap (fun x => if pred x then g x else x)), <- leaves_tmap.
  rewrite <- (app_nil_r (leaves _)), take_leaves. reflexivity.
Qed.
