(** Facts about sorting a dict by its string keys (MorphModel.sort_keys). *)
From Coq Require Import List String Ascii Bool Arith Lia NArith Sorting.Permutation Sorting.Sorted.
From Verif Require Import MorphModel MorphProofs.
Import ListNotations.
Local Open Scope list_scope.

Lemma ascii_le_trans a b c : Ascii.compare a b <> Gt -> Ascii.compare b c <> Gt -> Ascii.compare a c <> Gt.
Proof. unfold Ascii.compare. rewrite !N.compare_le_iff. lia. Qed.
Lemma leb_trans a : forall b c, String.leb a b = true -> String.leb b c = true -> String.leb a c = true.
Proof.
  unfold String.leb. induction a as [|x a IH]; intros [|y b] [|z c]; cbn; intros H H'; try discriminate; auto.
  destruct (Ascii.compare x y) eqn:E; try discriminate H.
  - apply Ascii.compare_eq_iff in E. subst y. destruct (Ascii.compare x z); try discriminate H'; auto. exact (IH b c H H').
  - destruct (Ascii.compare y z) eqn:E'; try discriminate H'.
    + apply Ascii.compare_eq_iff in E'. subst z. rewrite E. reflexivity.
    + unfold Ascii.compare in *. rewrite N.compare_lt_iff in *. assert (N_of_ascii x < N_of_ascii z)%N as L by lia. apply N.compare_lt_iff in L. rewrite L. reflexivity.
Qed.
Definition key_le {B : Type} (p q : string * B) : Prop := String.leb (fst p) (fst q) = true.
Lemma insert_sorted {B} k (v : B) l : StronglySorted key_le l -> StronglySorted key_le (insert_key k v l).
Proof.
  induction 1 as [|[k' v'] l Hl IH Hf]; cbn; [repeat constructor|]. destruct (String.leb k k') eqn:E.
  - constructor; [constructor; assumption|]. constructor; [exact E|]. rewrite Forall_forall in *. intros q Hq. apply (leb_trans k k'); [exact E|exact (Hf q Hq)].
  - constructor; [exact IH|]. assert (String.leb k' k = true) as E' by (destruct (String.leb_total k k'); congruence).
    apply (Permutation_Forall (insert_perm k v l)). constructor; [exact E'|exact Hf].
Qed.
Lemma sort_sorted {B} (l : list (string * B)) : StronglySorted key_le (sort_keys l).
Proof. induction l as [|[k v] l IH]; cbn; [constructor|]. apply insert_sorted, IH. Qed.
Lemma sorted_unique {B} (l : list (string * B)) : forall l', StronglySorted key_le l -> StronglySorted key_le l' -> NoDup (map fst l) -> Permutation l l' -> l = l'.
Proof.
  induction l as [|p l IH]; intros l' Sl Sl' ND P.
  - apply Permutation_nil in P. auto.
  - destruct l' as [|q l']; [apply Permutation_sym, Permutation_nil in P; discriminate P|].
    inversion Sl as [|? ? Sl1 F1]; subst. inversion Sl' as [|? ? Sl1' F1']; subst. inversion ND as [|? ? N1 ND1]; subst.
    assert (p = q) as <-.
    { assert (In q (p :: l)) as [Hq|Hq] by (apply (Permutation_in _ (Permutation_sym P)); left; reflexivity); [exact Hq|].
      assert (In p (q :: l')) as [Hp|Hp] by (apply (Permutation_in _ P); left; reflexivity); [symmetry; exact Hp|].
      exfalso. rewrite Forall_forall in F1, F1'. pose proof (String.leb_antisym _ _ (F1 q Hq) (F1' p Hp)) as E. apply N1. rewrite E. apply in_map, Hq. }
    f_equal. apply IH; auto. apply Permutation_cons_inv in P. exact P.
Qed.
Lemma sort_unique {B} (l l' : list (string * B)) : NoDup (map fst l) -> Permutation l l' -> sort_keys l = sort_keys l'.
Proof.
  intros ND P. apply sorted_unique; try apply sort_sorted.
  - apply (Permutation_NoDup (Permutation_map fst (sort_perm l))), ND.
  - rewrite <- (sort_perm l), <- (sort_perm l'). exact P.
Qed.
Lemma sort_id {B} (l : list (string * B)) : StronglySorted key_le l -> sort_keys l = l.
Proof.
  induction 1 as [|[k v] l Hl IH Hf]; cbn; [reflexivity|]. fold (@sort_keys B). change (fold_right _ [] l) with (sort_keys l). rewrite IH. destruct l as [|[k' v'] l]; cbn; [reflexivity|]. inversion Hf as [|? ? H1 H2]; subst. unfold key_le in H1. cbn in H1. rewrite H1. reflexivity.
Qed.
Lemma sort_nodup {B} (l : list (string * B)) : NoDup (map fst l) -> NoDup (map fst (sort_keys l)).
Proof. intros H. exact (Permutation_NoDup (Permutation_map fst (sort_perm l)) H). Qed.
Lemma sort_in {B} (l : list (string * B)) p : In p (sort_keys l) <-> In p l.
Proof. split; apply Permutation_in; [apply Permutation_sym|]; apply sort_perm. Qed.
