(** C221: what slice_tensor selects (dialects/tensor.py slice_tensor; backends/tensor_impl.py:777-798, modelled
    in TensorModel). *)
From Coq Require Import List ZArith Bool Arith Lia.
From Verif Require Import TensorModel.
Import ListNotations.
Local Open Scope Z_scope.

(** ** Specification: slices of an axis of [n] elements *)
(** a negative position counts from the end *)
Definition place (n x : Z) : Z := if x <? 0 then x + n else x.
(** [i] is selected by [a:b:s]: with s > 0, the elements from [a] (or the first one, if [a] lies before it) on,
    in steps of s, up to but not including [b]; with s < 0, those from [a] (or the last one) back to but not
    including [b] *)
Definition selected (n a b s i : Z) : Prop :=
  0 <= i < n /\
  (0 < s -> let top := Z.max 0 (place n a) in top <= i < place n b /\ (s | i - top)) /\
  (s < 0 -> let top := Z.min (n - 1) (place n a) in place n b < i <= top /\ (s | top - i)).
(** [l] lists the selected elements in the order of the step *)
Definition axis (n a b s : Z) (l : list Z) : Prop :=
  (forall i, In i l <-> selected n a b s i) /\
  (forall j k, (j < k < length l)%nat -> if 0 <? s then nth j l 0 < nth k l 0 else nth k l 0 < nth j l 0).
(** the element that the axes [ls] put at [idx] *)
Fixpoint pick (ls : list (list Z)) (idx : list nat) : list nat :=
  match ls, idx with l :: ls', i :: idx' => Z.to_nat (nth i l 0) :: pick ls' idx' | _, _ => [] end.

(** ** Proofs *)
Local Lemma py_slice_sel : forall n a b s f c, 0 <= n -> s <> 0 -> py_slice n a b s = (f, c) ->
  0 <= c /\ (forall k, 0 <= k < c -> selected n a b s (f + k * s)) /\
  (forall i, selected n a b s i -> exists k, 0 <= k < c /\ i = f + k * s).
Proof.
  intros n a b s f c Hn Hs E. unfold py_slice in E. fold (place n a) in E. fold (place n b) in E.
  destruct (Z.ltb_spec 0 s).
  - set (fa := if a <? 0 then Z.max 0 (a + n) else Z.min a n) in *. set (fb := if b <? 0 then Z.max 0 (b + n) else Z.min b n) in *.
    assert (Ha : fa = Z.min n (Z.max 0 (place n a))) by (unfold fa, place; destruct (Z.ltb_spec a 0); lia).
    assert (Hb : fb = Z.min n (Z.max 0 (place n b))) by (unfold fb, place; destruct (Z.ltb_spec b 0); lia).
    clearbody fa fb. cbv zeta in E. injection E as <- <-. destruct (Z.ltb_spec fa fb).
    + assert (D0 : 0 <= (fb - fa - 1) / s) by (apply Z.div_pos; lia). split; [lia|]. split.
      * intros k Hk. assert (k * s <= fb - fa - 1).
        { assert (k <= (fb - fa - 1) / s) by lia. pose proof (Z.mul_div_le (fb - fa - 1) s ltac:(lia)). nia. }
        assert (0 <= k * s) by nia. split; [lia|]. split; [|lia]. intros _. cbv zeta. split; [lia|]. exists k. lia.
      * intros i (Hi & P & _). destruct (P ltac:(lia)) as [Hr [k Hk]]. exists k.
        assert (fa = Z.max 0 (place n a)) by lia. split; [|lia]. assert (0 <= k) by nia. split; [assumption|].
        assert (k <= (fb - fa - 1) / s) by (apply Z.div_le_lower_bound; lia). lia.
    + split; [lia|]. split; [lia|]. intros i (Hi & P & _). destruct (P ltac:(lia)) as [Hr _]. lia.
  - set (fa := if a <? 0 then Z.max (-1) (a + n) else Z.min a (n - 1)) in *. set (fb := if b <? 0 then Z.max (-1) (b + n) else Z.min b (n - 1)) in *.
    assert (Ha : fa = Z.max (-1) (Z.min (n - 1) (place n a))) by (unfold fa, place; destruct (Z.ltb_spec a 0); lia).
    assert (Hb : fb = Z.max (-1) (Z.min (n - 1) (place n b))) by (unfold fb, place; destruct (Z.ltb_spec b 0); lia).
    clearbody fa fb. cbv zeta in E. injection E as <- <-. destruct (Z.ltb_spec fb fa).
    + assert (D0 : 0 <= (fa - fb - 1) / - s) by (apply Z.div_pos; lia). split; [lia|]. split.
      * intros k Hk. assert (k * - s <= fa - fb - 1).
        { assert (k <= (fa - fb - 1) / - s) by lia. pose proof (Z.mul_div_le (fa - fb - 1) (- s) ltac:(lia)). nia. }
        assert (k * s <= 0) by nia. split; [lia|]. split; [lia|]. intros _. cbv zeta. split; [lia|]. exists (- k). lia.
      * intros i (Hi & _ & P). destruct (P ltac:(lia)) as [Hr [k Hk]]. exists (- k).
        assert (fa = Z.min (n - 1) (place n a)) by lia. split; [|lia]. assert (0 <= - k) by nia. split; [assumption|].
        assert (- k <= (fa - fb - 1) / - s) by (apply Z.div_le_lower_bound; lia). lia.
    + split; [lia|]. split; [lia|]. intros i (Hi & _ & P). destruct (P ltac:(lia)) as [Hr _]. lia.
Qed.
Local Definition line (f c st : Z) : list Z := map (fun k => f + Z.of_nat k * st) (seq 0 (Z.to_nat c)).
Local Lemma line_len : forall f c st, length (line f c st) = Z.to_nat c.
Proof. intros. unfold line. rewrite map_length, seq_length. reflexivity. Qed.
Local Lemma line_nth : forall f c st i, (i < Z.to_nat c)%nat -> nth i (line f c st) 0 = f + Z.of_nat i * st.
Proof.
  intros f c st i H. unfold line. rewrite (nth_indep _ 0 (f + Z.of_nat 0 * st)) by (rewrite map_length, seq_length; exact H).
  rewrite (map_nth (fun k => f + Z.of_nat k * st)), seq_nth by exact H. reflexivity.
Qed.
Local Lemma line_axis : forall n a b s f c, 0 <= n -> s <> 0 -> py_slice n a b s = (f, c) -> axis n a b s (line f c s).
Proof.
  intros n a b s f c Hn Hs E. destruct (py_slice_sel n a b s f c Hn Hs E) as (C0 & A & B). split.
  - intros i. unfold line. rewrite in_map_iff. split.
    + intros (k & <- & Hk). apply in_seq in Hk. apply A. lia.
    + intros H. destruct (B i H) as (k & Hk & ->). exists (Z.to_nat k). split; [rewrite Z2Nat.id by lia; reflexivity|]. apply in_seq. lia.
  - intros j k H. rewrite line_len in H. rewrite !line_nth by lia. destruct (Z.ltb_spec 0 s); nia.
Qed.
Local Definition lines (l : list (Z * Z * Z)) : list (list Z) := map (fun p => line (fst (fst p)) (snd (fst p)) (snd p)) l.
Local Lemma lines_pick : forall l idx, in_shape (map (fun p => Z.to_nat (snd (fst p))) l) idx = true -> slice_index l idx = pick (lines l) idx.
Proof.
  induction l as [|[[f c] st] l IH]; intros [|i idx] H; cbn in *; try discriminate; [reflexivity|].
  apply andb_prop in H. destruct H as [H1 H2]. apply Nat.ltb_lt in H1. rewrite line_nth by exact H1. f_equal. apply IH, H2.
Qed.
Local Lemma slices_axes : forall ns starts stops strides l, np_slices ns starts stops strides = Ok l ->
  length l = length ns /\ (length starts <= length ns)%nat /\
  (forall k, (k < length starts)%nat ->
     nth k strides 0 <> 0 /\ axis (Z.of_nat (nth k ns 0%nat)) (nth k starts 0) (nth k stops 0) (nth k strides 0) (nth k (lines l) [])) /\
  (forall k, (length starts <= k < length ns)%nat -> nth k (lines l) [] = map Z.of_nat (seq 0 (nth k ns 0%nat))).
Proof.
  intros ns starts. revert ns. induction starts as [|a starts IH]; intros ns stops strides l H.
  - assert (H' : map (fun n => (0, Z.of_nat n, 1)) ns = l) by (destruct ns; cbn in H; injection H as H; exact H). subst l. rewrite map_length.
    split; [reflexivity|]. split; [cbn; lia|]. split; [cbn; lia|]. intros k Hk. unfold lines. rewrite map_map.
    assert (X : nth k (map (fun n => line 0 (Z.of_nat n) 1) ns) (line 0 (Z.of_nat 0) 1) = line 0 (Z.of_nat (nth k ns 0%nat)) 1)
      by apply (map_nth (fun n => line 0 (Z.of_nat n) 1)).
    change (line 0 (Z.of_nat 0) 1) with (@nil Z) in X. cbn [fst snd]. rewrite X. unfold line. rewrite Nat2Z.id. apply map_ext. intros x. lia.
  - destruct stops as [|b stops]; [destruct ns; discriminate|]. destruct strides as [|st strides]; [destruct ns; discriminate|].
    destruct ns as [|n ns]; [discriminate|]. cbn [np_slices] in H. destruct (Z.eqb_spec st 0) as [|Hst]; [discriminate|].
    destruct (np_slices ns starts stops strides) as [r|] eqn:E; [|discriminate]. destruct (py_slice (Z.of_nat n) a b st) as [f c] eqn:P.
    injection H as <-. destruct (IH _ _ _ _ E) as (L & Le & A & B). cbn [length lines map fst snd]. fold (lines r).
    split; [lia|]. split; [lia|]. split.
    + intros [|k] Hk; cbn [nth]; [split; [exact Hst | apply line_axis; [lia | exact Hst | exact P]] | apply A; lia].
    + intros [|k] Hk; cbn [nth]; [lia | apply B; lia].
Qed.

(** ** The theorem *)

(** Slicing, when it does not raise, lists for each axis that was named the selected elements, in the order of
    the step, keeps the other axes, and holds at every index the element that these axes put there. *)
Theorem C221_slice : forall (x : arr) (starts stops : list Z) (strides : option (list Z)) (r : arr),
  slice_impl x starts stops strides = Ok r ->
  let step k := match strides with Some ((_ :: _) as s) => nth k s 0 | _ => 1 end in
  exists axes : list (list Z),
    length axes = length (sh x) /\ (length starts <= length (sh x))%nat /\
    (forall k, (k < length starts)%nat ->
       step k <> 0 /\ axis (Z.of_nat (nth k (sh x) 0%nat)) (nth k starts 0) (nth k stops 0) (step k) (nth k axes [])) /\
    (forall k, (length starts <= k < length (sh x))%nat -> nth k axes [] = map Z.of_nat (seq 0 (nth k (sh x) 0%nat))) /\
    sh r = map (@length Z) axes /\
    forall idx, in_shape (sh r) idx = true -> get r idx = get x (pick axes idx).
Proof.
  intros x starts stops strides r H step. unfold slice_impl in H.
  set (ss := match strides with Some ((_ :: _) as s) => s | _ => repeat 1 (length starts) end) in *.
  destruct (np_slices (sh x) starts stops ss) as [l|] eqn:E; [|discriminate]. injection H as <-.
  destruct (slices_axes _ _ _ _ _ E) as (L & Le & A & B). exists (lines l). cbn [sh get].
  split; [unfold lines; rewrite map_length; exact L|]. split; [exact Le|]. split.
  - intros k Hk. destruct (A k Hk) as [A1 A2]. assert (Ek : nth k ss 0 = step k).
    { unfold ss, step. destruct strides as [[|s0 s]|]; try reflexivity; rewrite (nth_indep _ 0 1) by (rewrite repeat_length; exact Hk); apply nth_repeat. }
    rewrite <- Ek. split; assumption.
  - split; [exact B|]. split.
    + unfold lines. rewrite map_map. apply map_ext. intros p. rewrite line_len. reflexivity.
    + intros idx Hi. rewrite lines_pick by exact Hi. reflexivity.
Qed.
Print Assumptions C221_slice.

(** The axes are determined: two lists that meet the description are the same. *)
Theorem C221_axis_unique : forall n a b s l l', axis n a b s l -> axis n a b s l' -> l = l'.
Proof.
  intros n a b s l l' [A S1] [A' S2]. assert (W : forall i, In i l <-> In i l') by (intros i; rewrite A, A'; reflexivity).
  clear A A'. revert l' S2 W. induction l as [|x l IH]; intros [|y l'] S2 W.
  - reflexivity.
  - destruct (proj2 (W y) (or_introl eq_refl)).
  - destruct (proj1 (W x) (or_introl eq_refl)).
  - assert (T : forall z m, (forall j k, (j < k < length (z :: m))%nat -> if 0 <? s then nth j (z :: m) 0 < nth k (z :: m) 0 else nth k (z :: m) 0 < nth j (z :: m) 0) ->
        forall w, In w m -> if 0 <? s then z < w else w < z).
    { intros z m Sm w Hw. destruct (In_nth m w 0 Hw) as (k & Hk & <-). apply (Sm 0%nat (S k)). cbn. lia. }
    pose proof (T x l S1) as Tx. pose proof (T y l' S2) as Ty.
    assert (x = y).
    { destruct (proj1 (W x) (or_introl eq_refl)) as [->|Hx]; [reflexivity|]. destruct (proj2 (W y) (or_introl eq_refl)) as [->|Hy]; [reflexivity|].
      specialize (Tx y Hy). specialize (Ty x Hx). destruct (0 <? s); lia. }
    subst y. f_equal. apply IH.
    + intros j k H. apply (S1 (S j) (S k)). cbn. lia.
    + intros j k H. apply (S2 (S j) (S k)). cbn. lia.
    + intros i. split; intros Hi.
      * destruct (proj1 (W i) (or_intror Hi)) as [<-|]; [|assumption]. specialize (Tx x Hi). destruct (0 <? s); lia.
      * destruct (proj2 (W i) (or_intror Hi)) as [<-|]; [|assumption]. specialize (Ty x Hi). destruct (0 <? s); lia.
Qed.
Print Assumptions C221_axis_unique.

(** x[5:0:-2, -3:100] of a 6 by 4 tensor that holds 10 * row + column. *)
Example C221_ex :
  match slice_impl {| sh := [6; 4]%nat; get := fun i => 10 * Z.of_nat (nth 0 i 0%nat) + Z.of_nat (nth 1 i 0%nat) |} [5; -3] [0; 100] (Some [-2; 1]) with
  | Ok r => sh r = [3; 3]%nat /\ map (get r) [[0; 0]; [0; 2]; [1; 0]; [2; 2]]%nat = [51; 53; 31; 13]
  | Err _ => False
  end.
Proof. vm_compute. split; reflexivity. Qed.
