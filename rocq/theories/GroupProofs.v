(** Proofs about the shuffle-based group-by. *)
From Coq Require Import List NArith ZArith Bool Arith Lia Permutation.
From Verif Require Import MPCBase OTModel OTSpec OTProofs PermModel PermProofs PermProps BFVSpec BFVProofs GroupModel.
Import ListNotations.
Local Open Scope nat_scope.

Definition w64 : Z := (2 ^ 64)%Z.
Definition int64 (z : Z) : Prop := (- 2 ^ 63 <= z < 2 ^ 63)%Z.

Lemma wrap_cong a b : (a mod w64 = b mod w64)%Z -> wrap a = wrap b.
Proof. intros H. unfold wrap. f_equal. unfold w64 in H. rewrite Z.add_mod, H, <- Z.add_mod by (vm_compute; discriminate). reflexivity. Qed.
Lemma wrap_mod a : (wrap a mod w64 = a mod w64)%Z.
Proof.
  unfold wrap, w64. rewrite Zminus_mod_idemp_l. f_equal. lia.
Qed.
Lemma wrap_int64 a : int64 (wrap a).
Proof. unfold wrap, int64. pose proof (Z.mod_pos_bound (a + 2 ^ 63) (2 ^ 64)). change (2 ^ 64)%Z with (2 * 2 ^ 63)%Z in *. lia. Qed.
Lemma wrap_id a : int64 a -> wrap a = a.
Proof. intros H. unfold wrap, int64 in *. change (2 ^ 64)%Z with (2 * 2 ^ 63)%Z. rewrite Z.mod_small; lia. Qed.
Lemma w64_nz : (w64 <> 0)%Z. Proof. discriminate. Qed.

(* ------------------------------------------------ argsort *)

Lemma insert_perm key i l : Permutation (insert_sorted key i l) (i :: l).
Proof.
  induction l as [|j l IH]; [reflexivity|]. cbn [insert_sorted]. destruct (_ <? _)%Z; [reflexivity|].
  rewrite IH. apply perm_swap.
Qed.
Lemma argsort_perm b : Permutation (argsort b) (seq 0 (length b)).
Proof.
  unfold argsort. generalize (seq 0 (length b)) as l. intros l.
  assert (forall acc, Permutation (fold_left (fun acc i => insert_sorted (fun j => nth j b 0%Z) i acc) l acc) (acc ++ l)) as K.
  { induction l as [|i l IH]; intros acc; [rewrite app_nil_r; reflexivity|]. cbn [fold_left]. rewrite IH, insert_perm.
    cbn [app]. apply Permutation_middle. }
  apply (K []).
Qed.

(* ------------------------------------------------ group sums *)

Definition gs (l : list (Z * Z)) (g : Z) : Z := fold_right (fun p acc => (if (snd p =? g)%Z then fst p else 0) + acc)%Z 0%Z l.
Lemma group_sum_gs a : forall b g, group_sum a b g = gs (combine a b) g.
Proof. induction a as [|x a IH]; intros b g; [reflexivity|]. destruct b as [|y b]; [reflexivity|]. cbn [group_sum combine gs fold_right fst snd]. rewrite IH. reflexivity. Qed.
Lemma gs_perm l l' g : Permutation l l' -> gs l g = gs l' g.
Proof. unfold gs. intros P. induction P as [|x l l' P IH|x y l|l l' l'' P IH P' IH']; cbn [fold_right]; [reflexivity|rewrite IH; reflexivity|lia|rewrite IH; exact IH']. Qed.
Lemma as_map {A} (d : A) l : l = map (fun i => nth i l d) (seq 0 (length l)).
Proof. exact (list_as_tab l d). Qed.
Lemma group_sum_permuted a b perm g : length b = length a -> Permutation perm (seq 0 (length a)) ->
  group_sum (map (fun i => nth i a 0%Z) perm) (map (fun i => nth i b 0%Z) perm) g = group_sum a b g.
Proof.
  intros L P. rewrite !group_sum_gs, combine_map.
  rewrite (gs_perm _ (map (fun x => (nth x a 0%Z, nth x b 0%Z)) (seq 0 (length a)))) by (apply Permutation_map, P).
  f_equal. rewrite <- combine_map. f_equal; [symmetry; apply as_map|]. rewrite <- L. symmetry. apply as_map.
Qed.

Lemma zip_length f a b : length (zip_with f a b) = Nat.min (length a) (length b).
Proof. unfold zip_with. rewrite map_length, combine_length. reflexivity. Qed.
Lemma zip_nth f a b i : length a = length b -> i < length a -> nth i (zip_with f a b) 0%Z = f (nth i a 0%Z) (nth i b 0%Z).
Proof.
  intros L Hi. unfold zip_with. rewrite (nth_indep _ 0%Z (f (fst (0, 0)) (snd (0, 0)))%Z) by (rewrite map_length, combine_length; lia).
  rewrite (map_nth (fun p => f (fst p) (snd p))), combine_nth by exact L. reflexivity.
Qed.
Lemma group_sum_mod a : forall b c g, length b = length a -> length c = length a ->
  (group_sum (zip_with (fun x y => wrap (x - y)) a b) c g mod w64 = (group_sum a c g - group_sum b c g) mod w64)%Z.
Proof.
  induction a as [|x a IH]; intros b c g Lb Lc; [destruct b; [reflexivity|discriminate Lb]|].
  destruct b as [|y b]; [discriminate Lb|]. destruct c as [|z c]; [discriminate Lc|].
  unfold zip_with. cbn [combine map fst snd group_sum]. fold (zip_with (fun x y => wrap (x - y)) a b).
  specialize (IH b c g ltac:(cbn in Lb; lia) ltac:(cbn in Lc; lia)).
  rewrite Z.add_mod, IH, <- Z.add_mod by apply w64_nz. destruct (z =? g)%Z.
  - rewrite Z.add_mod, wrap_mod, <- Z.add_mod by apply w64_nz. f_equal. lia.
  - f_equal; lia.
Qed.

Lemma segment_nth vals ids K g : g < K -> nth g (segment_sum vals ids K) 0%Z = wrap (group_sum vals ids (Z.of_nat g)).
Proof.
  intros H. unfold segment_sum. set (f := fun g => wrap (group_sum vals ids (Z.of_nat g))).
  rewrite (nth_indep _ 0%Z (f 0)) by (rewrite map_length, seq_length; exact H). rewrite map_nth, seq_nth by exact H. reflexivity.
Qed.
Lemma segment_length vals ids K : length (segment_sum vals ids K) = K.
Proof. unfold segment_sum. rewrite map_length, seq_length. reflexivity. Qed.

Section Run.
Variables (X : cenv) (CT : Type) (enc : list N -> list N -> Z -> CT) (dec : list N -> CT -> option Z).
Hypothesis OKX : env_ok X.
Hypothesis SYM : forall key nonce m, dec key (enc key nonce m) = Some m.

Lemma run_shape R mask data bins K r : length mask = length data -> length bins = length data ->
  groupby_shuffle X CT enc dec R mask data bins K = Some r ->
  let d0 := zip_with (fun d m => wrap (d - m)) data mask in
  r = Run (map (fun i => nth i d0 0%Z) (argsort bins), segment_sum mask bins K) (mask, bins)
       (zip_with (fun a b => wrap (a + b)) (segment_sum (map (fun i => nth i d0 0%Z) (argsort bins)) (map (fun i => nth i bins 0%Z) (argsort bins)) K)
          (segment_sum mask bins K)).
Proof.
  intros Lm Lb H d0. unfold groupby_shuffle, split_shares in H. fold d0 in H.
  destruct (apply_permutation X Z CT enc dec 0%Z R d0 (argsort bins)) as [s0|] eqn:E; [|discriminate H].
  apply (C15_permutation_applied X Z CT enc dec 0%Z OKX SYM) in E.
  - subst s0. symmetry. injection H as <-. reflexivity.
  - unfold d0. rewrite zip_length. replace (Nat.min (length data) (length mask)) with (length bins) by lia. apply argsort_perm.
Qed.

Lemma run_result R mask data bins K r : length mask = length data -> length bins = length data ->
  groupby_shuffle X CT enc dec R mask data bins K = Some r ->
  result r = map (fun g => wrap (group_sum data bins (Z.of_nat g))) (seq 0 K).
Proof.
  intros Lm Lb H. rewrite (run_shape R mask data bins K r Lm Lb H). cbn [result]. clear H r.
  apply (nth_ext _ _ 0%Z 0%Z).
  - rewrite zip_length, !segment_length, map_length, seq_length. lia.
  - intros g Hg. rewrite zip_length, !segment_length in Hg. assert (g < K) as Hg' by lia.
    rewrite zip_nth by (rewrite ?segment_length; lia).
    rewrite !segment_nth by exact Hg'. rewrite group_sum_permuted.
    2: { rewrite zip_length. lia. }
    2: { rewrite zip_length. replace (Nat.min (length data) (length mask)) with (length bins) by lia. apply argsort_perm. }
    transitivity (nth g (segment_sum data bins K) 0%Z); [|reflexivity]. rewrite segment_nth by exact Hg'.
    apply wrap_cong. rewrite Z.add_mod, !wrap_mod, <- Z.add_mod by apply w64_nz.
    rewrite Z.add_mod, group_sum_mod, <- Z.add_mod by (try apply w64_nz; lia). f_equal. lia.
Qed.

(** completion *)
Lemma run_completes R mask data bins K : gen_exact (grp X) -> length mask = length data -> length bins = length data ->
  (forall i, i < 2 * Nat.max (length data) 1 -> generic_draw X (rC0 R) (rnd0 R i) /\ generic_draw X (rC1 R) (rnd1 R i)) ->
  exists r, groupby_shuffle X CT enc dec R mask data bins K = Some r.
Proof.
  intros EX Lm Lb HR. unfold groupby_shuffle, split_shares.
  rewrite (C15_permutation_completes X Z CT enc dec 0%Z OKX EX SYM R).
  - eauto.
  - rewrite zip_length. replace (Nat.min (length data) (length mask)) with (length bins) by lia. apply argsort_perm.
  - rewrite zip_length. replace (Nat.min (length data) (length mask)) with (length data) by lia. exact HR.
Qed.

(** the mask that explains the same receiver view for other data *)
Definition shift_mask (data data' mask : list Z) : list Z :=
  zip_with (fun m e => wrap (m + e)) mask (zip_with (fun d' d => d' - d)%Z data' data).

Lemma shift_length data data' mask : length data' = length data -> length mask = length data -> length (shift_mask data data' mask) = length data.
Proof. intros L1 L2. unfold shift_mask. rewrite !zip_length. lia. Qed.
Lemma shift_nth data data' mask i : length data' = length data -> length mask = length data -> i < length data ->
  nth i (shift_mask data data' mask) 0%Z = wrap (nth i mask 0 + (nth i data' 0 - nth i data 0))%Z.
Proof. intros L1 L2 Hi. unfold shift_mask. rewrite zip_nth; rewrite ?zip_length; try lia. rewrite zip_nth by lia. reflexivity. Qed.
Lemma shift_int64 data data' mask : Forall int64 (shift_mask data data' mask).
Proof. unfold shift_mask, zip_with at 1. apply Forall_forall. intros z Hz. apply in_map_iff in Hz. destruct Hz as (p & <- & _). apply wrap_int64. Qed.
Lemma shift_invol data data' mask : length data' = length data -> length mask = length data -> Forall int64 mask ->
  shift_mask data' data (shift_mask data data' mask) = mask.
Proof.
  intros L1 L2 F. apply (nth_ext _ _ 0%Z 0%Z); [rewrite shift_length; rewrite ?shift_length; lia|].
  intros i Hi. rewrite shift_length in Hi by (rewrite ?shift_length; lia).
  rewrite shift_nth by (rewrite ?shift_length; lia). rewrite shift_nth by lia.
  assert (int64 (nth i mask 0%Z)) as Im by (apply (proj1 (Forall_forall _ _) F), nth_In; lia).
  rewrite <- (wrap_id _ Im) at 2. apply wrap_cong. rewrite Z.add_mod, wrap_mod, <- Z.add_mod by apply w64_nz. f_equal. lia.
Qed.

Lemma group_sum_shift : forall data data' mask bins g, length data' = length data -> length mask = length data -> length bins = length data ->
  (group_sum (shift_mask data data' mask) bins g mod w64 = (group_sum mask bins g + group_sum data' bins g - group_sum data bins g) mod w64)%Z.
Proof.
  induction data as [|d data IH]; intros data' mask bins g L1 L2 L3.
  - destruct data'; [|discriminate L1]. destruct mask; [|discriminate L2]. reflexivity.
  - destruct data' as [|d' data']; [discriminate L1|]. destruct mask as [|m mask]; [discriminate L2|]. destruct bins as [|b bins]; [discriminate L3|].
    unfold shift_mask, zip_with. cbn [combine map fst snd group_sum].
    fold (zip_with (fun d' d => d' - d)%Z data' data). fold (zip_with (fun m e => wrap (m + e)) mask (zip_with (fun d' d => d' - d)%Z data' data)).
    fold (shift_mask data data' mask).
    specialize (IH data' mask bins g ltac:(cbn in *; lia) ltac:(cbn in *; lia) ltac:(cbn in *; lia)).
    rewrite Z.add_mod, IH, <- Z.add_mod by apply w64_nz. destruct (b =? g)%Z.
    + rewrite Z.add_mod, wrap_mod, <- Z.add_mod by apply w64_nz. f_equal. lia.
    + f_equal; lia.
Qed.

Lemma same_view R mask data data' bins K r : length data' = length data -> length mask = length data -> length bins = length data ->
  (forall g, g < K -> wrap (group_sum data bins (Z.of_nat g)) = wrap (group_sum data' bins (Z.of_nat g))) ->
  forall r', groupby_shuffle X CT enc dec R mask data bins K = Some r ->
  groupby_shuffle X CT enc dec R (shift_mask data data' mask) data' bins K = Some r' ->
  receiver_sees r' = receiver_sees r.
Proof.
  intros L1 L2 L3 HG r' H H'.
  rewrite (run_shape R mask data bins K r L2 L3 H).
  rewrite (run_shape R (shift_mask data data' mask) data' bins K r' ltac:(rewrite shift_length; lia) ltac:(lia) H').
  cbn [receiver_sees]. clear H H'. f_equal.
  - assert (zip_with (fun d m => wrap (d - m)) data' (shift_mask data data' mask) = zip_with (fun d m => wrap (d - m)) data mask) as ->; [|reflexivity].
    apply (nth_ext _ _ 0%Z 0%Z); [rewrite !zip_length, shift_length; lia|]. intros i Hi. rewrite zip_length, shift_length in Hi by lia.
    rewrite !zip_nth by (rewrite ?shift_length; lia). rewrite shift_nth by lia. apply wrap_cong.
    rewrite Zminus_mod, wrap_mod, <- Zminus_mod. f_equal. lia.
  - unfold segment_sum. apply map_ext_in. intros g Hg. apply in_seq in Hg. apply wrap_cong. rewrite group_sum_shift by lia.
    assert ((group_sum data bins (Z.of_nat g)) mod w64 = (group_sum data' bins (Z.of_nat g)) mod w64)%Z as E.
    { rewrite <- wrap_mod, HG by lia. apply wrap_mod. }
    rewrite Zminus_mod, E, <- Zminus_mod. f_equal. lia.
Qed.
End Run.
