(** C220: evaluate returns the share of samples whose class is predicted. *)
From Coq Require Import List ZArith QArith Bool Arith Lia Lqa Permutation.
From Verif Require Import BoostModel TreeModel BoostEvalModel.
Import ListNotations.
Local Open Scope nat_scope.

(** ** Specification *)
(** a probability above one half foretells class 1, any other class 0 *)
Definition right (p y : Q) : Prop := ((1 # 2 < p)%Q /\ (y == 1)%Q) \/ ((p <= 1 # 2)%Q /\ (y == 0)%Q).
(** [js] are the samples that were classed rightly *)
Definition rightly (ps ys : list Q) (js : list nat) : Prop :=
  NoDup js /\ forall j, In j js <-> (j < length ps /\ right (nth j ps 0%Q) (nth j ys 0%Q)).
Definition share (k n : nat) : Q := (inject_Z (Z.of_nat k) / inject_Z (Z.of_nat n))%Q.

(** ** Proofs *)
Local Lemma class_right : forall p y, Qeq_bool (class_of p) y = true <-> right p y.
Proof.
  intros p y. rewrite Qeq_bool_iff. unfold class_of, right. destruct (Qle_bool p (1 # 2)) eqn:E.
  - apply Qle_bool_iff in E. split; [intros H; right; split; [exact E | symmetry; exact H] | intros [[H _] | [_ H]]; [lra | symmetry; exact H]].
  - assert (~ (p <= 1 # 2)%Q) by (intros C; apply Qle_bool_iff in C; congruence).
    split; [intros H'; left; split; [lra | symmetry; exact H'] | intros [[_ H'] | [H' _]]; [symmetry; exact H' | contradiction]].
Qed.
Local Definition hits (ps ys : list Q) : list bool := map (fun c => Qeq_bool (fst c) (snd c)) (combine (map class_of ps) ys).
Local Lemma hits_js : forall ps ys, length ps = length ys ->
  exists js, rightly ps ys js /\ length js = length (filter id (hits ps ys)).
Proof.
  induction ps as [|p ps IH]; intros [|y ys] L; try discriminate.
  - exists []. split; [split; [constructor | intros j; cbn; split; [contradiction | lia]] | reflexivity].
  - injection L as L. destruct (IH ys L) as (js & (N & I) & Len). unfold hits. cbn [map combine fst snd filter id].
    fold (hits ps ys). destruct (Qeq_bool (class_of p) y) eqn:E.
    + exists (0 :: map S js). split; [|cbn; rewrite map_length; f_equal; exact Len]. split.
      * constructor; [rewrite in_map_iff; intros (x & ? & _); discriminate | apply FinFun.Injective_map_NoDup; [intros a b; lia | exact N]].
      * intros [|j]; cbn [In nth length].
        -- split; [intros _; split; [lia | apply class_right; exact E] | left; reflexivity].
        -- split; [intros [?|H]; [discriminate|] | intros [Hj Hr]; right].
           ++ apply in_map_iff in H. destruct H as (x & [= ->] & H). apply I in H. split; [lia | apply H].
           ++ apply in_map_iff. exists j. split; [reflexivity|]. apply I. split; [lia | exact Hr].
    + exists (map S js). split; [|rewrite map_length; exact Len]. split.
      * apply FinFun.Injective_map_NoDup; [intros a b; lia | exact N].
      * intros [|j]; cbn [nth length].
        -- split; [rewrite in_map_iff; intros (x & ? & _); discriminate | intros [_ H]; apply class_right in H; congruence].
        -- rewrite in_map_iff. split; [intros (x & [= ->] & H); apply I in H; split; [lia | apply H] | intros [Hj Hr]; exists j; split; [reflexivity|]].
           apply I. split; [lia | exact Hr].
Qed.
Local Lemma metrics_vector : forall ps ys, length ps = length ys -> 0 < length ys ->
  metrics ps (Vector ys) = Accuracy (share (length (filter id (hits ps ys))) (length ys)).
Proof.
  intros ps ys L Pos. unfold metrics, row_eq. rewrite map_length, L, Nat.eqb_refl. fold (hits ps ys).
  assert (Lh : length (hits ps ys) = length ys) by (unfold hits; rewrite map_length, combine_length, map_length; lia).
  unfold mean. destruct (hits ps ys) as [|b l] eqn:E; [cbn in Lh; lia|]. rewrite Lh. reflexivity.
Qed.
Local Lemma rightly_len : forall ps ys js js', rightly ps ys js -> rightly ps ys js' -> length js = length js'.
Proof.
  intros ps ys js js' [N I] [N' I']. apply Nat.le_antisymm; apply NoDup_incl_length; try assumption; intros j H; [apply I', I, H | apply I, I', H].
Qed.

(** ** The theorems *)

(** On as many labels as samples (a vector) the accuracy is the number of samples that were classed
    rightly over the number of samples. *)
Theorem C220_accuracy : forall (prob : Q -> Q) (lr : Q) (depth : nat) (m : model) (samples : list (list (list Q))) (ys : list Q),
  0 < length samples -> length ys = length samples ->
  let ps := map (predict prob lr depth m) samples in
  exists q, evaluate prob lr depth m samples (Vector ys) = Accuracy q /\
  forall js, rightly ps ys js -> (q == share (length js) (length samples))%Q.
Proof.
  intros prob lr depth m samples ys Pos L ps. unfold evaluate. fold ps.
  assert (Lp : length ps = length ys) by (unfold ps; rewrite map_length; lia).
  exists (share (length (filter id (hits ps ys))) (length ys)). split; [apply metrics_vector; lia|].
  intros js H. destruct (hits_js ps ys Lp) as (js' & H' & Len). rewrite (rightly_len _ _ _ _ H H'), Len, L. reflexivity.
Qed.
Print Assumptions C220_accuracy.

(** Such samples can always be listed, so the accuracy is determined; it is 1 just when every sample was
    classed rightly, and between 0 and 1. *)
Theorem C220_all_right : forall (prob : Q -> Q) (lr : Q) (depth : nat) (m : model) (samples : list (list (list Q))) (ys : list Q),
  0 < length samples -> length ys = length samples ->
  let ps := map (predict prob lr depth m) samples in
  (exists js, rightly ps ys js) /\
  exists q, evaluate prob lr depth m samples (Vector ys) = Accuracy q /\ (0 <= q <= 1)%Q /\
  ((q == 1)%Q <-> forall j, j < length samples -> right (nth j ps 0%Q) (nth j ys 0%Q)).
Proof.
  intros prob lr depth m samples ys Pos L ps.
  assert (Lp : length ps = length ys) by (unfold ps; rewrite map_length; lia).
  destruct (hits_js ps ys Lp) as (js & R & Len). split; [exists js; exact R|].
  destruct (C220_accuracy prob lr depth m samples ys Pos L) as (q & E & H). exists q. split; [exact E|].
  specialize (H js R). destruct R as [N I].
  assert (Inc : incl js (seq 0 (length samples))).
  { intros j Hj. apply I in Hj. apply in_seq. unfold ps in Hj. rewrite map_length in Hj. lia. }
  pose proof (NoDup_incl_length N Inc) as B. rewrite seq_length in B.
  assert (Pz : (0 < inject_Z (Z.of_nat (length samples)))%Q) by (rewrite <- (Zlt_Qlt 0); lia).
  assert (Kq : (inject_Z (Z.of_nat (length js)) <= inject_Z (Z.of_nat (length samples)))%Q) by (rewrite <- Zle_Qle; lia).
  assert (K0 : (0 <= inject_Z (Z.of_nat (length js)))%Q) by (rewrite <- (Zle_Qle 0); lia).
  rewrite !H. unfold share. split; [split|].
  - apply Qle_shift_div_l; [exact Pz|]. rewrite Qmult_0_l. exact K0.
  - apply Qle_shift_div_r; [exact Pz|]. rewrite Qmult_1_l. exact Kq.
  - split.
    + intros E1 j Hj.
      assert (E2 : length js = length samples).
      { assert (E3 : (inject_Z (Z.of_nat (length js)) == inject_Z (Z.of_nat (length samples)))%Q).
        { transitivity (inject_Z (Z.of_nat (length js)) / inject_Z (Z.of_nat (length samples)) * inject_Z (Z.of_nat (length samples)))%Q.
          - field. intros Z0. rewrite Z0 in Pz. discriminate Pz.
          - rewrite E1. apply Qmult_1_l. }
        unfold Qeq in E3. cbn in E3. lia. }
      assert (In j js) as Hin.
      { apply (NoDup_length_incl N (l' := seq 0 (length samples))); [rewrite seq_length; lia | exact Inc | apply in_seq; lia]. }
      apply I in Hin. apply Hin.
    + intros A. assert (E2 : length js = length samples).
      { apply Nat.le_antisymm; [exact B|]. rewrite <- (seq_length (length samples) 0). apply NoDup_incl_length; [apply seq_NoDup|].
        intros j Hj. apply in_seq in Hj. apply I. unfold ps. rewrite map_length. split; [lia | apply A; lia]. }
      rewrite E2. unfold Qdiv. apply Qmult_inv_r. intros Z0. rewrite Z0 in Pz. discriminate Pz.
Qed.
Print Assumptions C220_all_right.

(** A vector of another length (and not of length 1) is rejected. *)
Theorem C220_length : forall (prob : Q -> Q) (lr : Q) (depth : nat) (m : model) (samples : list (list (list Q))) (ys : list Q),
  length samples <> length ys -> length samples <> 1 -> length ys <> 1 ->
  evaluate prob lr depth m samples (Vector ys) = Raises.
Proof.
  intros prob lr depth m samples ys H1 H2 H3. unfold evaluate, metrics, row_eq. rewrite !map_length.
  apply Nat.eqb_neq in H1. rewrite H1. destruct samples as [|a [|b samples]], ys as [|c [|d ys]]; cbn in *; try lia; try discriminate; reflexivity.
Qed.
Print Assumptions C220_length.

(** ** Labels as a column *)
Local Lemma rows_eq_perm : forall c rows rows' r, Permutation rows rows' -> rows_eq c rows = Some r ->
  exists r', rows_eq c rows' = Some r' /\ Permutation r r'.
Proof.
  intros c rows rows' r P. revert r. induction P; intros r E.
  - exists r. split; [exact E | apply Permutation_refl].
  - cbn in *. destruct (row_eq c x) as [a|]; [|discriminate]. destruct (rows_eq c l) as [b|]; [|discriminate]. injection E as <-.
    destruct (IHP b eq_refl) as (b' & -> & Pb). exists (a ++ b'). split; [reflexivity | apply Permutation_app_head, Pb].
  - cbn in *. destruct (row_eq c y) as [a|]; [|discriminate]. destruct (row_eq c x) as [b|]; [|discriminate]. destruct (rows_eq c l) as [d|]; [|discriminate].
    injection E as <-. exists (b ++ a ++ d). split; [reflexivity|]. rewrite !app_assoc. apply Permutation_app_tail, Permutation_app_comm.
  - destruct (IHP1 r E) as (r' & E' & P'). destruct (IHP2 r' E') as (r'' & E'' & P''). exists r''. split; [exact E''|]. eapply Permutation_trans; eassumption.
Qed.
Local Lemma filter_perm : forall l l' : list bool, Permutation l l' -> Permutation (filter id l) (filter id l').
Proof.
  intros l l' P. induction P; cbn.
  - constructor.
  - destruct (id x); [constructor|]; exact IHP.
  - destruct (id x), (id y); try apply Permutation_refl. constructor.
  - eapply Permutation_trans; eassumption.
Qed.

(** A column of labels (shape (n, 1)) is not rejected; the answer compares every prediction with every
    label, so it does not depend on which sample has which label. *)
Theorem C220_column_refuted : forall (prob : Q -> Q) (lr : Q) (depth : nat) (m : model) (samples : list (list (list Q))) (ys ys' : list Q),
  Permutation ys ys' ->
  evaluate prob lr depth m samples (Matrix (map (fun y => [y]) ys)) = evaluate prob lr depth m samples (Matrix (map (fun y => [y]) ys')) /\
  evaluate prob lr depth m samples (Matrix (map (fun y => [y]) ys)) <> Raises.
Proof.
  intros prob lr depth m samples ys ys' P. unfold evaluate, metrics. set (c := map class_of _). clearbody c.
  assert (Ex : exists r, rows_eq c (map (fun y => [y]) ys) = Some r).
  { clear. induction ys as [|y ys [r IH]]; [exists []; reflexivity|]. cbn. rewrite IH. unfold row_eq. destruct (length c =? length [y]); [eexists; reflexivity|].
    destruct c as [|a [|b c]]; eexists; reflexivity. }
  destruct Ex as [r E]. destruct (rows_eq_perm c _ _ r (Permutation_map (fun y => [y]) P) E) as (r' & E' & Pr). rewrite E, E'.
  split; [|destruct r; discriminate]. unfold mean. pose proof (Permutation_length Pr) as L.
  pose proof (Permutation_length (filter_perm _ _ Pr)) as F. destruct r, r'; try discriminate L; [reflexivity|]. rewrite L, F. reflexivity.
Qed.
Print Assumptions C220_column_refuted.

(** Two samples, both classed rightly, the second with a probability of just one half: the accuracy is 1
    with a vector of labels and 1/2 with a column. *)
Definition ex_model : model := Model [] 0%Q.
Example C220_ex :
  let ps := [9 # 10; 1 # 2]%Q in let ys := [1; 0]%Q in
  metrics ps (Vector ys) = Accuracy (share 2 2) /\ rightly ps ys [0; 1] /\
  metrics ps (Matrix (map (fun y => [y]) ys)) = Accuracy (share 2 4) /\ metrics ps (Vector [1; 0; 1]%Q) = Raises /\
  evaluate (fun x => x) 1 0 (Model [] (1 # 2)) [[[0%Q]]; [[1%Q]]] (Vector [0; 1]%Q) = Accuracy (share 1 2).
Proof.
  cbv zeta. split; [reflexivity|]. split.
  - split; [repeat constructor; cbn; intuition discriminate|]. intros j. cbn [In length]. split.
    + intros [<-|[<-|[]]]; (split; [lia|]); cbn [nth]; [left | right]; split; try reflexivity; lra.
    + intros [Hj _]. lia.
  - split; [reflexivity|]. split; [reflexivity|]. vm_compute. reflexivity.
Qed.
