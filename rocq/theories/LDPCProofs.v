(** Proofs for LDPC encoding. *)
From Coq Require Import NArith List Arith Lia.
From Verif Require Import LDPCSpec LDPCModel.
Import ListNotations.

Lemma xor_fold_left (l : list N) : forall acc, fold_left N.lxor l acc = N.lxor acc (xor_all l).
Proof.
  induction l as [|x l IH]; intros acc; cbn [fold_left xor_all fold_right]; [now rewrite N.lxor_0_r|].
  rewrite IH. unfold xor_all. now rewrite N.lxor_assoc.
Qed.

Lemma xor_cols_ok message cols : (forall c, In c cols -> c < length message) -> forall acc,
  xor_cols message cols acc = Some (N.lxor acc (xor_all (map (fun c => nth c message 0%N) cols))).
Proof.
  induction cols as [|c cols IH]; intros H acc; cbn; [now rewrite N.lxor_0_r|].
  rewrite (nth_error_nth' message 0%N) by (apply H; left; reflexivity).
  rewrite IH by (intros; apply H; right; assumption). unfold xor_all. now rewrite N.lxor_assoc.
Qed.

Lemma slice_map {A} (l : list A) d s e : e <= length l -> slice l s e = map (fun k => nth k l d) (seq s (e - s)).
Proof.
  intros He. unfold slice.
  destruct (Nat.le_gt_cases e s) as [Hse|Hse]; [replace (e - s) with 0 by lia; reflexivity|].
  apply (nth_ext _ _ d d).
  - rewrite firstn_length, skipn_length, map_length, seq_length. lia.
  - intros n Hn. rewrite firstn_length, skipn_length in Hn.
    rewrite (nth_indep (map _ _) d (nth 0 l d)) by (rewrite map_length, seq_length; lia).
    rewrite (map_nth (fun k => nth k l d)), seq_nth by lia.
    rewrite <- (firstn_skipn s l) at 2. rewrite app_nth2 by (rewrite firstn_length; lia).
    rewrite firstn_length. replace (s + n - min s (length l)) with n by lia.
    rewrite <- (firstn_skipn (e - s) (skipn s l)) at 2.
    rewrite app_nth1; [reflexivity|]. rewrite firstn_length, skipn_length. lia.
Qed.

Lemma in_firstn {A} (x : A) n l : In x (firstn n l) -> In x l.
Proof. intros H. rewrite <- (firstn_skipn n l). apply in_or_app. now left. Qed.
Lemma in_skipn {A} (x : A) n l : In x (skipn n l) -> In x l.
Proof. intros H. rewrite <- (firstn_skipn n l). apply in_or_app. now right. Qed.

Lemma encode_row_ok message indices indptr m i : csr_ok indices indptr m (length message) -> i < m ->
  encode_row message indices indptr i = Some (xor_all (row_blocks message indices indptr i)).
Proof.
  intros [H1 [H2 H3]] Hi. unfold encode_row.
  rewrite (nth_error_nth' indptr 0) by lia. rewrite (nth_error_nth' indptr 0) by lia.
  rewrite xor_cols_ok.
  - rewrite N.lxor_0_l. f_equal. f_equal. rewrite (slice_map _ 0) by (apply H2; exact Hi).
    unfold row_blocks. rewrite map_map. reflexivity.
  - intros c Hc. unfold slice in Hc. apply in_firstn, in_skipn in Hc. now apply H3.
Qed.

Lemma sequence_map_some {A B} (f : A -> option B) (g : A -> B) l : (forall x, In x l -> f x = Some (g x)) ->
  sequence (map f l) = Some (map g l).
Proof.
  induction l as [|a l IH]; intros H; [reflexivity|]. cbn. rewrite (H a (or_introl eq_refl)).
  rewrite IH; [reflexivity|]. intros x Hx. apply H. now right.
Qed.

Lemma encode_ok message indices indptr m : csr_ok indices indptr m (length message) ->
  ldpc_encode message indices indptr m = Some (map (fun i => xor_all (row_blocks message indices indptr i)) (seq 0 m)).
Proof.
  intros H. unfold ldpc_encode. apply sequence_map_some. intros i Hi. apply in_seq in Hi.
  apply (encode_row_ok _ _ _ m); [exact H|lia].
Qed.

Lemma encode_cpp_ok message indices indptr m :
  ldpc_encode_cpp message indices indptr m = map (fun i => xor_all (row_blocks message indices indptr i)) (seq 0 m).
Proof.
  unfold ldpc_encode_cpp. apply map_ext. intros i. cbv zeta. unfold row_blocks.
  set (f := fun k => nth (nth k indices 0) message 0%N). set (l := seq _ _).
  assert (G : forall l acc, fold_left (fun sum k => N.lxor sum (f k)) l acc = fold_left N.lxor (map f l) acc).
  { clear. induction l as [|x l IH]; intros acc; cbn; [reflexivity|apply IH]. }
  change (fold_left _ l 0%N) with (fold_left (fun sum k => N.lxor sum (f k)) l 0%N).
  rewrite G, xor_fold_left. apply N.lxor_0_l.
Qed.

Lemma encode_spec message indices indptr m : csr_ok indices indptr m (length message) ->
  exists s, ldpc_encode message indices indptr m = Some s /\
    ldpc_encode_cpp message indices indptr m = s /\ length s = m /\
    forall i, i < m -> nth i s 0%N = xor_all (row_blocks message indices indptr i).
Proof.
  intros H. eexists. split; [apply encode_ok, H|]. split; [apply encode_cpp_ok|].
  split; [rewrite map_length, seq_length; reflexivity|]. intros i Hi.
  set (g := fun i => xor_all _).
  rewrite (nth_indep _ 0%N (g 0)) by (rewrite map_length, seq_length; exact Hi).
  rewrite map_nth, seq_nth by exact Hi. reflexivity.
Qed.

Lemma xor_all_lin (f g : nat -> N) l :
  xor_all (map (fun k => N.lxor (f k) (g k)) l) = N.lxor (xor_all (map f l)) (xor_all (map g l)).
Proof.
  induction l as [|a l IH]; [reflexivity|]. unfold xor_all in *. cbn [map fold_right]. rewrite IH.
  rewrite !N.lxor_assoc. f_equal. rewrite <- !N.lxor_assoc. f_equal. apply N.lxor_comm.
Qed.

Lemma nth_xor_vec x y i : length x = length y -> nth i (xor_vec x y) 0%N = N.lxor (nth i x 0%N) (nth i y 0%N).
Proof.
  intros H. unfold xor_vec.
  change (nth i (map (fun p => N.lxor (fst p) (snd p)) (combine x y)) ((fun p => N.lxor (fst p) (snd p)) (0%N, 0%N))
          = N.lxor (nth i x 0%N) (nth i y 0%N)).
  rewrite map_nth, combine_nth by exact H. reflexivity.
Qed.

Lemma length_xor_vec x y : length x = length y -> length (xor_vec x y) = length x.
Proof. intros H. unfold xor_vec. rewrite map_length, combine_length. lia. Qed.

Lemma xor_vec_map (f g : nat -> N) l : xor_vec (map f l) (map g l) = map (fun i => N.lxor (f i) (g i)) l.
Proof. unfold xor_vec. induction l as [|a l IH]; cbn; [reflexivity|]. f_equal. exact IH. Qed.

Lemma encode_linear x y indices indptr m : length x = length y -> csr_ok indices indptr m (length x) ->
  exists sx sy, ldpc_encode x indices indptr m = Some sx /\ ldpc_encode y indices indptr m = Some sy /\
    ldpc_encode (xor_vec x y) indices indptr m = Some (xor_vec sx sy).
Proof.
  intros Hl H. eexists. eexists. split; [apply encode_ok, H|]. split; [apply encode_ok; rewrite <- Hl; exact H|].
  rewrite encode_ok by (rewrite length_xor_vec; assumption). f_equal.
  rewrite xor_vec_map. apply map_ext. intros i. unfold row_blocks.
  rewrite <- xor_all_lin. f_equal. apply map_ext. intros k. now apply nth_xor_vec.
Qed.
