(** Hash rows are in range, and consist of three distinct columns when m >= 3. *)
From Coq Require Import NArith ZArith List Arith Bool Lia.
From Verif Require Import OKVSSpec OKVSModel OKVSProofs.
Import ListNotations.

Lemma distinct_range v1 v2 m : (0 < m)%N ->
  let '(a, b, c) := distinct_indices v1 v2 m in (a < m /\ b < m /\ c < m)%N.
Proof.
  intros Hm. unfold distinct_indices.
  assert (H : forall x, (N.modulo x m < m)%N) by (intros; apply N.mod_lt; lia).
  cbv zeta. split; [apply H|]. split.
  - destruct (N.eqb _ _); apply H.
  - destruct (orb _ _); [destruct (orb _ _)|]; apply H.
Qed.

(** adding 1 modulo m *)
Lemma succ_mod x m : (x < m)%N -> (N.modulo (x + 1) m = if N.eqb (x + 1) m then 0 else x + 1)%N.
Proof.
  intros H. destruct (N.eqb_spec (x + 1) m) as [E|E].
  - rewrite E. apply N.mod_same. lia.
  - apply N.mod_small. lia.
Qed.

Ltac neq_cases :=
  repeat match goal with
    | |- context [N.eqb ?x ?y] => destruct (N.eqb_spec x y)
    | H : context [N.eqb ?x ?y] |- _ => destruct (N.eqb_spec x y)
    end.

Lemma distinct_triple x y z m : (3 <= m)%N -> (x < m)%N -> (y < m)%N -> (z < m)%N ->
  let y' := if N.eqb y x then N.modulo (y + 1) m else y in
  let z' := if orb (N.eqb z x) (N.eqb z y') then
      let z1 := N.modulo (z + 1) m in
      if orb (N.eqb z1 x) (N.eqb z1 y') then N.modulo (z1 + 1) m else z1
    else z in
  x <> y' /\ x <> z' /\ y' <> z'.
Proof.
  intros Hm Hx Hy Hz. cbv zeta.
  assert (Hs : forall t, (t < m)%N -> (N.modulo (t + 1) m < m)%N) by (intros; apply N.mod_lt; lia).
  set (y' := if N.eqb y x then _ else _).
  assert (Hy' : (y' < m)%N /\ x <> y').
  { subst y'. destruct (N.eqb_spec y x) as [E|E]; [|split; [exact Hy|congruence]].
    split; [apply Hs, Hy|]. rewrite succ_mod by exact Hy. neq_cases; lia. }
  destruct Hy' as [Hy' Hxy]. clearbody y'. clear Hy. 
  pose proof (Hs z Hz) as Hz1.
  assert (K : forall w, (w < m)%N -> w = x \/ w = y' ->
     let w1 := N.modulo (w + 1) m in
     x <> (if orb (N.eqb w1 x) (N.eqb w1 y') then N.modulo (w1 + 1) m else w1) /\
     y' <> (if orb (N.eqb w1 x) (N.eqb w1 y') then N.modulo (w1 + 1) m else w1)).
  { intros w Hw Hor. cbv zeta. pose proof (Hs w Hw) as Hw1.
    rewrite (succ_mod _ _ Hw1). rewrite (succ_mod _ _ Hw) in *.
    clear - Hm Hx Hxy Hy' Hor Hw Hw1.
    destruct (N.eqb_spec (w + 1) m); neq_cases; cbn [orb]; neq_cases; split; lia. }
  split; [exact Hxy|].
  destruct (N.eqb_spec z x) as [E1|E1]; [|destruct (N.eqb_spec z y') as [E2|E2]]; cbn [orb].
  - apply (K z Hz (or_introl E1)).
  - apply (K z Hz (or_intror E2)).
  - split; congruence.
Qed.

Lemma distinct_distinct v1 v2 m : (3 <= m)%N ->
  let '(a, b, c) := distinct_indices v1 v2 m in a <> b /\ a <> c /\ b <> c.
Proof.
  intros Hm. unfold distinct_indices.
  apply (distinct_triple (v1 mod m) (v2 mod m) (N.lxor v1 v2 mod m) m Hm); apply N.mod_lt; lia.
Qed.

Lemma to_row_range t m : (let '(a, b, c) := t in (a < N.of_nat m /\ b < N.of_nat m /\ c < N.of_nat m)%N) ->
  row_in_range m (to_row t).
Proof. destruct t as [[a b] c]. intros [H1 [H2 H3]]. cbn. lia. Qed.

Lemma row_py_range seed m k : 0 < m -> row_in_range m (hash_key_py seed m k).
Proof.
  intros Hm. unfold hash_key_py. destruct (hash_words_py seed k) as [h1 h2].
  apply to_row_range. apply distinct_range. lia.
Qed.

Lemma row_cpp_range aes m k : 0 < m -> row_in_range m (hash_key_cpp aes m k).
Proof.
  intros Hm. unfold hash_key_cpp. destruct (aes k) as [h1 h2].
  apply to_row_range. apply distinct_range. lia.
Qed.

Definition row_distinct (r : row) : Prop := let '(a, b, c) := r in a <> b /\ a <> c /\ b <> c.

Lemma row_py_distinct seed m k : 3 <= m -> row_distinct (hash_key_py seed m k).
Proof.
  intros Hm. unfold hash_key_py. destruct (hash_words_py seed k) as [h1 h2].
  pose proof (distinct_distinct h1 h2 (N.of_nat m) ltac:(lia)) as H.
  destruct (distinct_indices _ _ _) as [[a b] c]. cbn in *. lia.
Qed.
Lemma row_cpp_distinct aes m k : 3 <= m -> row_distinct (hash_key_cpp aes m k).
Proof.
  intros Hm. unfold hash_key_cpp. destruct (aes k) as [h1 h2].
  pose proof (distinct_distinct h1 h2 (N.of_nat m) ltac:(lia)) as H.
  destruct (distinct_indices _ _ _) as [[a b] c]. cbn in *. lia.
Qed.

Lemma rows_range (f : N -> row) m keys : (keys <> [] -> 0 < m) ->
  (0 < m -> forall k, row_in_range m (f k)) -> Forall (row_in_range m) (map f keys).
Proof.
  intros Hm Hf. destruct keys as [|k ks]; [constructor|].
  apply Forall_forall. intros r Hr. apply in_map_iff in Hr. destruct Hr as [x [<- _]].
  apply Hf, Hm. discriminate.
Qed.

Lemma nth_ext_N (l1 l2 : list N) : length l1 = length l2 ->
  (forall i, i < length l1 -> nth i l1 0%N = nth i l2 0%N) -> l1 = l2.
Proof. intros H1 H2. apply (nth_ext l1 l2 0%N 0%N H1 H2). Qed.

Lemma decode_all (f : N -> row) keys values out : length values = length keys ->
  (forall i, i < length (map f keys) -> decode_row out (nth i (map f keys) (0, 0, 0)) = nth i values 0%N) ->
  map (fun k => decode_row out (f k)) keys = values.
Proof.
  intros Hl H. apply nth_ext_N; [rewrite map_length; lia|]. intros i Hi.
  rewrite map_length in *. rewrite <- (H i Hi).
  rewrite (nth_indep _ 0%N (decode_row out (f 0%N))) by (rewrite map_length; exact Hi).
  rewrite (map_nth (fun k => decode_row out (f k))).
  rewrite (nth_indep _ (0, 0, 0) (f 0%N)) by (rewrite map_length; exact Hi).
  now rewrite map_nth.
Qed.

Lemma okvs_solve_cases seed keys values m : length values = length keys -> (keys <> [] -> 0 < m) ->
  (exists out, okvs_solve seed keys values m = Ok out /\ length out = m /\
     okvs_decode seed keys out m = Ok values /\
     forall S, ~ stopping_set (map (hash_key_py seed m) keys) S)
  \/ (okvs_solve seed keys values m = Err CoreDetected /\
      exists S, stopping_set (map (hash_key_py seed m) keys) S).
Proof.
  intros Hl Hm. unfold okvs_solve, okvs_decode.
  assert (E : andb (m =? 0) (negb (length keys =? 0)) = false).
  { destruct keys; [rewrite andb_false_r; reflexivity|]. specialize (Hm ltac:(discriminate)).
    destruct m; [lia|reflexivity]. }
  rewrite E.
  destruct (solve_rows_cases (map (hash_key_py seed m) keys) values m) as [[out [H1 [H2 [H3 H4]]]]|H].
  - apply rows_range; [exact Hm|]. intros H k. apply row_py_range, H.
  - now rewrite map_length.
  - left. exists out. repeat split; auto. f_equal. now apply decode_all.
  - right. exact H.
Qed.

Lemma occ_le_1 j r : row_distinct r -> occ j r <= 1.
Proof.
  destruct r as [[a b] c]. cbn. intros H.
  destruct (Nat.eqb_spec a j), (Nat.eqb_spec b j), (Nat.eqb_spec c j); lia.
Qed.

(** The mask selecting positions p and q. *)
Definition mask2 (n p q : nat) : list bool := map (fun i => orb (i =? p) (i =? q)) (seq 0 n).

Lemma occ_sel_false (rows : list row) : forall S j, (forall i, nth i S false = false) -> occ_sel rows S j = 0.
Proof.
  induction rows as [|r rows IH]; intros [|b S] j H; cbn; try reflexivity.
  pose proof (H 0) as H0. cbn in H0. rewrite H0. apply IH. intros i. apply (H (1 + i)).
Qed.

Lemma occ_sel_one (rows : list row) : forall p S j, length S = length rows -> p < length rows ->
  (forall i, nth i S false = (i =? p)) -> occ_sel rows S j = occ j (nth p rows (0, 0, 0)).
Proof.
  induction rows as [|r rows IH]; intros p [|b S] j HL Hp H; cbn in *; try lia.
  pose proof (H 0) as H0. cbn in H0. destruct p as [|p]; cbn in H0; subst b.
  - rewrite occ_sel_false; [lia|]. intros i. apply (H (1 + i)).
  - rewrite (IH p S j); [lia|lia|lia|]. intros i. apply (H (1 + i)).
Qed.

Lemma occ_sel_two (rows : list row) : forall p q S j, length S = length rows -> p < q < length rows ->
  (forall i, nth i S false = orb (i =? p) (i =? q)) ->
  occ_sel rows S j = occ j (nth p rows (0, 0, 0)) + occ j (nth q rows (0, 0, 0)).
Proof.
  induction rows as [|r rows IH]; intros p q [|b S] j HL Hp H; cbn in *; try lia.
  pose proof (H 0) as H0. cbn in H0. destruct q as [|q]; [lia|]. destruct p as [|p]; cbn in H0; subst b.
  - rewrite (occ_sel_one rows q S j); [lia|lia|lia|]. intros i. apply (H (1 + i)).
  - rewrite (IH p q S j); [lia|lia|lia|]. intros i. apply (H (1 + i)).
Qed.

Lemma mask2_spec n p q i : p < n -> q < n -> nth i (mask2 n p q) false = orb (i =? p) (i =? q).
Proof.
  intros Hp Hq. unfold mask2. destruct (Nat.lt_ge_cases i n) as [H|H].
  - rewrite (nth_indep _ false ((fun i => orb (i =? p) (i =? q)) 0)) by (rewrite map_length, seq_length; exact H).
    rewrite (map_nth (fun i => orb (i =? p) (i =? q))). rewrite seq_nth by exact H. reflexivity.
  - rewrite nth_overflow by (rewrite map_length, seq_length; exact H).
    destruct (Nat.eqb_spec i p), (Nat.eqb_spec i q); try lia; reflexivity.
Qed.

(** Two rows with the same column multiset form a stopping set. *)
Lemma two_rows_stop (rows : list row) p q : p < q < length rows ->
  (forall j, occ j (nth p rows (0, 0, 0)) = occ j (nth q rows (0, 0, 0))) ->
  stopping_set rows (mask2 (length rows) p q).
Proof.
  intros Hpq H. split; [unfold mask2; rewrite map_length, seq_length; reflexivity|]. split.
  - assert (G : nth p (mask2 (length rows) p q) false = true).
    { rewrite mask2_spec by lia. rewrite Nat.eqb_refl. reflexivity. }
    rewrite <- G. apply nth_In. unfold mask2. rewrite map_length, seq_length. lia.
  - intros j. rewrite (occ_sel_two rows p q); [rewrite H; lia| |lia|].
    + unfold mask2. rewrite map_length, seq_length. reflexivity.
    + intros i. apply mask2_spec; lia.
Qed.

Lemma nodup_witness (keys : list N) : ~ NoDup keys -> exists p q, p < q < length keys /\ nth p keys 0%N = nth q keys 0%N.
Proof.
  induction keys as [|k ks IH]; intros H; [destruct H; constructor|].
  destruct (in_dec N.eq_dec k ks) as [Hi|Hi].
  - destruct (In_nth ks k 0%N Hi) as [q [Hq E]]. exists 0, (S q). cbn. split; [lia|congruence].
  - destruct IH as [p [q [H1 H2]]]; [intros G; apply H; constructor; assumption|].
    exists (S p), (S q). cbn. split; [lia|exact H2].
Qed.

Lemma nth_map_row (f : N -> row) keys i : i < length keys -> nth i (map f keys) (0, 0, 0) = f (nth i keys 0%N).
Proof.
  intros Hi. rewrite (nth_indep _ (0, 0, 0) (f 0%N)) by (rewrite map_length; exact Hi). apply map_nth.
Qed.

Lemma dup_stop (f : N -> row) keys : ~ NoDup keys -> exists S, stopping_set (map f keys) S.
Proof.
  intros H. destruct (nodup_witness keys H) as [p [q [H1 H2]]].
  exists (mask2 (length (map f keys)) p q). apply two_rows_stop; [rewrite map_length; exact H1|].
  intros j. rewrite !nth_map_row by lia. now rewrite H2.
Qed.

Lemma cpp_cases aes keys values m : length values = length keys -> (keys <> [] -> 0 < m) ->
  (cpp_decode_okvs aes keys (cpp_solve_okvs aes keys values m) m = values /\
   length (cpp_solve_okvs aes keys values m) = m /\
     forall S, ~ stopping_set (map (hash_key_cpp aes m) keys) S)
  \/ (cpp_solve_okvs aes keys values m = repeat 0%N m /\
      cpp_decode_okvs aes keys (cpp_solve_okvs aes keys values m) m = repeat 0%N (length keys) /\
      exists S, stopping_set (map (hash_key_cpp aes m) keys) S).
Proof.
  intros Hl Hm. unfold cpp_solve_okvs, cpp_decode_okvs.
  destruct (solve_rows_cases (map (hash_key_cpp aes m) keys) values m) as [[out [H1 [H2 [H3 H4]]]]|[H1 H2]].
  - apply rows_range; [exact Hm|]. intros H k. apply row_cpp_range, H.
  - now rewrite map_length.
  - left. rewrite H1. repeat split; auto. now apply decode_all.
  - right. rewrite H1. split; [reflexivity|]. split; [|exact H2].
    assert (G : forall i, nth i (repeat 0%N m) 0%N = 0%N).
    { intros i. destruct (Nat.lt_ge_cases i m); [now apply nth_repeat_lt|].
      apply nth_overflow. rewrite repeat_length. exact H. }
    clear - G. induction keys as [|k ks IH]; [reflexivity|]. cbn. f_equal; [|exact IH].
    unfold decode_row. destruct (hash_key_cpp aes m k) as [[a b] c]. now rewrite !G.
Qed.

Lemma stop_m3 aes k1 k2 : exists S, stopping_set (map (hash_key_cpp aes 3) [k1; k2]) S.
Proof.
  assert (A : forall r j, row_in_range 3 r -> row_distinct r -> occ j r = if j <? 3 then 1 else 0).
  { intros [[a b] c] j. unfold occ, row_in_range, row_distinct. intros H1 H2. destruct (Nat.ltb_spec j 3);
    destruct (Nat.eqb_spec a j), (Nat.eqb_spec b j), (Nat.eqb_spec c j); lia. }
  exists (mask2 2 0 1).
  apply (two_rows_stop (map (hash_key_cpp aes 3) [k1; k2]) 0 1); [cbn; lia|].
  intros j. cbn [map nth]. 
  pose proof (fun k => A _ j (row_cpp_range aes 3 k ltac:(lia)) (row_cpp_distinct aes 3 k (le_n 3))) as B.
  now rewrite !B.
Qed.
