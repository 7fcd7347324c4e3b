From Coq Require Import ZArith NArith List Arith Bool Sorted Lia.
From Verif Require Import LDPCModel LDPCSpec LDPCProofs SilverCodeModel SilverCodeSpec.
Import ListNotations.

Lemma insert_unique_In : forall x l y, In y (insert_unique x l) <-> y = x \/ In y l.
Proof.
  induction l as [|a l IH]; intros y; cbn [insert_unique]; [cbn; intuition|].
  destruct (Nat.ltb_spec x a); [cbn; intuition|]. destruct (Nat.eqb_spec x a); [subst; cbn; intuition|].
  cbn [In]. rewrite IH. cbn [In]. tauto.
Qed.
Lemma insert_unique_sorted : forall x l, increasing l -> increasing (insert_unique x l).
Proof.
  unfold increasing. induction l as [|a l IH]; intros Hs; cbn [insert_unique]; [repeat constructor|].
  inversion Hs as [|? ? Hs' Hf]; subst.
  destruct (Nat.ltb_spec x a).
  - constructor; [exact Hs|]. constructor; [exact H|]. rewrite Forall_forall in *. intros b Hb. specialize (Hf b Hb). lia.
  - destruct (Nat.eqb_spec x a); [exact Hs|]. constructor; [auto|].
    rewrite Forall_forall in *. intros b Hb. apply insert_unique_In in Hb as [->|Hb]; [lia|auto].
Qed.
Lemma insert_unique_length : forall x l, length l <= length (insert_unique x l) <= S (length l).
Proof.
  induction l as [|a l IH]; cbn [insert_unique length]; [lia|]. destruct (x <? a); cbn [length]; [lia|]. destruct (x =? a); cbn [length]; lia.
Qed.
Lemma unique_In : forall l y, In y (unique l) <-> In y l.
Proof. induction l as [|a l IH]; intros y; [reflexivity|]. change (unique (a :: l)) with (insert_unique a (unique l)). rewrite insert_unique_In, IH. cbn [In]. intuition. Qed.
Lemma unique_sorted : forall l, increasing (unique l).
Proof. induction l as [|a l IH]; [constructor|]. apply insert_unique_sorted, IH. Qed.
Lemma unique_length : forall l, length (unique l) <= length l.
Proof. induction l as [|a l IH]; [cbn; lia|]. change (unique (a :: l)) with (insert_unique a (unique l)). pose proof (insert_unique_length a (unique l)). cbn [length]. lia. Qed.

Lemma increasing_bound : forall l n, increasing l -> (forall j, In j l -> j < n) -> length l <= n.
Proof.
  intros l n Hs Hb. assert (Hd : NoDup l).
  { clear Hb. induction Hs as [|a l Hs IH Hf]; constructor; auto. intros Hin. rewrite Forall_forall in Hf. specialize (Hf a Hin). lia. }
  rewrite <- (seq_length n 0). apply NoDup_incl_length; [exact Hd|]. intros j Hj. apply in_seq. specialize (Hb j Hj). lia.
Qed.

Definition good_row (n : nat) (p : list nat) : Prop :=
  increasing p /\ (forall j, In j p -> j < n) /\ length p <= Nat.min 5 n.

Section Gen.
Variable R : rng.
Variable linspace : Z -> Z -> nat -> list Z.
Hypothesis HR : rng_ok R.
Hypothesis HL : linspace_ok linspace.
Variable n : nat.

Lemma first_ok : forall s, good_row n (fst (first_positions R linspace n s)).
Proof.
  intros s. unfold first_positions.
  destruct (randint R s (-16) 17 (row_weight n)) as [offs s'] eqn:E. cbn [fst].
  destruct (HR s (-16)%Z 17%Z (row_weight n)) as [Hl _]; [lia|]. rewrite E in Hl. cbn [fst] in Hl.
  split; [apply unique_sorted|]. split.
  - intros j Hj. apply (proj1 (unique_In _ _)) in Hj. apply in_map_iff in Hj as [[a b] [<- Hin]].
    assert (Hn : n <> 0).
    { intros ->. cbn in Hl. destruct offs; [|discriminate]. rewrite combine_nil in Hin. destruct Hin. }
    cbn [fst snd]. pose proof (Z.mod_pos_bound (a + b) (Z.of_nat n)). lia.
  - etransitivity; [apply unique_length|]. rewrite map_length, combine_length, HL, Hl. unfold row_weight. lia.
Qed.

Lemma fill_ok : forall fuel p s q s', good_row n p -> fill R n fuel p s = Some (q, s') ->
  good_row n q /\ Nat.min 3 n <= length q.
Proof.
  induction fuel as [|fuel IH]; intros p s q s' Hp E; cbn [fill] in E.
  - destruct (Nat.ltb_spec (length p) (Nat.min 3 (row_weight n))) as [H|H]; [discriminate|].
    injection E as <- <-. split; [exact Hp|]. unfold row_weight in H. lia.
  - destruct (Nat.ltb_spec (length p) (Nat.min 3 (row_weight n))) as [H|H].
    + destruct (randint R s 0 (Z.of_nat n) (row_weight n - length p)) as [ex s1] eqn:Er.
      assert (Hn : (0 < Z.of_nat n)%Z) by (unfold row_weight in H; lia).
      destruct (HR s 0%Z (Z.of_nat n) (row_weight n - length p)) as [Hl Hb]; [exact Hn|]. rewrite Er in Hl, Hb. cbn [fst] in Hl, Hb.
      eapply IH; [|exact E]. destruct Hp as [_ [Hpb Hpl]].
      split; [apply unique_sorted|]. split.
      * intros j Hj. apply (proj1 (unique_In _ _)) in Hj. apply in_app_or in Hj as [Hj|Hj]; [auto|].
        apply in_map_iff in Hj as [z [<- Hz]]. specialize (Hb z Hz). lia.
      * etransitivity; [apply unique_length|]. rewrite app_length, map_length, Hl. unfold row_weight in *. lia.
    + injection E as <- <-. split; [exact Hp|]. unfold row_weight in H. lia.
Qed.

(** the entries generated are those of a list of good rows *)
Definition entries_of (i : nat) (rows : list (list nat)) : list (nat * nat) :=
  concat (map (fun p => map (fun j => (fst p, j)) (snd p)) (combine (seq i (length rows)) rows)).

Lemma rows_from_ok : forall fuel m i s e, rows_from R linspace n fuel i m s = Some e ->
  exists rows, e = entries_of i rows /\ length rows = m /\ Forall (fun p => good_row n p /\ Nat.min 3 n <= length p) rows.
Proof.
  induction m as [|m IH]; intros i s e E; cbn [rows_from] in E.
  - injection E as <-. exists []. repeat split; constructor.
  - pose proof (first_ok s) as Hf. destruct (first_positions R linspace n s) as [p0 s'] eqn:E0. cbn in Hf.
    destruct (fill R n fuel p0 s') as [[p s'']|] eqn:E1; [|discriminate].
    destruct (rows_from R linspace n fuel (S i) m s'') as [rest|] eqn:E2; [|discriminate].
    injection E as <-. destruct (IH _ _ _ E2) as [rows [-> [<- Hrows]]].
    exists (p :: rows). split; [reflexivity|]. split; [reflexivity|].
    constructor; [|exact Hrows]. eapply fill_ok; eassumption.
Qed.
End Gen.

Lemma filter_none : forall (A : Type) (f : A -> bool) l, (forall x, In x l -> f x = false) -> filter f l = [].
Proof. induction l as [|a l IH]; intros H; cbn; [reflexivity|]. rewrite (H a) by (left; reflexivity). apply IH. intros; apply H; right; assumption. Qed.
Lemma filter_all : forall (A : Type) (f : A -> bool) l, (forall x, In x l -> f x = true) -> filter f l = l.
Proof. induction l as [|a l IH]; intros H; cbn; [reflexivity|]. rewrite (H a) by (left; reflexivity). f_equal. apply IH. intros; apply H; right; assumption. Qed.

Lemma filter_split_length : forall (A : Type) (f : A -> bool) l, length (filter f l) + length (filter (fun x => negb (f x)) l) = length l.
Proof. induction l as [|a l IH]; cbn; [reflexivity|]. destruct (f a); cbn; lia. Qed.
Lemma NoDup_firstn : forall (A : Type) k (l : list A), NoDup l -> NoDup (firstn k l).
Proof.
  induction k as [|k IH]; intros l Hd; [constructor|]. destruct l as [|a l]; [constructor|]. inversion Hd; subst. cbn. constructor; [|auto].
  intros Hin. apply H1. rewrite <- (firstn_skipn k l). apply in_or_app. left. exact Hin.
Qed.
Lemma NoDup_app_disjoint : forall (A : Type) (a b : list A), NoDup a -> NoDup b -> (forall x, In x a -> ~ In x b) -> NoDup (a ++ b).
Proof.
  induction a as [|x a IH]; intros b Ha Hb Hd; [exact Hb|]. inversion Ha; subst. cbn. constructor.
  - intros Hi. apply in_app_or in Hi as [Hi|Hi]; [contradiction|]. apply (Hd x); [left; reflexivity|exact Hi].
  - apply IH; [assumption|assumption|]. intros y Hy. apply Hd. right. exact Hy.
Qed.
Lemma entries_cons : forall i p rows, entries_of i (p :: rows) = map (fun j => (i, j)) p ++ entries_of (S i) rows.
Proof. reflexivity. Qed.
Lemma entries_rows : forall rows i x, In x (entries_of i rows) -> i <= fst x < i + length rows.
Proof.
  induction rows as [|p rows IH]; intros i x Hx; [destruct Hx|]. rewrite entries_cons in Hx. cbn [length].
  apply in_app_or in Hx as [Hx|Hx]; [apply in_map_iff in Hx as [j [<- _]]; cbn; lia|]. apply IH in Hx. lia.
Qed.
Lemma entries_filter_eq : forall rows i k, k < length rows ->
  map snd (filter (fun e => fst e =? i + k) (entries_of i rows)) = nth k rows [].
Proof.
  induction rows as [|p rows IH]; intros i k Hk; [cbn in Hk; lia|]. rewrite entries_cons, filter_app, map_app.
  destruct k as [|k].
  - rewrite filter_all by (intros x Hx; apply in_map_iff in Hx as [j [<- _]]; cbn; apply Nat.eqb_eq; lia).
    rewrite (filter_none _ _ (entries_of (S i) rows)) by (intros x Hx; apply entries_rows in Hx; apply Nat.eqb_neq; lia).
    cbn [nth]. rewrite map_map. cbn. rewrite map_id, app_nil_r. reflexivity.
  - rewrite (filter_none _ _ (map _ p)) by (intros x Hx; apply in_map_iff in Hx as [j [<- _]]; cbn; apply Nat.eqb_neq; lia).
    cbn [nth app map]. replace (i + S k) with (S i + k) by lia. apply IH. cbn in Hk. lia.
Qed.
Lemma entries_filter_lt : forall rows i k, k <= length rows ->
  length (filter (fun e => fst e <? i + k) (entries_of i rows)) = length (concat (firstn k rows)).
Proof.
  induction rows as [|p rows IH]; intros i k Hk.
  - cbn in Hk. assert (k = 0) by lia. subst k. reflexivity.
  - rewrite entries_cons, filter_app, app_length. destruct k as [|k].
    + rewrite !filter_none; [reflexivity| |]; intros x Hx; apply Nat.ltb_ge.
      * apply entries_rows in Hx. lia.
      * apply in_map_iff in Hx as [j [<- _]]. cbn. lia.
    + rewrite (filter_all _ _ (map _ p)) by (intros x Hx; apply in_map_iff in Hx as [j [<- _]]; cbn [fst]; apply Nat.ltb_lt; lia).
      cbn [firstn concat]. rewrite app_length, map_length. f_equal. replace (i + S k) with (S i + k) by lia. apply IH. cbn in Hk. lia.
Qed.
Lemma entries_snd : forall rows i, map snd (entries_of i rows) = concat rows.
Proof.
  induction rows as [|p rows IH]; intros i; [reflexivity|]. rewrite entries_cons, map_app, IH. cbn. rewrite map_map. cbn. rewrite map_id. reflexivity.
Qed.

Lemma nth_map_seq : forall (A : Type) (f : nat -> A) n k d, k < n -> nth k (map f (seq 0 n)) d = f k.
Proof.
  intros A f n k d Hk. rewrite nth_indep with (d' := f 0) by (rewrite map_length, seq_length; exact Hk).
  rewrite map_nth, seq_nth by exact Hk. reflexivity.
Qed.

Lemma to_csr_indices : forall rows, fst (to_csr (entries_of 0 rows) (length rows)) = concat rows.
Proof.
  intros rows. cbn [to_csr fst]. rewrite flat_map_concat_map. f_equal.
  apply nth_ext with (d := []) (d' := []); [rewrite map_length, seq_length; reflexivity|].
  intros k Hk. rewrite map_length, seq_length in Hk.
  rewrite nth_map_seq by exact Hk. apply (entries_filter_eq rows 0 k Hk).
Qed.
Lemma to_csr_indptr : forall rows k, k <= length rows ->
  nth k (snd (to_csr (entries_of 0 rows) (length rows))) 0 = length (concat (firstn k rows)).
Proof.
  intros rows k Hk. cbn [to_csr snd].
  rewrite nth_map_seq by lia. apply (entries_filter_lt rows 0 k Hk).
Qed.

Lemma firstn_S_concat : forall (rows : list (list nat)) k, k < length rows ->
  concat (firstn (S k) rows) = concat (firstn k rows) ++ nth k rows [].
Proof.
  induction rows as [|p rows IH]; intros k Hk; [cbn in Hk; lia|]. destruct k as [|k].
  - cbn. apply app_nil_r.
  - cbn [firstn concat nth]. change (firstn (S k) (p :: rows)) with (p :: firstn k rows). cbn [concat]. rewrite <- app_assoc, <- IH by (cbn in Hk; lia). reflexivity.
Qed.
Lemma map_nth_seq : forall (l a b : list nat), map (fun k => nth k (a ++ l ++ b) 0) (seq (length a) (length l)) = l.
Proof.
  induction l as [|x l IH]; intros a b; [reflexivity|]. cbn [length seq map]. f_equal.
  - rewrite app_nth2 by lia. rewrite Nat.sub_diag. reflexivity.
  - specialize (IH (a ++ [x]) b). rewrite app_length in IH. cbn in IH. rewrite Nat.add_1_r in IH. rewrite <- app_assoc in IH. exact IH.
Qed.
Lemma concat_split : forall (rows : list (list nat)) k, k < length rows ->
  concat rows = concat (firstn k rows) ++ nth k rows [] ++ concat (skipn (S k) rows).
Proof.
  intros rows k Hk. rewrite app_assoc, <- firstn_S_concat by exact Hk. rewrite <- concat_app, firstn_skipn. reflexivity.
Qed.
Lemma csr_row_of : forall rows k, k < length rows -> csr_row (to_csr (entries_of 0 rows) (length rows)) k = nth k rows [].
Proof.
  intros rows k Hk. unfold csr_row. rewrite to_csr_indices, !to_csr_indptr by lia.
  rewrite firstn_S_concat by exact Hk. rewrite app_length, Nat.add_comm, Nat.add_sub.
  rewrite (concat_split rows k Hk). apply map_nth_seq.
Qed.

Lemma generated : forall R linspace fuel n m seed H, rng_ok R -> linspace_ok linspace ->
  generate_silver_ldpc R linspace fuel n m seed = Some H ->
  exists rows, H = to_csr (entries_of 0 rows) m /\ length rows = m /\ Forall (fun p => good_row n p /\ Nat.min 3 n <= length p) rows.
Proof.
  intros R linspace fuel n m seed H HR HL E. unfold generate_silver_ldpc in E.
  destruct (rows_from R linspace n fuel 0 m seed) as [e|] eqn:Er; [|discriminate]. injection E as <-.
  destruct (rows_from_ok R linspace HR HL n _ _ _ _ _ Er) as [rows [-> [Hl Hf]]]. exists rows. auto.
Qed.

Lemma in_concat_rows : forall n rows c, Forall (fun p => good_row n p /\ Nat.min 3 n <= length p) rows -> In c (concat rows) -> c < n.
Proof.
  intros n rows c Hf Hc. apply in_concat in Hc as [p [Hp Hc]]. rewrite Forall_forall in Hf. destruct (Hf p Hp) as [[_ [Hb _]] _]. auto.
Qed.

Lemma generated_csr : forall R linspace fuel n m seed H, rng_ok R -> linspace_ok linspace ->
  generate_silver_ldpc R linspace fuel n m seed = Some H ->
  csr_ok (fst H) (snd H) m n /\ length (snd H) = S m /\ nth 0 (snd H) 0 = 0 /\ nth m (snd H) 0 = length (fst H) /\
  forall i, i < m -> increasing (csr_row H i) /\ (forall j, In j (csr_row H i) -> j < n) /\
    Nat.min 3 n <= length (csr_row H i) <= Nat.min 5 n.
Proof.
  intros R linspace fuel n m seed H HR HL E.
  destruct (generated _ _ _ _ _ _ _ HR HL E) as [rows [-> [<- Hf]]].
  assert (Hlen : length (snd (to_csr (entries_of 0 rows) (length rows))) = S (length rows)) by (cbn [to_csr snd]; rewrite map_length, seq_length; reflexivity).
  split; [split; [lia|split]|].
  - intros i Hi. rewrite to_csr_indices, to_csr_indptr by lia. rewrite <- (firstn_skipn (S i) rows) at 2. rewrite concat_app, app_length. lia.
  - intros c. rewrite to_csr_indices. apply in_concat_rows. exact Hf.
  - split; [exact Hlen|]. split; [rewrite to_csr_indptr by lia; reflexivity|].
    split; [rewrite to_csr_indptr, to_csr_indices, firstn_all by lia; reflexivity|].
    intros i Hi. rewrite csr_row_of by exact Hi. rewrite Forall_forall in Hf.
    destruct (Hf (nth i rows [])) as [[H1 [H2 H3]] H4]; [apply nth_In; exact Hi|]. auto.
Qed.

Lemma row_blocks_csr_row : forall message H i, row_blocks message (fst H) (snd H) i = map (fun c => nth c message 0%N) (csr_row H i).
Proof. intros. unfold row_blocks, csr_row. rewrite map_map. reflexivity. Qed.

Lemma generated_encode : forall R linspace fuel n m seed H message, rng_ok R -> linspace_ok linspace ->
  generate_silver_ldpc R linspace fuel n m seed = Some H -> length message = n ->
  exists s, ldpc_encode message (fst H) (snd H) m = Some s /\ ldpc_encode_cpp message (fst H) (snd H) m = s /\ length s = m /\
  forall i, i < m -> nth i s 0%N = xor_all (map (fun c => nth c message 0%N) (csr_row H i)).
Proof.
  intros R linspace fuel n m seed H message HR HL E Hm.
  destruct (generated_csr _ _ _ _ _ _ _ HR HL E) as [Hc _]. rewrite <- Hm in Hc.
  destruct (encode_spec _ _ _ _ Hc) as [s [H1 [H2 [H3 H4]]]]. exists s. split; [exact H1|]. split; [exact H2|]. split; [exact H3|].
  intros i Hi. rewrite H4 by exact Hi. f_equal. apply row_blocks_csr_row.
Qed.

(** progress of the loop: from every set of positions some draw finishes *)
Lemma some_draw_finishes : forall n p, good_row n p -> length p < Nat.min 3 n ->
  exists extra, length extra = row_weight n - length p /\ (forall z, In z extra -> (0 <= z < Z.of_nat n)%Z) /\
  Nat.min 3 (row_weight n) <= length (unique (p ++ map Z.to_nat extra)).
Proof.
  intros n p [Hs [Hb Hl]] Hlt.
  (* the numbers below n that are not in p *)
  set (free := filter (fun j => negb (existsb (Nat.eqb j) p)) (seq 0 n)).
  assert (Hcount : length free + length p = n).
  { unfold free. assert (Hd : NoDup p).
    { clear - Hs. induction Hs as [|a l Hs IH Hf]; constructor; auto. intros Hin. rewrite Forall_forall in Hf. specialize (Hf a Hin). lia. }
    assert (Hp : length (filter (fun j => existsb (Nat.eqb j) p) (seq 0 n)) = length p).
    { apply Nat.le_antisymm; apply NoDup_incl_length.
      - apply NoDup_filter, seq_NoDup.
      - intros j Hj. apply filter_In in Hj as [_ Hj]. apply existsb_exists in Hj as [k [Hk E]]. apply Nat.eqb_eq in E. subst. exact Hk.
      - exact Hd.
      - intros j Hj. apply filter_In. split; [apply in_seq; specialize (Hb j Hj); lia|]. apply existsb_exists. exists j. split; [exact Hj|apply Nat.eqb_refl]. }
    rewrite <- Hp. pose proof (filter_split_length _ (fun j => existsb (Nat.eqb j) p) (seq 0 n)) as Hfl. rewrite seq_length in Hfl. lia. }
  set (ex := firstn (row_weight n - length p) free).
  assert (Hex : length ex = row_weight n - length p) by (unfold ex; rewrite firstn_length; unfold row_weight; lia).
  assert (Hin : forall j, In j ex -> In j free) by (intros j Hj; rewrite <- (firstn_skipn (row_weight n - length p) free); apply in_or_app; left; exact Hj).
  assert (Hdex : NoDup ex).
  { assert (Hdf : NoDup free) by (apply NoDup_filter, seq_NoDup).
    apply NoDup_firstn. exact Hdf. }
  exists (map Z.of_nat ex). split; [rewrite map_length; exact Hex|]. split.
  - intros z Hz. apply in_map_iff in Hz as [j [<- Hj]]. apply Hin, filter_In in Hj as [Hj _]. apply in_seq in Hj. lia.
  - rewrite map_map. rewrite (map_ext _ (fun x => x)) by (intros; apply Nat2Z.id). rewrite map_id.
    assert (Hd : NoDup (p ++ ex)).
    { assert (Hdp : NoDup p).
      { clear - Hs. induction Hs as [|a l Hs IH Hf]; constructor; auto. intros Hi. rewrite Forall_forall in Hf. specialize (Hf a Hi). lia. }
      apply NoDup_app_disjoint; [exact Hdp|exact Hdex|]. intros j Hj Hje. apply Hin, filter_In in Hje as [_ Hje].
      assert (E : existsb (Nat.eqb j) p = true) by (apply existsb_exists; exists j; split; [exact Hj|apply Nat.eqb_refl]). rewrite E in Hje. discriminate. }
    assert (length (p ++ ex) <= length (unique (p ++ ex))) by (apply NoDup_incl_length; [exact Hd|]; intros j Hj; apply (proj2 (unique_In _ _)); exact Hj).
    rewrite app_length, Hex in H. unfold row_weight in *. lia.
Qed.

(** the structure check *)
Lemma sum_diff : forall rows, list_sum (map (@length nat) rows) = length (concat rows).
Proof. induction rows as [|p rows IH]; [reflexivity|]. change (length p + list_sum (map (@length nat) rows) = length (p ++ concat rows)). rewrite app_length, IH. reflexivity. Qed.
Lemma concat_bounds : forall rows lo hi, Forall (fun p : list nat => lo <= length p <= hi) rows -> lo * length rows <= length (concat rows) <= hi * length rows.
Proof. induction 1 as [|p rows Hp _ IH]; cbn; [lia|]. rewrite app_length. lia. Qed.

Lemma generated_passes : forall R linspace fuel n m seed H, rng_ok R -> linspace_ok linspace ->
  generate_silver_ldpc R linspace fuel n m seed = Some H -> 0 < m -> 50 <= n -> verify_ldpc_structure H m n = Some true.
Proof.
  intros R linspace fuel n m seed H HR HL E Hm Hn.
  destruct (generated _ _ _ _ _ _ _ HR HL E) as [rows [-> [<- Hf]]].
  assert (Hb : Forall (fun p : list nat => 3 <= length p <= 5) rows) by (eapply Forall_impl; [|exact Hf]; cbv beta; intros p [[_ [_ H1]] H2]; lia).
  pose proof (concat_bounds _ _ _ Hb) as Hc.
  set (H := to_csr (entries_of 0 rows) (length rows)) in *.
  assert (Hw : map (fun i => nth (S i) (snd H) 0 - nth i (snd H) 0) (seq 0 (length rows)) = map (@length nat) rows).
  { apply nth_ext with (d := 0) (d' := 0); [rewrite !map_length, seq_length; reflexivity|].
    intros k Hk. rewrite map_length, seq_length in Hk.
    rewrite nth_map_seq by exact Hk.
    unfold H. rewrite !to_csr_indptr by lia. rewrite firstn_S_concat, app_length by exact Hk. change 0 with (length (@nil nat)). rewrite map_nth. cbn [length]. lia. }
  pose proof (to_csr_indices rows) as Hi. fold H in Hi.
  unfold verify_ldpc_structure. destruct H as [indices indptr]. cbn [fst snd] in *. subst indices. rewrite Hw, sum_diff.
  destruct (Nat.eqb_spec (length rows * n) 0) as [Hz|_]; [apply Nat.eq_mul_0 in Hz; lia|].
  destruct (Nat.ltb_spec (length rows * n) (10 * length (concat rows))) as [Hlt|_].
  { assert (length rows * 50 <= length rows * n) by (apply Nat.mul_le_mono_l; exact Hn). lia. }
  destruct (existsb (fun w => w =? 0) (map (@length nat) rows)) eqn:Ex.
  { apply existsb_exists in Ex as [w [Hin Hz]]. apply Nat.eqb_eq in Hz. subst w. apply in_map_iff in Hin as [p [Hp Hin]].
    rewrite Forall_forall in Hb. specialize (Hb p Hin). lia. }
  destruct (Nat.ltb_spec (length (concat rows)) (2 * length rows)); [lia|].
  destruct (Nat.ltb_spec (20 * length rows) (length (concat rows))); [lia|]. reflexivity.
Qed.

(** ** the dense encoder *)
Lemma fold_limbs : forall l a, fold_left limbs_xor l a = (N.lxor (fst a) (xor_all (map fst l)), N.lxor (snd a) (xor_all (map snd l))).
Proof.
  induction l as [|x l IH]; intros a; cbn; [rewrite !N.lxor_0_r; destruct a; reflexivity|].
  rewrite IH. cbn. rewrite !N.lxor_assoc. reflexivity.
Qed.
Lemma xor_all_land : forall l h, N.land (xor_all l) h = xor_all (map (fun x => N.land x h) l).
Proof.
  induction l as [|x l IH]; intros h; [reflexivity|].
  change (N.land (N.lxor x (xor_all l)) h = N.lxor (N.land x h) (xor_all (map (fun x => N.land x h) l))). rewrite <- IH. apply N.bits_inj. intros k.
  rewrite !N.lxor_spec, !N.land_spec, N.lxor_spec. destruct (N.testbit x k), (N.testbit (xor_all l) k), (N.testbit h k); reflexivity.
Qed.
Lemma combine_seq : forall (A : Type) (l : list A) (d : A) (f : nat -> N), combine l (map f (seq 0 (length l))) = map (fun j => (nth j l d, f j)) (seq 0 (length l)).
Proof.
  intros A l d f. apply nth_ext with (d := (d, f 0)) (d' := (d, f 0)).
  - rewrite combine_length, !map_length, !seq_length. lia.
  - intros k Hk. rewrite combine_length, map_length, seq_length, Nat.min_id in Hk.
    rewrite combine_nth by (rewrite map_length, seq_length; reflexivity). rewrite !nth_map_seq by exact Hk. reflexivity.
Qed.
Lemma xor_zeros : forall (g : nat -> N) (q : nat -> bool) l, xor_all (map (fun j => if q j then g j else 0%N) l) = xor_all (map g (filter q l)).
Proof. intros g q. induction l as [|x l IH]; [reflexivity|].
  change (N.lxor (if q x then g x else 0%N) (xor_all (map (fun j => if q j then g j else 0%N) l)) = xor_all (map g (if q x then x :: filter q l else filter q l))).
  rewrite IH. destruct (q x); reflexivity. Qed.
Lemma increasing_NoDup : forall l, increasing l -> NoDup l.
Proof. intros l Hs. induction Hs as [|a l Hs IH Hf]; constructor; auto. intros Hin. rewrite Forall_forall in Hf. specialize (Hf a Hin). lia. Qed.
Lemma increasing_ext : forall a b, increasing a -> increasing b -> (forall x, In x a <-> In x b) -> a = b.
Proof.
  intros a b Ha. revert b. induction Ha as [|x a Ha IH Hf]; intros b Hb Hin.
  - destruct b as [|y b]; [reflexivity|]. destruct (proj2 (Hin y)). left; reflexivity.
  - destruct b as [|y b]; [destruct (proj1 (Hin x)); left; reflexivity|].
    inversion Hb as [|? ? Hb' Hfb]; subst. rewrite Forall_forall in Hf, Hfb.
    assert (x = y).
    { destruct (proj1 (Hin x)) as [E|E]; [left; reflexivity|auto|]. destruct (proj2 (Hin y)) as [F|F]; [left; reflexivity|auto|].
      specialize (Hf y F). specialize (Hfb x E). lia. }
    subst y. f_equal. apply IH; [exact Hb'|]. intros z. split; intros Hz.
    + destruct (proj1 (Hin z)) as [E|E]; [right; exact Hz| |exact E]. subst z. specialize (Hf x Hz). lia.
    + destruct (proj2 (Hin z)) as [E|E]; [right; exact Hz| |exact E]. subst z. specialize (Hfb x Hz). lia.
Qed.
Lemma seq_increasing : forall n a, increasing (seq a n).
Proof.
  induction n as [|n IH]; intros a; cbn; [constructor|]. constructor; [apply IH|]. rewrite Forall_forall. intros x Hx. apply in_seq in Hx. lia.
Qed.
Lemma filter_increasing : forall f l, increasing l -> increasing (filter f l).
Proof.
  intros f l Hl. induction Hl as [|x l Hl IH Hf]; cbn; [constructor|]. destruct (f x); [|exact IH]. constructor; [exact IH|].
  rewrite Forall_forall in *. intros y Hy. apply filter_In in Hy as [Hy _]. auto.
Qed.
Lemma mem_In : forall j r, existsb (Nat.eqb j) r = true <-> In j r.
Proof.
  intros j r. rewrite existsb_exists. split; [intros [x [Hx E]]; apply Nat.eqb_eq in E; subst; exact Hx|intros H; exists j; split; [exact H|apply Nat.eqb_refl]].
Qed.
Lemma filter_mem : forall r n, increasing r -> (forall j, In j r -> j < n) -> filter (fun j => existsb (Nat.eqb j) r) (seq 0 n) = r.
Proof.
  intros r n Hr Hb. apply increasing_ext; [apply filter_increasing, seq_increasing|exact Hr|].
  intros x. rewrite filter_In, mem_In, in_seq. split; [tauto|]. intros Hx. specialize (Hb x Hx). split; [lia|exact Hx].
Qed.

Lemma nth_fst : forall j (message : list limbs), fst (nth j message (0, 0)%N) = nth j (lows message) 0%N.
Proof. intros. unfold lows. change 0%N with (fst (0%N, 0%N)) at 3. rewrite map_nth. reflexivity. Qed.
Lemma nth_snd : forall j (message : list limbs), snd (nth j message (0, 0)%N) = nth j (highs message) 0%N.
Proof. intros. unfold highs. change 0%N with (snd (0%N, 0%N)) at 3. rewrite map_nth. reflexivity. Qed.

Lemma dense_row_spec : forall message r one, increasing r -> (forall j, In j r -> j < length message) ->
  dense_row message (map (fun j => if existsb (Nat.eqb j) r then one else 0%N) (seq 0 (length message))) =
  (N.land (xor_all (map (fun c => nth c (lows message) 0%N) r)) one, N.land (xor_all (map (fun c => nth c (highs message) 0%N) r)) one).
Proof.
  intros message r one Hr Hb. unfold dense_row. rewrite fold_limbs. cbn [fst snd]. rewrite !N.lxor_0_l, !map_map.
  rewrite (combine_seq _ message (0, 0)%N). rewrite !map_map. cbn [fst snd limbs_and].
  rewrite !xor_all_land, !map_map.
  pose proof (filter_mem r (length message) Hr Hb) as E.
  f_equal; [apply eq_trans with (xor_all (map (fun c => N.land (nth c (lows message) 0%N) one) (filter (fun j => existsb (Nat.eqb j) r) (seq 0 (length message)))))
           |apply eq_trans with (xor_all (map (fun c => N.land (nth c (highs message) 0%N) one) (filter (fun j => existsb (Nat.eqb j) r) (seq 0 (length message)))))];
  try (rewrite E; reflexivity); rewrite <- xor_zeros; f_equal; apply map_ext; intros j; [rewrite nth_fst|rewrite nth_snd]; destruct (existsb _ r); try reflexivity; apply N.land_0_r.
Qed.

Lemma dense_spec : forall message rows one, Forall (fun r => increasing r /\ forall j, In j r -> j < length message) rows ->
  ldpc_encode_dense message (densify one (length message) rows) =
  map (fun r => (N.land (xor_all (map (fun c => nth c (lows message) 0%N) r)) one, N.land (xor_all (map (fun c => nth c (highs message) 0%N) r)) one)) rows.
Proof.
  intros message rows one Hf. unfold ldpc_encode_dense, densify. rewrite map_map. apply map_ext_in. intros r Hr.
  rewrite Forall_forall in Hf. destruct (Hf r Hr) as [H1 H2]. apply dense_row_spec; assumption.
Qed.

(** ** the decoder *)
Lemma best_spec : forall cols rem k b r,
  (best cols rem k b r = b /\ forall c, In c cols -> reduction c rem <= r) \/
  (exists j, best cols rem k b r = Some (k + j) /\ j < length cols /\ r < reduction (nth j cols []) rem /\ (forall i, i < length cols -> reduction (nth i cols []) rem <= reduction (nth j cols []) rem) /\ (forall i, i < j -> reduction (nth i cols []) rem < reduction (nth j cols []) rem)).
Proof.
  induction cols as [|c cols IH]; intros rem k b r; [left; split; [reflexivity|intros c []]|].
  cbn [best]. destruct (Nat.ltb_spec r (reduction c rem)) as [Hlt|Hge].
  - right. destruct (IH rem (S k) (Some k) (reduction c rem)) as [[E Hall]|[j [E [Hj [Hr [Hmax Hfirst]]]]]]; rewrite E.
    + exists 0. rewrite Nat.add_0_r. split; [reflexivity|]. cbn [nth length]. split; [lia|]. split; [exact Hlt|]. split; [|intros; lia].
      intros [|i] Hi; [lia|]. apply Hall. apply nth_In. lia.
    + exists (S j). split; [f_equal; lia|]. cbn [nth length]. split; [lia|]. split; [lia|]. split.
      * intros [|i] Hi; [lia|]. apply Hmax. lia.
      * intros [|i] Hi; [exact Hr|]. apply Hfirst. lia.
  - destruct (IH rem (S k) b r) as [[E Hall]|[j [E [Hj [Hr [Hmax Hfirst]]]]]]; rewrite E.
    + left. split; [reflexivity|]. intros c' [<-|Hin]; [exact Hge|auto].
    + right. exists (S j). split; [f_equal; lia|]. cbn [nth length]. split; [lia|]. split; [exact Hr|]. split.
      * intros [|i] Hi; [lia|]. apply Hmax. lia.
      * intros [|i] Hi; [lia|]. apply Hfirst. lia.
Qed.

Lemma set_at_length : forall l j v, length (set_at l j v) = length l.
Proof.
  intros l j v. unfold set_at. rewrite <- (firstn_skipn j l) at 3. rewrite !app_length. destruct (skipn j l); reflexivity.
Qed.
Lemma set_at_In : forall l j v x, In x (set_at l j v) -> x = v \/ In x l.
Proof.
  intros l j v x Hx. unfold set_at in Hx. rewrite <- (firstn_skipn j l). apply in_app_or in Hx as [Hx|Hx]; [right; apply in_or_app; auto|].
  destruct (skipn j l); [destruct Hx|]. destruct Hx as [<-|Hx]; [auto|]. right. apply in_or_app. right. right. exact Hx.
Qed.
Lemma set_at_weight : forall l j v, weight (set_at l j v) <= S (weight l).
Proof.
  intros l j v. unfold set_at, weight. rewrite <- (firstn_skipn j l) at 3. rewrite !filter_app, !app_length.
  destruct (skipn j l) as [|a r]; cbn [filter length]; [lia|]. destruct (negb (v =? 0)%N), (negb (a =? 0)%N); cbn [length]; lia.
Qed.
Lemma decode_loop_spec : forall cols rounds rem e, 
  length (decode_loop cols rounds rem e) = length e /\ weight (decode_loop cols rounds rem e) <= weight e + rounds /\ (forall x, In x (decode_loop cols rounds rem e) -> x = 1%N \/ In x e).
Proof.
  induction rounds as [|rounds IH]; intros rem e; cbn [decode_loop]; [repeat split; [lia|auto]|].
  destruct (best cols rem 0 None 0) as [j|]; [|repeat split; [lia|auto]].
  destruct (IH (add_column rem (nth j cols [])) (set_at e j 1%N)) as [H1 [H2 H3]].
  split; [rewrite H1; apply set_at_length|]. split; [pose proof (set_at_weight e j 1%N); lia|].
  intros x Hx. destruct (H3 x Hx) as [->|Hin]; [auto|]. apply set_at_In in Hin. exact Hin.
Qed.
Lemma weight_zeros : forall n, weight (repeat 0%N n) = 0.
Proof. induction n as [|n IH]; [reflexivity|]. exact IH. Qed.
Lemma decode_spec : forall cols s w, length (ldpc_decode_syndrome cols s w) = length cols /\ weight (ldpc_decode_syndrome cols s w) <= w /\ (forall x, In x (ldpc_decode_syndrome cols s w) -> x = 0%N \/ x = 1%N).
Proof.
  intros cols s w. unfold ldpc_decode_syndrome.
  destruct (decode_loop_spec cols w s (repeat 0%N (length cols))) as [H1 [H2 H3]]. rewrite repeat_length in H1. rewrite weight_zeros in H2.
  split; [exact H1|]. split; [lia|]. intros x Hx. destruct (H3 x Hx) as [->|Hin]; [auto|]. apply repeat_spec in Hin. auto.
Qed.

(** single errors *)
Definition colvec (rows : list (list nat)) (j : nat) : list N := map (fun r => if existsb (Nat.eqb j) r then 1%N else 0%N) rows.
Lemma columns_nth : forall n rows j, j < n -> nth j (columns n rows) [] = colvec rows j.
Proof. intros n rows j Hj. unfold columns. rewrite nth_map_seq by exact Hj. reflexivity. Qed.
Lemma reduction_colvec : forall rows k j,
  reduction (colvec rows k) (colvec rows j) = length (filter (fun r => existsb (Nat.eqb k) r && existsb (Nat.eqb j) r) rows).
Proof.
  intros rows k j. unfold reduction, colvec. induction rows as [|r rows IH]; [reflexivity|].
  cbn [map combine filter fst snd].
  destruct (existsb (Nat.eqb k) r), (existsb (Nat.eqb j) r); cbn [andb N.eqb N.land negb Pos.land length]; rewrite IH; reflexivity.
Qed.
Lemma filter_lt : forall (A : Type) (f g : A -> bool) l, (forall x, f x = true -> g x = true) -> (exists x, In x l /\ g x = true /\ f x = false) ->
  length (filter f l) < length (filter g l).
Proof.
  intros A f g l Himp. assert (Hle : forall l, length (filter f l) <= length (filter g l)).
  { induction l0 as [|a l0 IH]; cbn; [lia|]. destruct (f a) eqn:Ef; [rewrite (Himp a Ef); cbn; lia|]. destruct (g a); cbn; lia. }
  induction l as [|a l IH]; intros [x [Hx [Hg Hf]]]; [destruct Hx|]. cbn. destruct Hx as [->|Hx].
  - rewrite Hf, Hg. cbn. specialize (Hle l). lia.
  - specialize (IH (ex_intro _ x (conj Hx (conj Hg Hf)))). destruct (f a) eqn:Ef; [rewrite (Himp a Ef); cbn; lia|]. destruct (g a); cbn; lia.
Qed.
Lemma add_self : forall rows j, add_column (colvec rows j) (colvec rows j) = repeat 0%N (length rows).
Proof.
  intros rows j. unfold add_column, colvec. induction rows as [|r rows IH]; [reflexivity|]. cbn [map combine length repeat]. rewrite IH.
  destruct (existsb (Nat.eqb j) r); reflexivity.
Qed.
Lemma reduction_zeros : forall c n, reduction c (repeat 0%N n) = 0.
Proof.
  induction c as [|x c IH]; intros n; [reflexivity|]. destruct n as [|n]; [reflexivity|]. specialize (IH n). unfold reduction in *. cbn. rewrite N.land_0_r. cbn. exact IH.
Qed.
Lemma set_unit : forall n j, j < n -> set_at (repeat 0%N n) j 1%N = unit_vector n j.
Proof.
  intros n j Hj. apply nth_ext with (d := 0%N) (d' := 0%N).
  - rewrite set_at_length, repeat_length. unfold unit_vector. rewrite map_length, seq_length. reflexivity.
  - intros k Hk. rewrite set_at_length, repeat_length in Hk. unfold unit_vector. rewrite nth_map_seq by exact Hk.
    unfold set_at. assert (Hf : length (firstn j (repeat 0%N n)) = j) by (rewrite firstn_length, repeat_length; lia).
    assert (Hsk : skipn j (repeat 0%N n) = 0%N :: repeat 0%N (n - S j)).
    { replace n with (j + S (n - S j)) at 1 by lia. rewrite repeat_app. rewrite skipn_app, repeat_length, Nat.sub_diag.
      rewrite skipn_all2 by (rewrite repeat_length; lia). reflexivity. }
    rewrite Hsk. destruct (Nat.lt_trichotomy k j) as [H|[->|H]].
    + rewrite app_nth1 by lia. destruct (Nat.eqb_spec k j); [lia|].
      assert (Hin : In (nth k (firstn j (repeat 0%N n)) 0%N) (repeat 0%N n)).
      { rewrite <- (firstn_skipn j (repeat 0%N n)) at 2. apply in_or_app. left. apply nth_In. lia. }
      apply repeat_spec in Hin. exact Hin.
    + rewrite app_nth2 by lia. rewrite Hf, Nat.sub_diag, Nat.eqb_refl. reflexivity.
    + rewrite app_nth2 by lia. rewrite Hf. destruct (Nat.eqb_spec k j); [lia|]. destruct (k - j) as [|d] eqn:Ed; [lia|]. cbn [nth].
      destruct (Nat.lt_ge_cases d (n - S j)) as [Hd|Hd]; [|apply nth_overflow; rewrite repeat_length; exact Hd].
      eapply repeat_spec. apply nth_In. rewrite repeat_length. exact Hd.
Qed.
Lemma syndrome_unit : forall rows n j, j < n -> Forall (fun r => increasing r /\ forall k, In k r -> k < n) rows ->
  syndrome_of rows (unit_vector n j) = colvec rows j.
Proof.
  intros rows n j Hj Hf. unfold syndrome_of, colvec. apply map_ext_in. intros r Hr. rewrite Forall_forall in Hf. destruct (Hf r Hr) as [Hi Hb].
  clear Hr. apply increasing_NoDup in Hi.
  assert (Hsum : fold_right N.add 0%N (map (fun k => nth k (unit_vector n j) 0%N) r) = if existsb (Nat.eqb j) r then 1%N else 0%N).
  { induction Hi as [|k r Hk Hi IH]; [reflexivity|]. cbn [map fold_right existsb]. rewrite IH by (intros; apply Hb; right; assumption).
    unfold unit_vector. rewrite nth_map_seq by (apply Hb; left; reflexivity). rewrite (Nat.eqb_sym j k). destruct (Nat.eqb_spec k j) as [->|Hne]; cbn [orb].
    - destruct (existsb (Nat.eqb j) r) eqn:E; [apply mem_In in E; contradiction|reflexivity].
    - apply N.add_0_l. }
  rewrite Hsum. destruct (existsb (Nat.eqb j) r); reflexivity.
Qed.
Lemma decode_single : forall rows n j w, j < n -> Forall (fun r => increasing r /\ forall k, In k r -> k < n) rows -> 0 < w ->
  (exists r, In r rows /\ In j r) ->
  (forall k, k < n -> k <> j -> exists r, In r rows /\ In j r /\ ~ In k r) ->
  ldpc_decode_syndrome (columns n rows) (syndrome_of rows (unit_vector n j)) w = unit_vector n j.
Proof.
  intros rows n j w Hj Hf Hw [r0 [Hr0 Hjr0]] Hsep. rewrite syndrome_unit by assumption.
  assert (Hcl : length (columns n rows) = n) by (unfold columns; rewrite map_length, seq_length; reflexivity).
  unfold ldpc_decode_syndrome. rewrite Hcl. destruct w as [|w]; [lia|]. cbn [decode_loop].
  assert (Hlt : forall k, k < n -> k <> j -> reduction (nth k (columns n rows) []) (colvec rows j) < reduction (nth j (columns n rows) []) (colvec rows j)).
  { intros k Hk Hne. rewrite !columns_nth, !reduction_colvec by assumption. apply filter_lt.
    - intros r Hr. apply andb_prop in Hr as [_ Hr]. rewrite Hr. reflexivity.
    - destruct (Hsep k Hk Hne) as [r [Hr [H1 H2]]]. exists r. split; [exact Hr|]. apply mem_In in H1. rewrite H1. split; [reflexivity|].
      destruct (existsb (Nat.eqb k) r) eqn:E; [|reflexivity]. apply mem_In in E. contradiction. }
  assert (Hpos : 0 < reduction (nth j (columns n rows) []) (colvec rows j)).
  { rewrite columns_nth, reduction_colvec by assumption. assert (Hin : In r0 (filter (fun r => existsb (Nat.eqb j) r && existsb (Nat.eqb j) r) rows)).
    { apply filter_In. split; [exact Hr0|]. apply mem_In in Hjr0. rewrite Hjr0. reflexivity. }
    destruct (filter _ rows); [destruct Hin|cbn; lia]. }
  assert (Hb : best (columns n rows) (colvec rows j) 0 None 0 = Some j).
  { destruct (best_spec (columns n rows) (colvec rows j) 0 None 0) as [[E Hall]|[i [E [Hi [Hr [Hmax _]]]]]].
    - specialize (Hall (nth j (columns n rows) [])). assert (In (nth j (columns n rows) []) (columns n rows)) by (apply nth_In; lia). apply Hall in H. lia.
    - rewrite E. cbn [plus]. destruct (Nat.eq_dec i j) as [->|Hne]; [reflexivity|]. rewrite Hcl in Hi, Hmax. specialize (Hlt i Hi Hne). specialize (Hmax j Hj). lia. }
  rewrite Hb, columns_nth, add_self, set_unit by exact Hj.
  destruct w as [|w]; [reflexivity|]. cbn [decode_loop].
  destruct (best_spec (columns n rows) (repeat 0%N (length rows)) 0 None 0) as [[E _]|[i [_ [_ [Hr _]]]]]; [rewrite E; reflexivity|].
  rewrite reduction_zeros in Hr. lia.
Qed.

Lemma set_at2_In : forall l j v x, In x (set_at2 l j v) -> x = v \/ In x l.
Proof.
  intros l j v x Hx. unfold set_at2 in Hx. rewrite <- (firstn_skipn j l). apply in_app_or in Hx as [Hx|Hx]; [right; apply in_or_app; auto|].
  destruct (skipn j l); [destruct Hx|]. destruct Hx as [<-|Hx]; [auto|]. right. apply in_or_app. right. right. exact Hx.
Qed.
Lemma decode2_values : forall width cols rounds rem e x, In x (decode_loop2 width cols rounds rem e) -> x = repeat 1%N width \/ In x e.
Proof.
  induction rounds as [|rounds IH]; intros rem e x Hx; cbn [decode_loop2] in Hx; [auto|].
  destruct (best2 cols rem 0 None 0) as [j|]; [|auto]. apply IH in Hx as [->|Hx]; [auto|]. apply set_at2_In in Hx. exact Hx.
Qed.
Lemma decode2_spec : forall width cols s w x, In x (ldpc_decode_syndrome2 width cols s w) -> x = repeat 1%N width \/ x = repeat 0%N width.
Proof.
  intros width cols s w x Hx. apply decode2_values in Hx as [->|Hx]; [auto|]. apply repeat_spec in Hx. auto.
Qed.

(** ** two-dimensional syndromes whose rows repeat one bit *)
Lemma reduction2_repeat : forall width col rem, reduction2 col (map (fun x => repeat x width) rem) = width * reduction col rem.
Proof.
  intros width. unfold reduction2, reduction. induction col as [|c col IH]; intros [|x rem]; cbn [map combine list_sum fold_right filter length]; try lia.
  cbn [fst snd]. specialize (IH rem). unfold list_sum in *. cbn [map fold_right] in *. rewrite IH.
  assert (F : forall w, length (filter (fun y => negb (N.land c (if N.eqb y 0 then 0 else 1) =? 0)%N) (repeat x w)) = if negb (N.land c (if N.eqb x 0 then 0 else 1) =? 0)%N then w else 0).
  { induction w as [|w IHw]; cbn [repeat filter]; [destruct (negb _); reflexivity|]. destruct (negb _); cbn [length]; rewrite IHw; reflexivity. }
  rewrite F. destruct (negb _); cbn [length]; lia.
Qed.
Lemma best2_repeat : forall width cols rem j b r, 0 < width -> best2 cols (map (fun x => repeat x width) rem) j b (width * r) = best cols rem j b r.
Proof.
  induction cols as [|c cols IH]; intros rem j b r Hw; cbn [best2 best]; [reflexivity|]. rewrite reduction2_repeat.
  assert (E : (width * r <? width * reduction c rem) = (r <? reduction c rem)).
  { destruct (Nat.ltb_spec r (reduction c rem)); [apply Nat.ltb_lt|apply Nat.ltb_ge]; nia. }
  rewrite E. destruct (r <? _); apply IH; exact Hw.
Qed.
Lemma add_column2_repeat : forall width col rem, bits rem -> bits col ->
  add_column2 (map (fun x => repeat x width) rem) col = map (fun x => repeat x width) (add_column rem col) /\ bits (add_column rem col).
Proof.
  intros width col rem. revert col. unfold add_column2, add_column, bits. induction rem as [|x rem IH]; intros [|c col] Hr Hc; cbn [map combine]; try (split; [reflexivity|constructor]).
  inversion Hr; subst. inversion Hc; subst. destruct (IH col) as [E B]; auto. cbn [fst snd]. rewrite E. split.
  - f_equal. assert (M : forall w v, map (fun y => N.lxor y 1) (repeat v w) = repeat (N.lxor v 1) w) by (clear; intros w v; induction w; cbn; congruence).
    rewrite M. destruct H1 as [-> | ->], H3 as [-> | ->]; reflexivity.
  - constructor; [|exact B]. destruct H1 as [-> | ->], H3 as [-> | ->]; cbn; auto.
Qed.
Lemma set_at2_repeat : forall width e j, set_at2 (map (fun x => repeat x width) e) j (repeat 1%N width) = map (fun x => repeat x width) (set_at e j 1%N).
Proof.
  intros width e j. unfold set_at2, set_at. rewrite firstn_map, skipn_map, map_app. f_equal. destruct (skipn j e); reflexivity.
Qed.
Lemma decode2_repeat : forall width cols s w, 0 < width -> Forall bits cols -> bits s ->
  ldpc_decode_syndrome2 width cols (map (fun x => repeat x width) s) w = map (fun x => repeat x width) (ldpc_decode_syndrome cols s w).
Proof.
  intros width cols s w Hw Hc Hs. unfold ldpc_decode_syndrome2, ldpc_decode_syndrome.
  assert (E : repeat (repeat 0%N width) (length cols) = map (fun x => repeat x width) (repeat 0%N (length cols))) by (induction (length cols); cbn; congruence).
  rewrite E. generalize (repeat 0%N (length cols)) as e. revert s Hs. induction w as [|w IH]; intros s Hs e; [reflexivity|]. cbn [decode_loop2 decode_loop].
  pose proof (best2_repeat width cols s 0 None 0 Hw) as B. rewrite Nat.mul_0_r in B. rewrite B. destruct (best cols s 0 None 0) as [j|]; [|reflexivity].
  assert (Hj : bits (nth j cols [])) by (destruct (Nat.lt_ge_cases j (length cols)); [rewrite Forall_forall in Hc; apply Hc, nth_In; assumption|rewrite nth_overflow by assumption; constructor]).
  destruct (add_column2_repeat width (nth j cols []) s Hs Hj) as [A Bt]. rewrite A, set_at2_repeat. apply IH. exact Bt.
Qed.
