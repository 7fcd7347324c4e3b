(** Proofs about the binned OKVS kernel. *)
From Coq Require Import NArith ZArith List Arith Bool Lia FinFun.
From Verif Require Import OKVSSpec OKVSModel OKVSProofs OKVSHash OKVSOptModel AESRound.
Import ListNotations.

Lemma bin_local_range enc seed k m : 0 < m -> row_in_range m (get_bin_local_indices enc seed k m).
Proof.
  intros Hm. unfold get_bin_local_indices, make_distinct. apply to_row_range.
  assert (H : forall x, (N.modulo x (N.of_nat m) < N.of_nat m)%N) by (intros; apply N.mod_lt; lia).
  cbv zeta. split; [apply H|]. split.
  - destruct (N.eqb _ _); apply H.
  - destruct (orb _ _); [destruct (orb _ _)|]; apply H.
Qed.

Lemma m_per_bin_pos m b : NUM_BINS <= m -> 0 < m_per_bin m b.
Proof.
  intros H. unfold m_per_bin. assert (0 < m / NUM_BINS); [|lia].
  apply Nat.div_str_pos. split; [unfold NUM_BINS; lia|exact H].
Qed.

Lemma concat_nth (f : nat -> list N) (len : nat -> nat) (off : nat -> nat) :
  (forall b, length (f b) = len b) -> off 0 = 0 -> (forall b, off (S b) = off b + len b) ->
  forall n b h, b < n -> h < len b ->
  nth (off b + h) (concat (map f (seq 0 n))) 0%N = nth h (f b) 0%N.
Proof.
  intros Hf H0 HS.
  assert (L : forall n, length (concat (map f (seq 0 n))) = off n).
  { induction n as [|n IH]; [now rewrite H0|].
    rewrite seq_S, map_app, concat_app, app_length, IH, HS. cbn. rewrite app_length, Hf. cbn. lia. }
  assert (M : forall d b, off b <= off (b + d)).
  { induction d as [|d IH]; intros b; [rewrite Nat.add_0_r; lia|].
    rewrite <- plus_n_Sm, HS. specialize (IH b). lia. }
  induction n as [|n IH]; intros b h Hb Hh; [lia|].
  rewrite seq_S, map_app, concat_app. cbn [map concat plus]. rewrite app_nil_r.
  destruct (Nat.eq_dec b n) as [->|Hne].
  - rewrite app_nth2 by (rewrite L; lia). rewrite L. f_equal. lia.
  - rewrite app_nth1; [apply IH; lia|]. rewrite L.
    specialize (M (n - S b) (S b)). rewrite HS in M. replace (S b + (n - S b)) with n in M by lia. lia.
Qed.

Lemma local_rows_range enc seed items m b : NUM_BINS <= m ->
  Forall (row_in_range (m_per_bin m b)) (local_rows enc seed items m b).
Proof.
  intros Hm. apply Forall_forall. intros r Hr. apply in_map_iff in Hr. destruct Hr as [x [<- _]].
  apply bin_local_range, m_per_bin_pos, Hm.
Qed.

Lemma bin_segment_length enc seed items m b : NUM_BINS <= m ->
  length (bin_segment enc seed items m b) = m_per_bin m b.
Proof.
  intros Hm. unfold bin_segment. destruct (bin_items enc seed items b) as [|it its] eqn:E; [apply repeat_length|].
  rewrite <- E. unfold solve_bin.
  destruct (solve_rows_cases (local_rows enc seed items m b) (map snd (bin_items enc seed items b)) (m_per_bin m b))
    as [[out [H1 [H2 _]]]|[H1 _]].
  - apply local_rows_range, Hm.
  - unfold local_rows. now rewrite !map_length.
  - unfold local_rows in H1. rewrite H1. exact H2.
  - unfold local_rows in H1. rewrite H1.
    destruct (cpp_cases (aes_words enc seed) (map fst (bin_items enc seed items b)) (map snd (bin_items enc seed items b))
       (m_per_bin m b)) as [[_ [H2 _]]|[H2 _]].
    + now rewrite !map_length.
    + intros _. apply m_per_bin_pos, Hm.
    + exact H2.
    + rewrite H2. apply repeat_length.
Qed.

Lemma get_bin_lt enc seed k : get_bin_index enc seed k < NUM_BINS.
Proof.
  unfold get_bin_index. assert (H : (fst (aes_words enc seed k) mod N.of_nat NUM_BINS < N.of_nat NUM_BINS)%N).
  { apply N.mod_lt. unfold NUM_BINS. lia. }
  lia.
Qed.

Lemma decode_opt_item enc seed keys values m k v : NUM_BINS <= m ->
  In (k, v) (combine keys values) ->
  (forall S, ~ stopping_set (local_rows enc seed (combine keys values) m (get_bin_index enc seed k)) S) ->
  decode_opt_key enc seed (solve_okvs_opt enc seed keys values m) m k = v.
Proof.
  intros Hm Hin Hns. set (items := combine keys values) in *. set (b := get_bin_index enc seed k) in *.
  assert (Hb : In (k, v) (bin_items enc seed items b)).
  { apply filter_In. split; [exact Hin|]. cbn. apply Nat.eqb_refl. }
  unfold decode_opt_key. fold b.
  destruct (get_bin_local_indices enc seed k (m_per_bin m b)) as [[h1 h2] h3] eqn:Er.
  pose proof (bin_local_range enc seed k (m_per_bin m b) (m_per_bin_pos m b Hm)) as HR.
  rewrite Er in HR. destruct HR as [R1 [R2 R3]].
  unfold solve_okvs_opt. fold items.
  assert (C : forall h, h < m_per_bin m b ->
    nth (bin_offset m b + h) (concat (map (bin_segment enc seed items m) (seq 0 NUM_BINS))) 0%N
      = nth h (bin_segment enc seed items m b) 0%N).
  { intros h Hh. apply (concat_nth _ (m_per_bin m) (bin_offset m)); try reflexivity.
    - intros b'. apply bin_segment_length, Hm.
    - apply get_bin_lt.
    - exact Hh. }
  rewrite !C by assumption.
  destruct (In_nth _ _ (0%N, 0%N) Hb) as [i [Hi Ei]].
  destruct (solve_rows_cases (local_rows enc seed items m b) (map snd (bin_items enc seed items b)) (m_per_bin m b))
    as [[out [H1 [H2 [H3 _]]]]|[_ [S HS]]].
  - apply local_rows_range, Hm.
  - unfold local_rows. now rewrite !map_length.
  - assert (Eseg : bin_segment enc seed items m b = out).
    { unfold bin_segment. destruct (bin_items enc seed items b) as [|it its] eqn:E; [destruct Hb|].
      rewrite <- E. unfold solve_bin. unfold local_rows in H1. rewrite E in *. rewrite H1. reflexivity. }
    rewrite Eseg. specialize (H3 i). unfold local_rows in H3. rewrite map_length in H3. specialize (H3 Hi).
    rewrite (nth_indep _ (0, 0, 0) ((fun kv => get_bin_local_indices enc seed (fst kv) (m_per_bin m b)) (0%N, 0%N))) in H3
      by (rewrite map_length; exact Hi).
    rewrite (map_nth (fun kv => get_bin_local_indices enc seed (fst kv) (m_per_bin m b))) in H3.
    rewrite Ei in H3. cbn [fst] in H3. rewrite Er in H3.
    rewrite (nth_indep _ 0%N (snd (0%N, 0%N))) in H3 by (rewrite map_length; exact Hi).
    rewrite map_nth, Ei in H3. exact H3.
  - destruct (Hns S HS).
Qed.

(** ** Pigeonhole: some set of 200000 distinct 64-bit keys defeats the native path. *)
Lemma nodup_witness_gen {A : Type} (dec : forall x y : A, {x = y} + {x <> y}) (d : A) (l : list A) :
  ~ NoDup l -> exists p q, p < q < length l /\ nth p l d = nth q l d.
Proof.
  induction l as [|k ks IH]; intros H; [destruct H; constructor|].
  destruct (in_dec dec k ks) as [Hi|Hi].
  - destruct (In_nth ks k d Hi) as [q [Hq E]]. exists 0, (S q). cbn. split; [lia|congruence].
  - destruct IH as [p [q [H1 H2]]]; [intros G; apply H; constructor; assumption|].
    exists (S p), (S q). cbn. split; [lia|exact H2].
Qed.

Lemma pigeonhole {A : Type} (dec : forall x y : A, {x = y} + {x <> y}) (f : nat -> A) (cod : list A) (n : nat) :
  (forall k, In (f k) cod) -> length cod < n -> exists p q, p < q < n /\ f p = f q.
Proof.
  intros Hf Hl.
  destruct (nodup_witness_gen dec (f 0) (map f (seq 0 n))) as [p [q [H1 H2]]].
  - intros Hnd. pose proof (NoDup_incl_length Hnd (l' := cod)) as K.
    rewrite map_length, seq_length in K.
    assert (n <= length cod); [|lia]. apply K. intros x Hx. apply in_map_iff in Hx.
    destruct Hx as [k [<- _]]. apply Hf.
  - rewrite map_length, seq_length in H1. exists p, q. split; [lia|].
    rewrite !map_nth, !seq_nth in H2 by lia. exact H2.
Qed.

Definition tri (M : nat) : list row := list_prod (list_prod (seq 0 M) (seq 0 M)) (seq 0 M).
Lemma in_tri M m r : row_in_range m r -> m <= M -> In r (tri M).
Proof.
  destruct r as [[a b] c]. intros [H1 [H2 H3]] HM. unfold tri.
  apply in_prod; [apply in_prod|]; apply in_seq; lia.
Qed.

Lemma cod_length a M : N.of_nat (length (list_prod (seq 0 a) (list_prod (tri M) (tri M)))) =
  (N.of_nat a * ((N.of_nat M * N.of_nat M * N.of_nat M) * (N.of_nat M * N.of_nat M * N.of_nat M)))%N.
Proof. unfold tri, row. rewrite !prod_length, !seq_length. rewrite !Nat2N.inj_mul. reflexivity. Qed.

Definition big_m : nat := N.to_nat 270000.
Definition big_n : nat := N.to_nat 200000.

Lemma big_m_bin b : m_per_bin big_m b <= 264.
Proof.
  unfold m_per_bin. assert (H : big_m / NUM_BINS = 263).
  { unfold big_m, NUM_BINS. change 1024 with (N.to_nat 1024). rewrite <- N2Nat.inj_div. reflexivity. }
  rewrite H. destruct (b <? _); lia.
Qed.
Lemma big_m_ge : NUM_BINS <= big_m.
Proof. unfold NUM_BINS, big_m. change 1024 with (N.to_nat 1024). lia. Qed.

Lemma row_dec (x y : nat * (row * row)) : {x = y} + {x <> y}.
Proof. repeat decide equality. Qed.

Lemma colliding_keys enc seed : exists k1 k2 : N, (k1 < k2 /\ k2 < two64)%N /\
  let b := get_bin_index enc seed k1 in
  get_bin_index enc seed k2 = b /\
  get_bin_local_indices enc seed k1 (m_per_bin big_m b) = get_bin_local_indices enc seed k2 (m_per_bin big_m b) /\
  hash_key_cpp (aes_words enc seed) (m_per_bin big_m b) k1 = hash_key_cpp (aes_words enc seed) (m_per_bin big_m b) k2.
Proof.
  set (f := fun n : nat => let k := N.of_nat n in let b := get_bin_index enc seed k in
     (b, (get_bin_local_indices enc seed k (m_per_bin big_m b),
          hash_key_cpp (aes_words enc seed) (m_per_bin big_m b) k))).
  destruct (pigeonhole row_dec f (list_prod (seq 0 1024) (list_prod (tri 264) (tri 264))) (N.to_nat two64)) as [p [q [H1 H2]]].
  - intros k. unfold f. cbv zeta. apply in_prod; [apply in_seq; pose proof (get_bin_lt enc seed (N.of_nat k)) as G; unfold NUM_BINS in G; lia|].
    pose proof (m_per_bin_pos big_m (get_bin_index enc seed (N.of_nat k)) big_m_ge) as P.
    apply in_prod; (eapply in_tri; [|apply big_m_bin]); [apply bin_local_range, P|apply row_cpp_range, P].
  - pose proof (cod_length 1024 264) as K. remember (length _) as X eqn:EX. clear EX.
    assert (B : (N.of_nat X < two64)%N) by (rewrite K; vm_compute; reflexivity). lia.
  - exists (N.of_nat p), (N.of_nat q). split; [split; lia|].
    unfold f in H2. cbv zeta in *. apply pair_equal_spec in H2; destruct H2 as [E1 H2]; apply pair_equal_spec in H2; destruct H2 as [E2 E3]. rewrite <- E1 in E2, E3. split; [symmetry; exact E1|]. split; [exact E2|exact E3].
Qed.

(** A list of n distinct 64-bit keys starting with two given ones. *)
Lemma fill_keys k1 k2 n : (k1 < k2 /\ k2 < two64)%N -> (N.of_nat n < 2 ^ 32)%N -> 2 <= n ->
  exists rest, let keys := k1 :: k2 :: rest in
    length keys = n /\ NoDup keys /\ forall k, In k keys -> (k < two64)%N.
Proof.
  intros [H1 H2] Hn Hn2.
  set (f := filter (fun k => negb (N.eqb k k1) && negb (N.eqb k k2)) (map N.of_nat (seq 0 n))).
  assert (Hnd : NoDup (map N.of_nat (seq 0 n))).
  { apply FinFun.Injective_map_NoDup; [intros a b; apply Nat2N.inj|apply seq_NoDup]. }
  assert (HL : n <= length (k1 :: k2 :: f)).
  { rewrite <- (seq_length n 0), <- (map_length N.of_nat). apply NoDup_incl_length; [exact Hnd|].
    intros k Hk. destruct (N.eqb_spec k k1) as [->|E1]; [left; reflexivity|].
    destruct (N.eqb_spec k k2) as [->|E2]; [right; left; reflexivity|].
    right; right. apply filter_In. split; [exact Hk|]. destruct (N.eqb_spec k k1), (N.eqb_spec k k2); congruence || reflexivity. }
  assert (HN : NoDup (k1 :: k2 :: f)).
  { constructor; [intros [E|Hi]; [lia|apply filter_In in Hi; destruct Hi as [_ Hi]; rewrite N.eqb_refl in Hi; discriminate]|].
    constructor; [intros Hi; apply filter_In in Hi; destruct Hi as [_ Hi]; rewrite N.eqb_refl, andb_false_r in Hi; discriminate|].
    apply NoDup_filter, Hnd. }
  exists (firstn (n - 2) f). cbv zeta. cbn [length] in *.
  assert (EL : length (firstn (n - 2) f) = n - 2) by (rewrite firstn_length; lia).
  split; [lia|]. split.
  - rewrite <- (firstn_skipn (n - 2) f) in HN. change (k1 :: k2 :: firstn (n - 2) f ++ skipn (n - 2) f) with
      ((k1 :: k2 :: firstn (n - 2) f) ++ skipn (n - 2) f) in HN.
    remember (k1 :: k2 :: firstn (n - 2) f) as A eqn:EA. clear - HN.
    induction A as [|a A IH]; [constructor|]. cbn in HN. inversion HN as [|? ? Hn1 Hn2]; subst.
    constructor; [intros Hi; apply Hn1; apply in_or_app; left; exact Hi|apply IH; exact Hn2].
  - intros k [<-|[<-|Hk]]; [lia|lia|].
    assert (Hk' : In k f) by (rewrite <- (firstn_skipn (n - 2) f); apply in_or_app; left; exact Hk).
    apply filter_In in Hk'. destruct Hk' as [Hk' _]. apply in_map_iff in Hk'. destruct Hk' as [x [<- Hx]].
    apply in_seq in Hx. unfold two64. lia.
Qed.

Lemma two_first_stop (r : row) (tl rows : list row) : rows = r :: r :: tl -> exists S, stopping_set rows S.
Proof.
  intros ->. exists (mask2 (length (r :: r :: tl)) 0 1). apply two_rows_stop; [cbn; lia|]. reflexivity.
Qed.
Local Opaque big_m m_per_bin.

Lemma native_path_silently_wrong enc seed : exists keys values,
  length keys = big_n /\ length values = big_n /\ NoDup keys /\ (forall k, In k keys -> (k < two64)%N) /\
  okvs_decode_opt_native enc seed keys (okvs_solve_opt_native enc seed keys values big_m) big_m <> values.
Proof.
  destruct (colliding_keys enc seed) as [k1 [k2 [Hk [Eb [El Eg]]]]].
  destruct (fill_keys k1 k2 big_n Hk) as [rest [HL [HN HR]]]; [unfold big_n; lia|unfold big_n; lia|].
  exists (k1 :: k2 :: rest), (1%N :: 0%N :: repeat 0%N (length rest)).
  split; [exact HL|]. split; [cbn [length] in *; rewrite repeat_length; exact HL|]. split; [exact HN|]. split; [exact HR|].
  unfold okvs_decode_opt_native, okvs_solve_opt_native. rewrite HL.
  assert (U : uses_binned_kernel true big_n big_m = true) by reflexivity.
  rewrite U. unfold decode_okvs_opt. set (store := solve_okvs_opt _ _ _ _ _).
  cbn [map]. intros E. assert (E0 : decode_opt_key enc seed store big_m k1 = 1%N) by congruence. clear E.
  revert E0. unfold decode_opt_key. set (b := get_bin_index enc seed k1) in *.
  set (items := combine (k1 :: k2 :: rest) (1%N :: 0%N :: repeat 0%N (length rest))) in *.
  destruct (get_bin_local_indices enc seed k1 (m_per_bin big_m b)) as [[h1 h2] h3] eqn:Er.
  pose proof (bin_local_range enc seed k1 (m_per_bin big_m b) (m_per_bin_pos big_m b big_m_ge)) as HR'.
  rewrite Er in HR'. destruct HR' as [R1 [R2 R3]].
  assert (C : forall h, h < m_per_bin big_m b ->
    nth (bin_offset big_m b + h) store 0%N = nth h (bin_segment enc seed items big_m b) 0%N).
  { intros h Hh. unfold store, solve_okvs_opt. fold items. apply (concat_nth _ (m_per_bin big_m) (bin_offset big_m)); try reflexivity.
    - intros b'. apply bin_segment_length, big_m_ge.
    - apply get_bin_lt.
    - exact Hh. }
  rewrite !C by assumption. clear C.
  assert (EB : exists tl, bin_items enc seed items b = (k1, 1%N) :: (k2, 0%N) :: tl).
  { unfold bin_items, items. cbn [combine filter fst]. fold b. rewrite Eb, Nat.eqb_refl. eexists. reflexivity. }
  destruct EB as [tl EB].
  assert (Z : bin_segment enc seed items big_m b = repeat 0%N (m_per_bin big_m b)).
  { unfold bin_segment. rewrite EB. unfold solve_bin.
    destruct (solve_rows_cases (map (fun kv => get_bin_local_indices enc seed (fst kv) (m_per_bin big_m b)) ((k1, 1%N) :: (k2, 0%N) :: tl))
       (map snd ((k1, 1%N) :: (k2, 0%N) :: tl)) (m_per_bin big_m b)) as [[out [_ [_ [_ HNS]]]]|[H1 _]].
    - apply Forall_forall. intros r Hr. apply in_map_iff in Hr. destruct Hr as [x [<- _]].
      apply bin_local_range, m_per_bin_pos, big_m_ge.
    - now rewrite !map_length.
    - exfalso. edestruct (two_first_stop (h1, h2, h3)) as [S HS]; [|exact (HNS S HS)].
      cbn [map fst]. rewrite <- El, Er. reflexivity.
    - rewrite H1. destruct (cpp_cases (aes_words enc seed) (map fst ((k1, 1%N) :: (k2, 0%N) :: tl))
         (map snd ((k1, 1%N) :: (k2, 0%N) :: tl)) (m_per_bin big_m b)) as [[_ [_ HNS]]|[G _]].
      + now rewrite !map_length.
      + intros _. apply m_per_bin_pos, big_m_ge.
      + exfalso. edestruct (two_first_stop (hash_key_cpp (aes_words enc seed) (m_per_bin big_m b) k1)) as [S HS]; [|exact (HNS S HS)].
        cbn [map fst]. rewrite <- Eg. reflexivity.
      + exact G. }
  rewrite Z, !nth_repeat_lt by assumption. discriminate.
Qed.
