(** C171, C172: the field operations touch only their arguments and return what their types announce. *)
From Coq Require Import NArith List Arith Bool Lia.
From Verif Require Import FieldOpsModel.
Import ListNotations.

(** an array with as many elements as its shape says *)
Definition array (a : arr) : Prop := length (elems a) = size (shape a).

Lemma gather_all : forall (A B : Type) (f : A -> option B) (g : A -> B) l, (forall x, In x l -> f x = Some (g x)) -> gather f l = Some (map g l).
Proof. induction l as [|x l IH]; intros H; cbn; [reflexivity|]. rewrite H by (left; reflexivity). rewrite IH by (intros; apply H; right; assumption). reflexivity. Qed.
Lemma gather_none : forall (A B : Type) (f : A -> option B) l x, In x l -> f x = None -> gather f l = None.
Proof. induction l as [|y l IH]; intros x Hx H; [destruct Hx|]. destruct Hx as [->|Hx]; cbn; [rewrite H; reflexivity|]. destruct (f y); [|reflexivity]. rewrite (IH x Hx H). reflexivity. Qed.
Definition blk (b : list N) (i : nat) : N * N := (nth (2 * i) b 0%N, nth (2 * i + 1) b 0%N).
Lemma block_some : forall b i, 2 * i + 1 < length b -> block b i = Some (blk b i).
Proof.
  intros b i Hi. unfold block, blk. rewrite (nth_error_nth' b 0%N) by lia. rewrite (nth_error_nth' b 0%N) by lia. reflexivity.
Qed.
Lemma flat_length : forall l, length (flat l) = 2 * length l.
Proof. induction l as [|p l IH]; [reflexivity|]. cbn [flat flat_map app length]. cbn [flat] in IH. unfold flat in IH. rewrite IH. lia. Qed.
Lemma array_ok : forall d s l, length l = size s -> array (Arr d s l).
Proof. intros. assumption. Qed.

Lemma block_none b i : length b <= 2 * i + 1 -> block b i = None.
Proof.
  intros H. unfold block. assert (E : nth_error b (2 * i + 1) = None) by (apply nth_error_None; exact H).
  rewrite E. destruct (nth_error b (2 * i)); reflexivity.
Qed.

(** field.mul of two arrays of field elements of the same shape: both implementations return, without
    reading beyond the arguments, the array of the products, of the announced type. *)
Theorem C171_mul :
  forall K a b, array a -> array b -> shape a = shape b -> dt a = U64 -> (exists n, size (shape a) = 2 * n) ->
  exists r, mul_native K a b = Done r /\ mul_python K a b = Done r /\ array r /\ ty_of r = mul_ty (ty_of a) (ty_of b) /\
  forall i, 2 * i < size (shape a) -> block (elems r) i = Some (k_mul K (blk (elems a) i) (blk (elems b) i)).
Proof.
  intros K a b Ha Hb Hs Hd [n Hn]. unfold array in *. rewrite <- Hs in Hb.
  assert (Hdiv : length (elems a) / 2 = n) by (rewrite Ha, Hn, Nat.mul_comm; apply Nat.div_mul; lia).
  exists (Arr U64 (shape a) (flat (map (fun i => k_mul K (blk (elems a) i) (blk (elems b) i)) (seq 0 n)))).
  assert (Hg : gather (fun i => match block (elems a) i, block (elems b) i with Some x, Some y => Some (k_mul K x y) | _, _ => None end) (seq 0 n) =
    Some (map (fun i => k_mul K (blk (elems a) i) (blk (elems b) i)) (seq 0 n))).
  { apply gather_all. intros i Hi. apply in_seq in Hi. rewrite !block_some by lia. reflexivity. }
  split; [|split; [|split; [|split]]].
  - unfold mul_native. cbv zeta. rewrite Hdiv, Hg. do 2 f_equal. rewrite Ha, Hn, Nat.sub_diag. cbn. rewrite app_nil_r. reflexivity.
  - unfold mul_python. rewrite Hdiv, Hg, Hd, Ha, Hb, Hn. rewrite Nat.odd_mul. cbn [Nat.odd Nat.even negb andb orb]. reflexivity.
  - cbn [array elems shape]. unfold array. cbn [elems shape]. rewrite flat_length, map_length, seq_length. lia.
  - unfold ty_of, mul_ty. cbn. rewrite Hd. reflexivity.
  - intros i Hi. cbn [elems]. rewrite block_some by (rewrite flat_length, map_length, seq_length; lia). f_equal.
    assert (Hf : forall l (d : N * N) j, j < length l -> blk (flat l) j = nth j l d).
    { clear. induction l as [|p l IH]; intros d j Hj; [cbn in Hj; lia|]. destruct j as [|j]; [destruct p; reflexivity|].
      unfold blk. replace (2 * S j) with (S (S (2 * j))) by lia. cbn [flat flat_map app nth plus]. apply IH. cbn in Hj. lia. }
    rewrite (Hf _ (k_mul K (blk (elems a) 0) (blk (elems b) 0))) by (rewrite map_length, seq_length; lia).
    rewrite (map_nth (fun i => k_mul K (blk (elems a) i) (blk (elems b) i))), seq_nth by lia. reflexivity.
Qed.
Print Assumptions C171_mul.

(** decode_okvs of n keys and a store of m > 0 rows, when the hash stays below m *)
Theorem C171_decode_okvs :
  forall K keys storage seed n m t, array keys -> array storage -> array seed ->
  shape keys = [n] -> shape storage = [m; 2] -> dt storage = U64 -> 2 <= size (shape seed) ->
  (forall s k, let '(a, b, c) := k_hash K s m k in a < m /\ b < m /\ c < m) ->
  decode_ty (ty_of keys) (ty_of storage) = Some t ->
  exists r, decode_native K keys storage seed = Done r /\ array r /\ ty_of r = t.
Proof.
  intros K keys storage seed n m t Hk Hst Hse Ek Est Hd Hs Hh Ht. unfold array in *.
  unfold decode_ty, ty_of in Ht. rewrite Ek, Hd in Ht. cbn in Ht. injection Ht as <-.
  unfold decode_native. rewrite Ek, Est. rewrite <- Hse in Hs. destruct (elems seed) as [|s0 [|s1 rest]]; cbn in Hs; try lia.
  rewrite Ek in Hk. cbn in Hk. rewrite Nat.mul_1_r in Hk. rewrite Est in Hst. cbn [size fold_right] in Hst.
  erewrite gather_all.
  - eexists. split; [reflexivity|]. unfold array. cbn [elems shape]. rewrite flat_length, map_length, seq_length. split; [cbn; lia|reflexivity].
  - intros i Hi. apply in_seq in Hi. rewrite (nth_error_nth' (elems keys) 0%N) by lia.
    specialize (Hh (s0, s1) (nth i (elems keys) 0%N)).
    instantiate (1 := fun i => let '(h1, h2, h3) := k_hash K (s0, s1) m (nth i (elems keys) 0%N) in
      (N.lxor (N.lxor (fst (blk (elems storage) h1)) (fst (blk (elems storage) h2))) (fst (blk (elems storage) h3)),
       N.lxor (N.lxor (snd (blk (elems storage) h1)) (snd (blk (elems storage) h2))) (snd (blk (elems storage) h3)))).
    cbv beta. destruct (k_hash K (s0, s1) m (nth i (elems keys) 0%N)) as [[h1 h2] h3]. rewrite !block_some by lia. reflexivity.
Qed.
Print Assumptions C171_decode_okvs.

(** ldpc_encode with a matrix whose row ranges and columns lie inside its arrays and the message *)
Theorem C171_ldpc_encode :
  forall message indices indptr m n, array message -> shape message = [n; 2] -> dt message = U64 ->
  m < length (elems indptr) ->
  (forall i, i < m -> N.to_nat (nth (i + 1) (elems indptr) 0%N) <= length (elems indices)) ->
  (forall c, In c (elems indices) -> N.to_nat c < n) ->
  exists r, ldpc_native message indices indptr m = Done r /\ array r /\ ty_of r = ldpc_ty (ty_of message) m.
Proof.
  intros message indices indptr m n Hm Es Hd Hp Hr Hc. unfold array in *. rewrite Es in Hm. cbn [size fold_right] in Hm.
  unfold ldpc_native. erewrite gather_all.
  - eexists. split; [reflexivity|]. unfold array. cbn [elems shape]. rewrite flat_length, map_length, seq_length.
    split; [cbn; lia|]. unfold ty_of, ldpc_ty; cbn; rewrite Hd; reflexivity.
  - intros i Hi. apply in_seq in Hi. rewrite (nth_error_nth' (elems indptr) 0%N) by lia. rewrite (nth_error_nth' (elems indptr) 0%N) by lia.
    set (s := N.to_nat (nth i (elems indptr) 0%N)). set (e := N.to_nat (nth (i + 1) (elems indptr) 0%N)).
    assert (He : e <= length (elems indices)) by (apply Hr; lia).
    erewrite (gather_all _ _ _ (fun k => blk (elems message) (N.to_nat (nth k (elems indices) 0%N))) (seq s (e - s))).
    + instantiate (1 := fun i => fold_left xor2 (map (fun k => blk (elems message) (N.to_nat (nth k (elems indices) 0%N)))
        (seq (N.to_nat (nth i (elems indptr) 0%N)) (N.to_nat (nth (i + 1) (elems indptr) 0%N) - N.to_nat (nth i (elems indptr) 0%N)))) (0, 0)%N).
      reflexivity.
    + intros k Hk. apply in_seq in Hk. rewrite (nth_error_nth' (elems indices) 0%N) by lia.
      apply block_some. specialize (Hc (nth k (elems indices) 0%N)). assert (In (nth k (elems indices) 0%N) (elems indices)) by (apply nth_In; lia). specialize (Hc H). lia.
Qed.
Print Assumptions C171_ldpc_encode.

(** and the value of every row: the xor, limb by limb, of the blocks the row selects *)
Definition xor_all (l : list N) : N := fold_right N.lxor 0%N l.
Definition row_blocks (message indices indptr : list N) (i : nat) : list (N * N) :=
  let first := N.to_nat (nth i indptr 0%N) in let last := N.to_nat (nth (i + 1) indptr 0%N) in
  map (fun k => blk message (N.to_nat (nth k indices 0%N))) (seq first (last - first)).
Lemma flat_blk : forall l (d : N * N) j, j < length l -> blk (flat l) j = nth j l d.
Proof.
  induction l as [|p l IH]; intros d j Hj; [cbn in Hj; lia|]. destruct j as [|j]; [destruct p; reflexivity|].
  unfold blk. replace (2 * S j) with (S (S (2 * j))) by lia. cbn [flat flat_map app nth plus]. apply IH. cbn in Hj. lia.
Qed.
Lemma fold_xor2 : forall l a b, fold_left xor2 l (a, b) = (N.lxor a (xor_all (map fst l)), N.lxor b (xor_all (map snd l))).
Proof.
  induction l as [|[x y] l IH]; intros a b; [cbn; rewrite !N.lxor_0_r; reflexivity|]. cbn [fold_left map xor_all fold_right fst snd].
  change (xor2 (a, b) (x, y)) with (N.lxor a x, N.lxor b y). rewrite IH, !N.lxor_assoc. reflexivity.
Qed.
Theorem C171_ldpc_values :
  forall message indices indptr m n, array message -> shape message = [n; 2] -> dt message = U64 ->
  m < length (elems indptr) ->
  (forall i, i < m -> N.to_nat (nth (i + 1) (elems indptr) 0%N) <= length (elems indices)) ->
  (forall c, In c (elems indices) -> N.to_nat c < n) ->
  exists r, ldpc_native message indices indptr m = Done r /\
  forall i, i < m -> let sel := row_blocks (elems message) (elems indices) (elems indptr) i in
    nth (2 * i) (elems r) 0%N = xor_all (map fst sel) /\ nth (2 * i + 1) (elems r) 0%N = xor_all (map snd sel).
Proof.
  intros message indices indptr m n Hm Es Hd Hp Hr Hc. unfold array in *. rewrite Es in Hm. cbn [size fold_right] in Hm.
  unfold ldpc_native. rewrite (gather_all _ _ _ (fun i => fold_left xor2 (row_blocks (elems message) (elems indices) (elems indptr) i) (0, 0)%N)).
  - eexists. split; [reflexivity|]. intros i Hi. cbv zeta. cbn [elems].
    pose proof (flat_blk (map (fun i => fold_left xor2 (row_blocks (elems message) (elems indices) (elems indptr) i) (0, 0)%N) (seq 0 m))
      (fold_left xor2 (row_blocks (elems message) (elems indices) (elems indptr) 0) (0, 0)%N) i) as B.
    rewrite map_length, seq_length in B. specialize (B Hi).
    rewrite (map_nth (fun i => fold_left xor2 (row_blocks (elems message) (elems indices) (elems indptr) i) (0, 0)%N)), seq_nth in B by lia.
    rewrite fold_xor2, !N.lxor_0_l in B. cbn [plus] in B. unfold blk in B. injection B as B1 B2. auto.
  - intros i Hi. apply in_seq in Hi. rewrite (nth_error_nth' (elems indptr) 0%N) by lia. rewrite (nth_error_nth' (elems indptr) 0%N) by lia.
    assert (He : N.to_nat (nth (i + 1) (elems indptr) 0%N) <= length (elems indices)) by (apply Hr; lia).
    rewrite (gather_all _ _ _ (fun k => blk (elems message) (N.to_nat (nth k (elems indices) 0%N)))).
    + reflexivity.
    + intros k Hk. apply in_seq in Hk. rewrite (nth_error_nth' (elems indices) 0%N) by lia.
      apply block_some. specialize (Hc (nth k (elems indices) 0%N)). assert (In (nth k (elems indices) 0%N) (elems indices)) by (apply nth_In; lia). specialize (Hc H). lia.
Qed.
Print Assumptions C171_ldpc_values.

(** aes_expand of n seeds given as (n, 2) words or (n, 16) bytes *)
Lemma chunks_length : forall n k l, length (chunks n k l) = n.
Proof. induction n as [|n IH]; intros; cbn; [reflexivity|]. rewrite IH. reflexivity. Qed.
Theorem C171_aes_expand :
  forall K seeds len n t, array seeds ->
  (dt seeds = U64 /\ shape seeds = [n; 2]) \/ (dt seeds = U8 /\ shape seeds = [n; 16]) ->
  (forall s, length (k_expand K s len) = len) ->
  aes_ty (ty_of seeds) len = Some t ->
  exists r, aes_native K seeds len = Done r /\ array r /\ ty_of r = t.
Proof.
  intros K seeds len n t Ha Hs Hk Ht.
  assert (Hws : exists ws, length ws = 2 * n /\ aes_native K seeds len =
     match gather (fun i => match block ws i with None => None | Some s => Some (k_expand K s len) end) (seq 0 n) with
     | None => OutOfBounds | Some l => Done (Arr U64 [n; len; 2] (flat (concat l))) end).
  { unfold array in Ha. destruct Hs as [[Hd Es]|[Hd Es]]; rewrite Es in Ha; unfold aes_native; rewrite Es, Hd; cbn [size fold_right] in Ha.
    - exists (elems seeds). split; [lia|]. reflexivity.
    - exists (view64 (elems seeds)). split; [|reflexivity]. unfold view64. rewrite map_length, chunks_length, Ha.
      replace (n * (16 * 1)) with (2 * n * 8) by lia. apply Nat.div_mul. lia. }
  destruct Hws as [ws [Hl E]]. rewrite E.
  assert (Hty : t = (U64, [n; len; 2])) by (unfold aes_ty, ty_of in Ht; destruct Hs as [[_ Es]|[_ Es]]; rewrite Es in Ht; cbn in Ht; congruence).
  rewrite (gather_all _ _ _ (fun i => k_expand K (blk ws i) len)).
  - eexists. split; [reflexivity|]. split; [|subst t; reflexivity]. unfold array. cbn [elems shape]. rewrite flat_length.
    assert (Hc : forall l, length (concat (map (fun i => k_expand K (blk ws i) len) l)) = length l * len).
    { induction l as [|x l IH]; [reflexivity|]. cbn [map concat length]. rewrite app_length, IH, Hk. reflexivity. }
    rewrite Hc, seq_length. cbn [size fold_right]. lia.
  - intros i Hi. apply in_seq in Hi. rewrite block_some by lia. reflexivity.
Qed.
Print Assumptions C171_aes_expand.

(** the seeds expanded are the blocks of the argument, in order; seeds given as bytes are the
    little-endian bytes of the words *)
Theorem C171_aes_values :
  forall K ws len n, length ws = 2 * n ->
  aes_native K (Arr U64 [n; 2] ws) len = Done (Arr U64 [n; len; 2] (flat (concat (map (fun i => k_expand K (nth (2 * i) ws 0%N, nth (2 * i + 1) ws 0%N) len) (seq 0 n))))).
Proof.
  intros K ws len n Hl. unfold aes_native. cbn [shape rev app dt elems List.last Nat.eqb negb andb hd].
  rewrite (gather_all _ _ _ (fun i => k_expand K (blk ws i) len)); [reflexivity|].
  intros i Hi. apply in_seq in Hi. rewrite block_some by lia. reflexivity.
Qed.
Print Assumptions C171_aes_values.
Definition le_bytes (w : N) : list N := map (fun i => (w / 256 ^ N.of_nat i) mod 256)%N (seq 0 8).
Lemma word_bytes w : (w < 2 ^ 64)%N -> word (le_bytes w) = w.
Proof.
  intros Hw. unfold le_bytes. cbn [seq map word].
  assert (S0 : forall x, (x = x mod 256 + 256 * (x / 256))%N) by (intros x; pose proof (N.div_mod x 256); lia).
  change (256 ^ N.of_nat 0)%N with 1%N. rewrite N.div_1_r.
  assert (P : forall i, (w / 256 ^ N.of_nat (S i) = w / 256 ^ N.of_nat i / 256)%N).
  { intros i. rewrite N.div_div by (try apply N.pow_nonzero; discriminate). f_equal. rewrite Nat2N.inj_succ, N.pow_succ_r'. apply N.mul_comm. }
  rewrite !P. change (256 ^ N.of_nat 0)%N with 1%N. rewrite !N.div_1_r.
  set (a1 := (w / 256)%N). set (a2 := (a1 / 256)%N). set (a3 := (a2 / 256)%N). set (a4 := (a3 / 256)%N). set (a5 := (a4 / 256)%N). set (a6 := (a5 / 256)%N). set (a7 := (a6 / 256)%N).
  assert (E : (a7 / 256 = 0)%N).
  { unfold a7, a6, a5, a4, a3, a2, a1. rewrite !N.div_div by discriminate. apply N.div_small. exact Hw. }
  rewrite N.mul_0_r, N.add_0_r.
  pose proof (S0 w) as H0. pose proof (S0 a1) as H1. pose proof (S0 a2) as H2. pose proof (S0 a3) as H3.
  pose proof (S0 a4) as H4. pose proof (S0 a5) as H5. pose proof (S0 a6) as H6. pose proof (S0 a7) as H7.
  fold a1 in H0. fold a2 in H1. fold a3 in H2. fold a4 in H3. fold a5 in H4. fold a6 in H5. fold a7 in H6. rewrite E, N.mul_0_r, N.add_0_r in H7.
  rewrite <- H7, <- H6, <- H5, <- H4, <- H3, <- H2, <- H1, <- H0. reflexivity.
Qed.
Lemma view64_bytes ws : Forall (fun w => w < 2 ^ 64)%N ws -> view64 (flat_map le_bytes ws) = ws.
Proof.
  intros H. unfold view64. assert (L : length (flat_map le_bytes ws) = length ws * 8).
  { clear. induction ws as [|w ws IH]; [reflexivity|]. cbn [flat_map]. rewrite app_length, IH. reflexivity. }
  rewrite L, Nat.div_mul by lia. clear L. induction H as [|w ws Hw H IH]; [reflexivity|]. cbn [length flat_map chunks map].
  rewrite firstn_app, skipn_app. change (length (le_bytes w)) with 8. rewrite Nat.sub_diag, firstn_O, skipn_O, app_nil_r.
  change 8 with (length (le_bytes w)) at 1. rewrite firstn_all. change 8 with (length (le_bytes w)) at 2. rewrite skipn_all, app_nil_l, word_bytes by exact Hw. f_equal. exact IH.
Qed.
Theorem C171_aes_bytes :
  forall K ws len n, length ws = 2 * n -> Forall (fun w => w < 2 ^ 64)%N ws ->
  aes_native K (Arr U8 [n; 16] (flat_map le_bytes ws)) len = aes_native K (Arr U64 [n; 2] ws) len.
Proof.
  intros K ws len n Hl Hw. unfold aes_native. cbn [shape rev app dt elems List.last Nat.eqb negb andb hd]. rewrite view64_bytes by exact Hw. reflexivity.
Qed.
Print Assumptions C171_aes_bytes.
Example C171_bytes_example : length [513; 7]%N = 2 * 1 /\ Forall (fun w => w < 2 ^ 64)%N [513; 7]%N /\ le_bytes 513 = [1; 2; 0; 0; 0; 0; 0; 0]%N.
Proof. split; [reflexivity|]. split; [repeat constructor|reflexivity]. Qed.

Definition toy : kernels :=
  {| k_mul := fun x y => (N.land (fst x) (fst y), N.land (snd x) (snd y));
     k_hash := fun _ m k => (N.to_nat (k mod N.of_nat m)%N, 0, 0); k_expand := fun s len => repeat s len |}.
Example C171_example :
  mul_native toy (Arr U64 [1; 2] [5; 6]%N) (Arr U64 [1; 2] [3; 3]%N) = Done (Arr U64 [1; 2] [1; 2]%N) /\
  decode_native toy (Arr U64 [2] [4; 1]%N) (Arr U64 [3; 2] [1; 2; 4; 8; 16; 32]%N) (Arr U64 [2] [0; 0]%N) = Done (Arr U64 [2; 2] [4; 8; 4; 8]%N) /\
  ldpc_native (Arr U64 [2; 2] [1; 2; 4; 8]%N) (Arr U64 [3] [0; 1; 1]%N) (Arr U64 [3] [0; 2; 3]%N) 2 = Done (Arr U64 [2; 2] [5; 10; 4; 8]%N) /\
  aes_native toy (Arr U8 [1; 16] [1;0;0;0;0;0;0;0;2;0;0;0;0;0;0;0]%N) 2 = Done (Arr U64 [1; 2; 2] [1; 2; 1; 2]%N).
Proof. vm_compute. repeat split. Qed.

(** C172 (refuted): arguments that the announced types accept make the native kernels read memory
    beyond the arrays, where the Python kernels raise.  field.mul with fewer elements on the right: *)
Theorem C172_mul_reads_beyond_refuted :
  forall K a b, 2 * (length (elems a) / 2) > length (elems b) ->
  mul_native K a b = OutOfBounds /\ mul_python K a b = Raised.
Proof.
  intros K a b H. set (n := length (elems a) / 2) in *.
  assert (Hn : 0 < n) by lia.
  assert (Hg : gather (fun i => match block (elems a) i, block (elems b) i with Some x, Some y => Some (k_mul K x y) | _, _ => None end) (seq 0 n) = None).
  { apply gather_none with (x := n - 1); [apply in_seq; lia|]. destruct (block (elems a) (n - 1)); [|reflexivity].
    rewrite block_none by lia. reflexivity. }
  unfold mul_native, mul_python. fold n. cbv zeta. rewrite Hg. split; [reflexivity|]. destruct (_ || _); reflexivity.
Qed.
Print Assumptions C172_mul_reads_beyond_refuted.

(** aes_expand of one seed given as a vector of two words: *)
Theorem C172_aes_reads_beyond_refuted :
  forall K s0 s1 len, aes_ty (U64, [2]) len <> None /\ aes_native K (Arr U64 [2] [s0; s1]) len = OutOfBounds.
Proof. intros. split; [discriminate|reflexivity]. Qed.
Print Assumptions C172_aes_reads_beyond_refuted.

(** decode_okvs with a store given as a vector of m words, if the hash reaches the upper half: *)
Theorem C172_decode_reads_beyond_refuted :
  forall K k s0 s1 m words, length words = m -> (let '(a, _, _) := k_hash K (s0, s1) m k in m <= 2 * a + 1) ->
  decode_ty (U64, [1]) (U64, [m]) <> None /\ decode_native K (Arr U64 [1] [k]) (Arr U64 [m] words) (Arr U64 [2] [s0; s1]) = OutOfBounds.
Proof.
  intros K k s0 s1 m words Hl Hh. split; [discriminate|]. unfold decode_native. cbn [shape elems seq gather nth_error].
  destruct (k_hash K (s0, s1) m k) as [[a b] c]. rewrite (block_none words a) by lia. reflexivity.
Qed.
Print Assumptions C172_decode_reads_beyond_refuted.

(** ldpc_encode with a column index outside the message: *)
Theorem C172_ldpc_reads_beyond_refuted :
  forall message c, length (elems message) <= 2 * N.to_nat c + 1 ->
  ldpc_native message (Arr U64 [1] [c]) (Arr U64 [2] [0; 1]%N) 1 = OutOfBounds.
Proof.
  intros message c H. unfold ldpc_native. cbn [elems seq gather nth_error plus N.to_nat Pos.to_nat].
  change (Pos.to_nat 1) with 1. cbn [seq gather nth_error Nat.sub]. rewrite (block_none (elems message) (N.to_nat c)) by lia. reflexivity.
Qed.
Print Assumptions C172_ldpc_reads_beyond_refuted.

(** C172 (refuted): the announced type can be wrong: seeds of 4 words are two seeds at run time. *)
Theorem C172_announced_shape_refuted :
  forall K n len words, 0 < n -> length words = n * 4 -> (forall s, length (k_expand K s len) = len) ->
  exists r t, aes_native K (Arr U64 [n; 4] words) len = Done r /\ aes_ty (U64, [n; 4]) len = Some t /\ ty_of r <> t /\ shape r = [2 * n; len; 2].
Proof.
  intros K n len words Hn Hl Hk. unfold aes_native. cbn [shape elems dt rev app List.last Nat.eqb negb andb].
  assert (Ho : Nat.odd (length words) = false) by (rewrite Hl; rewrite Nat.odd_mul; cbn; apply andb_false_r). rewrite Ho.
  assert (Hd : length words / 2 = 2 * n) by (rewrite Hl; replace (n * 4) with (2 * n * 2) by lia; apply Nat.div_mul; lia). rewrite Hd.
  rewrite (gather_all _ _ _ (fun i => k_expand K (blk words i) len)) by (intros i Hi; apply in_seq in Hi; rewrite block_some by lia; reflexivity).
  eexists. eexists. split; [reflexivity|]. split; [reflexivity|]. split; [|reflexivity]. unfold ty_of. cbn. intros E. injection E. lia.
Qed.
Print Assumptions C172_announced_shape_refuted.
