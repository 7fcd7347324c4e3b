(** Property theorems about private set intersection (C12, C60). *)
From Coq Require Import List NArith ZArith Bool Lia.
From Verif Require Import MPCBase OTModel OTSpec OTExample GF128Spec GF128Model GF128Field GF128Proofs OKVSSpec OKVSModel
  OKVSHash OKVSProofs VOLEModel VOLESpec VOLEProofs VOLEProofs2 PSIModel PSIProofs MPCProps.
Import ListNotations.
Local Open Scope nat_scope.

(** What the parties draw is well formed: base OT draws, 64-bit words. *)
Definition psi_rand_ok (R : psi_rand) : Prop :=
  iknp_rand_ok (ps_iknp R) /\ word_pair (ps_delta R) /\ all_words (ps_u R).
Definition items64 (l : list N) : Prop := Forall (fun x => x < 2 ^ 64)%N l.
(** decoding one key *)
Definition decodes_to lib aes (seed : N * N) (M : nat) (store : list N) (x : N) (d : N * N) : Prop :=
  okvs_dec lib aes seed [x] store M = Some [join d] /\ word_pair d.

Lemma mask_at X tags local j : j < length local ->
  nth j (member_mask (map (tag_hash X) tags) (map (tag_hash X) local)) 0%N =
  if existsb (fun r => if list_eq_dec N.eq_dec r (tag_hash X (entry local j)) then true else false) (map (tag_hash X) tags)
  then 1%N else 0%N.
Proof.
  intros H. unfold member_mask. rewrite map_map.
  match goal with |- nth j (map ?f local) _ = _ => rewrite (nth_map_in f local j (0, 0)%N 0%N) by exact H end.
  reflexivity.
Qed.
Lemma mask_one X tags local j : j < length local ->
  (nth j (member_mask (map (tag_hash X) tags) (map (tag_hash X) local)) 0%N = 1%N <->
   exists i, i < length tags /\ tag_hash X (entry tags i) = tag_hash X (entry local j)).
Proof.
  intros H. rewrite mask_at by exact H. split.
  - intros E. destruct (existsb _ _) eqn:EX; [|discriminate]. apply existsb_exists in EX.
    destruct EX as (r & Hr & E1). destruct (list_eq_dec _ r _) as [->|]; [|discriminate].
    apply (In_nth _ _ (tag_hash X (0, 0)%N)) in Hr. destruct Hr as (i & Hi & Ei). rewrite map_length in Hi.
    rewrite map_nth in Ei. exists i. auto.
  - intros (i & Hi & E). destruct (existsb _ _) eqn:EX; [reflexivity|]. exfalso.
    apply Bool.not_true_iff_false in EX. apply EX. apply existsb_exists. exists (tag_hash X (entry tags i)). split.
    + apply in_map. unfold entry. apply nth_In, Hi.
    + destruct (list_eq_dec _ _ _) as [|N0]; [reflexivity|]. destruct (N0 E).
Qed.
Lemma mask_len X tags local : length (member_mask (map (tag_hash X) tags) (map (tag_hash X) local)) = length local.
Proof. unfold member_mask. rewrite !map_length. reflexivity. Qed.

Lemma tags_equal X (OKX : env_ok X) lib aes base_k M n xs ys R o :
  psi_rand_ok R -> items64 xs -> items64 ys ->
  psi_run X lib aes base_k M n xs ys R = Some o ->
  (lib = true -> forall S, ~ stopping_set (map (rowof lib aes (ps_seed R) M) ys) S) ->
  forall i j, i < n -> j < n -> nth i xs 0%N = nth j ys 0%N -> entry (po_tags o) i = entry (po_local o) j.
Proof.
  intros (HR & Hd & Hu) Hx Hy H Hns i j Hi Hj E.
  destruct (psi_tags X OKX lib aes base_k M n xs ys R o HR Hd Hu Hx Hy H)
    as (HM & Hn & Lx & Ly & Lt & Ll & Ls & Ss & Lv & Wv & HP & HT & HL & Hm).
  rewrite HT, HL by assumption. rewrite E. set (y := nth j ys 0%N).
  destruct (encode_decodes lib aes (ps_seed R) ys _ M _ HM (map_length _ _) Hns HP) as [_ HD].
  assert (decode_row (po_store o) (rowof lib aes (ps_seed R) M y) = join (item_hash X y)) as D1.
  { apply (f_equal (fun l => nth j l 0%N)) in HD.
    rewrite (nth_map_in _ ys j 0%N 0%N) in HD by lia. rewrite (nth_map_in _ ys j 0%N 0%N) in HD by lia. exact HD. }
  assert (word_pair (item_hash X y)) as Wh.
  { apply (item_hash_wp X OKX). apply (proj1 (Forall_forall _ _) Hy), nth_In. lia. }
  rewrite D1, split_join by exact Wh. rewrite xp_nil, mul_0_l by exact Hd. apply xp_0_r.
Qed.

(** C12: with the Python kernels, whenever the protocol completes the mask has one entry per
    receiver item, it is 1 for every receiver item the sender also holds, and the two tags of
    a common item are equal: for every set, every table size, every draw of both parties. *)
Theorem C12_common_items_are_marked :
  forall X aes base_k M n xs ys R mask, env_ok X -> psi_rand_ok R -> items64 xs -> items64 ys ->
  psi_intersect X false aes base_k M n xs ys R = Some mask ->
  length mask = n /\
  forall j, j < n -> In (nth j ys 0%N) xs -> nth j mask 0%N = 1%N.
Proof.
  intros X aes base_k M n xs ys R mask OKX HR Hx Hy H. unfold psi_intersect in H. apply bind_Some in H.
  destruct H as (o & H & E). injection E as <-. pose proof HR as (HR1 & Hd & Hu).
  destruct (psi_tags X OKX false aes base_k M n xs ys R o HR1 Hd Hu Hx Hy H)
    as (HM & Hn & Lx & Ly & Lt & Ll & Ls & Ss & Lv & Wv & HP & HT & HL & Hm).
  rewrite Hm. split; [rewrite mask_len; exact Ll|]. intros j Hj Hin.
  apply (In_nth _ _ 0%N) in Hin. destruct Hin as (i & Hi & Ei).
  apply mask_one; [lia|]. exists i. split; [lia|]. f_equal.
  apply (tags_equal X OKX false aes base_k M n xs ys R o HR Hx Hy H); [discriminate|lia|exact Hj|exact Ei].
Qed.
Print Assumptions C12_common_items_are_marked.

(** C111: the same with the native kernels (their product is not the field product, but it is
    bilinear), provided the receiver's items can be peeled. *)
Theorem C111_native_common_items_are_marked_partial :
  forall X aes base_k M n xs ys R mask, env_ok X -> psi_rand_ok R -> items64 xs -> items64 ys ->
  (forall S, ~ stopping_set (map (hash_key_cpp (aes (ps_seed R)) M) ys) S) ->
  psi_intersect X true aes base_k M n xs ys R = Some mask ->
  length mask = n /\
  forall j, j < n -> In (nth j ys 0%N) xs -> nth j mask 0%N = 1%N.
Proof.
  intros X aes base_k M n xs ys R mask OKX HR Hx Hy Hns H. unfold psi_intersect in H. apply bind_Some in H.
  destruct H as (o & H & E). injection E as <-. pose proof HR as (HR1 & Hd & Hu).
  destruct (psi_tags X OKX true aes base_k M n xs ys R o HR1 Hd Hu Hx Hy H)
    as (HM & Hn & Lx & Ly & Lt & Ll & Ls & Ss & Lv & Wv & HP & HT & HL & Hm).
  rewrite Hm. split; [rewrite mask_len; exact Ll|]. intros j Hj Hin.
  apply (In_nth _ _ 0%N) in Hin. destruct Hin as (i & Hi & Ei).
  apply mask_one; [lia|]. exists i. split; [lia|]. f_equal.
  apply (tags_equal X OKX true aes base_k M n xs ys R o HR Hx Hy H); [intros _; exact Hns|lia|exact Hj|exact Ei].
Qed.
Print Assumptions C111_native_common_items_are_marked_partial.

(** C12: what the tags are.  dP and dV are the decodings of the sender's item from the
    receiver's store and from its VOLE share; the receiver's own tag for an item is its dV.
    The sender's tag is dV + (dP + h(x)) * Delta, the product taken in GF(2^128). *)
Theorem C12_sender_tag_offset :
  forall X aes base_k M n xs ys R o, env_ok X -> psi_rand_ok R -> items64 xs -> items64 ys ->
  psi_run X false aes base_k M n xs ys R = Some o ->
  (forall i, i < n -> exists dP dV prod,
     decodes_to false aes (ps_seed R) M (po_store o) (nth i xs 0%N) dP /\
     decodes_to false aes (ps_seed R) M (map join (po_v o)) (nth i xs 0%N) dV /\
     word_pair prod /\
     is_product (join (xor_pair dP (item_hash X (nth i xs 0%N)))) (join (ps_delta R)) (join prod) /\
     entry (po_tags o) i = xor_pair dV prod) /\
  (forall j, j < n -> decodes_to false aes (ps_seed R) M (map join (po_v o)) (nth j ys 0%N) (entry (po_local o) j)).
Proof.
  intros X aes base_k M n xs ys R o OKX (HR & Hd & Hu) Hx Hy H.
  destruct (psi_tags X OKX false aes base_k M n xs ys R o HR Hd Hu Hx Hy H)
    as (HM & Hn & Lx & Ly & Lt & Ll & Ls & Ss & Lv & Wv & HP & HT & HL & Hm).
  assert (Forall small (map join (po_v o))) as SV.
  { apply Forall_forall. intros z Hz. apply in_map_iff in Hz. destruct Hz as (e & <- & He).
    apply (In_nth _ _ (0, 0)%N) in He. destruct He as (j & _ & <-). apply join_lt, Wv. }
  assert (forall S x, Forall small S ->
            decodes_to false aes (ps_seed R) M S x (split128 (decode_row S (rowof false aes (ps_seed R) M x)))) as DT.
  { intros S x HS. pose proof (decode_row_small S (rowof false aes (ps_seed R) M x) HS) as B. split.
    - rewrite okvs_dec_value by exact HM. cbn [map]. rewrite join_split by exact B. reflexivity.
    - apply split_word_pair, B. }
  split.
  - intros i Hi. pose proof (DT _ (nth i xs 0%N) Ss) as D1. pose proof (DT _ (nth i xs 0%N) SV) as D2.
    do 2 eexists. exists (gf128_mul_single (xor_pair (split128 (decode_row (po_store o) (rowof false aes (ps_seed R) M (nth i xs 0%N))))
                                     (item_hash X (nth i xs 0%N))) (ps_delta R)).
    split; [exact D1|]. split; [exact D2|].
    assert (word_pair (item_hash X (nth i xs 0%N))) as Wh
      by (apply (item_hash_wp X OKX), (proj1 (Forall_forall _ _) Hx), nth_In; lia).
    pose proof (gf128_mul_single_correct _ _ (xor_pair_wp _ _ (proj2 D1) Wh) Hd) as (A & B).
    split; [exact A|]. split; [exact B|]. exact (HT i Hi).
  - intros j Hj. rewrite HL by exact Hj. apply DT, SV.
Qed.
Print Assumptions C12_sender_tag_offset.

(** C12: so for a nonzero Delta, an item the receiver's store does not map to its hash value
    (any item not in the receiver's set, up to a 2^-128 accident) gets a tag different from
    the receiver's tag for it: the offset is a nonzero multiple of Delta. *)
Theorem C12_uncommon_items_get_different_tags :
  forall X aes base_k M n xs ys R o i dP dV, env_ok X -> psi_rand_ok R -> items64 xs -> items64 ys ->
  psi_run X false aes base_k M n xs ys R = Some o -> i < n -> ps_delta R <> (0, 0)%N ->
  decodes_to false aes (ps_seed R) M (po_store o) (nth i xs 0%N) dP -> dP <> item_hash X (nth i xs 0%N) ->
  decodes_to false aes (ps_seed R) M (map join (po_v o)) (nth i xs 0%N) dV ->
  entry (po_tags o) i <> dV.
Proof.
  intros X aes base_k M n xs ys R o i dP dV OKX HR Hx Hy H Hi HD [DP WP] NE [DV WV] EQ.
  pose proof (C12_sender_tag_offset X aes base_k M n xs ys R o OKX HR Hx Hy H) as [T _].
  destruct (T i Hi) as (dP' & dV' & p & [DP' WP'] & [DV' WV'] & Wp & PP & ET).
  assert (dP' = dP) as ->.
  { rewrite DP in DP'. injection DP' as E. rewrite <- (split_join dP WP), E, split_join by exact WP'. reflexivity. }
  assert (dV' = dV) as ->.
  { rewrite DV in DV'. injection DV' as E. rewrite <- (split_join dV WV), E, split_join by exact WV'. reflexivity. }
  assert (word_pair (item_hash X (nth i xs 0%N))) as Wh.
  { destruct (psi_tags X OKX false aes base_k M n xs ys R o (proj1 HR) (proj1 (proj2 HR)) (proj2 (proj2 HR)) Hx Hy H) as (_ & _ & Lx & _).
    apply (item_hash_wp X OKX), (proj1 (Forall_forall _ _) Hx), nth_In. lia. }
  set (h := item_hash X (nth i xs 0%N)) in *. set (delta := ps_delta R) in *.
  assert (word_pair delta) as Wd by apply HR.
  rewrite ET in EQ. assert (p = (0, 0)%N) as ->.
  { apply (f_equal (xor_pair dV)) in EQ. rewrite xp_assoc, xp_nil, xp_0_l in EQ. exact EQ. }
  pose proof (xor_pair_wp _ _ WP Wh) as Wx.
  apply (mul_single_unique _ _ _ Wx Wd) in PP.
  assert (gf128_mul_single (xor_pair dP h) delta = (0, 0)%N) as Z.
  { rewrite <- (split_join (gf128_mul_single (xor_pair dP h) delta)) by (apply mul_single_wp; assumption).
    rewrite <- PP. reflexivity. }
  destruct mul_single_ring as (_ & A & _ & U & INV).
  destruct (INV delta Wd HD) as (b & Wb & Eb).
  assert (xor_pair dP h = (0, 0)%N) as Z2.
  { destruct mul_single_ring as (CM & _). rewrite <- (U (xor_pair dP h) Wx), CM, <- Eb, A, Z; auto using wp_0.
    rewrite CM by auto using wp_0. pose proof (mul_0_r false b Wb) as F. exact F. }
  apply NE. apply (f_equal (xor_pair dP)) in Z2. rewrite xp_assoc, xp_nil, xp_0_l, xp_0_r in Z2. symmetry. exact Z2.
Qed.
Print Assumptions C12_uncommon_items_get_different_tags.

(** C111 (partial): no false positives beyond tag collisions.  If the truncated hash does not
    collide on the tags of this run, a receiver item is marked exactly when some tag of the sender equals its own. *)
Theorem C111_marked_iff_tags_equal_partial :
  forall X lib aes base_k M n xs ys R o, env_ok X -> psi_rand_ok R -> items64 xs -> items64 ys ->
  psi_run X lib aes base_k M n xs ys R = Some o ->
  (forall s t, In s (po_tags o) -> In t (po_local o) -> tag_hash X s = tag_hash X t -> s = t) ->
  forall j, j < n ->
    (nth j (po_mask o) 0%N = 1%N <-> In (entry (po_local o) j) (po_tags o)).
Proof.
  intros X lib aes base_k M n xs ys R o OKX (HR & Hd & Hu) Hx Hy H INJ j Hj.
  destruct (psi_tags X OKX lib aes base_k M n xs ys R o HR Hd Hu Hx Hy H)
    as (HM & Hn & Lx & Ly & Lt & Ll & Ls & Ss & Lv & Wv & HP & HT & HL & Hm).
  rewrite Hm, mask_one by lia. split.
  - intros (i & Hi & E). apply INJ in E; [|unfold entry; apply nth_In; lia..]. rewrite <- E. unfold entry. apply nth_In, Hi.
  - intros Hin. apply (In_nth _ _ (0, 0)%N) in Hin. destruct Hin as (i & Hi & E). exists i. split; [exact Hi|].
    unfold entry at 1. rewrite E. reflexivity.
Qed.
Print Assumptions C111_marked_iff_tags_equal_partial.

(** C111 (refuted for the native kernels): when the receiver's items cannot be peeled the
    native encoder returns an all-zero store without an error, and the sender's tag of a
    common item is off by h(x) * Delta. *)
Theorem C111_native_unpeelable_items_lose_tags_refuted :
  forall X aes base_k M n xs ys R o S, env_ok X -> psi_rand_ok R -> items64 xs -> items64 ys ->
  psi_run X true aes base_k M n xs ys R = Some o ->
  stopping_set (map (hash_key_cpp (aes (ps_seed R)) M) ys) S ->
  forall i j, i < n -> j < n -> nth i xs 0%N = nth j ys 0%N ->
    entry (po_tags o) i =
    xor_pair (entry (po_local o) j) (field_mul_impl true (item_hash X (nth i xs 0%N)) (ps_delta R)).
Proof.
  intros X aes base_k M n xs ys R o S OKX (HR & Hd & Hu) Hx Hy H HS i j Hi Hj E.
  destruct (psi_tags X OKX true aes base_k M n xs ys R o HR Hd Hu Hx Hy H)
    as (HM & Hn & Lx & Ly & Lt & Ll & Ls & Ss & Lv & Wv & HP & HT & HL & Hm).
  rewrite HT, HL by assumption. rewrite <- E. f_equal. f_equal.
  unfold okvs_encode in HP. injection HP as HP.
  destruct (cpp_cases (aes (ps_seed R)) ys (map (fun y => join (item_hash X y)) ys) M (map_length _ _) (fun _ => HM))
    as [[_ [_ F]]|[Z _]]; [destruct (F S HS)|].
  rewrite <- HP, Z. unfold decode_row, rowof. destruct (hash_key_cpp _ M _) as [[a b] c]. rewrite !nth_repeat.
  change (split128 (N.lxor (N.lxor 0 0) 0)) with (0, 0)%N. apply xp_0_l.
Qed.
Print Assumptions C111_native_unpeelable_items_lose_tags_refuted.

Definition ex_psi : psi_rand := PSIRand ex_u ex_delta (tab 32 N.of_nat) rand11 (11, 22)%N.
Definition ex_aes (seed : N * N) (k : N) : N * N := (fst seed + 77 * k, snd seed + 13 * k)%N.
Lemma ex_psi_ok : psi_rand_ok ex_psi.
Proof. destruct C09_example as (A & B & _). split; [exact rand11_ok|]. split; [exact A|exact B]. Qed.
Lemma items_small l : forallb (fun x => N.ltb x (2 ^ 64)) l = true -> items64 l.
Proof. intros H. apply Forall_forall. intros x Hx. apply N.ltb_lt. exact (proj1 (forallb_forall _ _) H x Hx). Qed.

(** C12: it completes for generic draws whenever the receiver's items can be encoded. *)
Theorem C12_completes_when_encodable :
  forall X lib aes M xs ys R P, env_ok X -> gen_exact (grp X) -> psi_rand_ok R -> iknp_rand_generic X (ps_iknp R) ->
  length xs = length ys -> ys <> [] -> 0 < M ->
  okvs_encode lib aes (ps_seed R) ys (map (fun y => join (item_hash X y)) ys) M = Some P ->
  exists o, psi_run X lib aes (length (ps_u R)) M (length ys) xs ys R = Some o.
Proof.
  intros X lib aes M xs ys R P OKX EX (HR & Hd & Hu) HG L NE HM HP. unfold psi_run.
  destruct (Nat.eqb_spec (length ys) 0) as [Z|_]; [destruct ys; [congruence|discriminate]|].
  rewrite L, !Nat.eqb_refl. cbn [andb negb].
  destruct (C10_silent_completes X lib (ps_u R) (ps_delta R) (ps_vseed R) M (ps_iknp R) OKX EX HR HG HM) as ([[[v w] u] d] & ->).
  cbn [bind]. rewrite HP. cbn [bind]. rewrite okvs_dec_value by exact HM. cbn [bind].
  rewrite okvs_dec_value by exact HM. cbn [bind]. eauto.
Qed.
Print Assumptions C12_completes_when_encodable.

(** Three items each, 7 and 9 in common. *)
Example C12_example :
  env_ok env11 /\ psi_rand_ok ex_psi /\ items64 [7; 8; 9]%N /\ items64 [5; 9; 7]%N /\
  (exists o, psi_run env11 false ex_aes 2 75 3 [7; 8; 9]%N [5; 9; 7]%N ex_psi = Some o /\
     nth 1 (po_mask o) 0%N = 1%N /\ nth 2 (po_mask o) 0%N = 1%N).
Proof.
  assert (items64 [7; 8; 9]%N) as I1 by (apply items_small; reflexivity).
  assert (items64 [5; 9; 7]%N) as I2 by (apply items_small; reflexivity).
  split; [exact env11_ok|]. split; [exact ex_psi_ok|]. split; [exact I1|]. split; [exact I2|].
  destruct (okvs_encode false ex_aes (ps_seed ex_psi) [5; 9; 7]%N (map (fun y => join (item_hash env11 y)) [5; 9; 7]%N) 75)
    as [P|] eqn:EP; [|vm_compute in EP; discriminate EP].
  destruct (C12_completes_when_encodable env11 false ex_aes 75 [7; 8; 9]%N [5; 9; 7]%N ex_psi P env11_ok grp11_exact ex_psi_ok
              rand11_generic eq_refl ltac:(discriminate) ltac:(lia) EP) as (o & E).
  clear EP. change (length (ps_u ex_psi)) with 2 in E. change (length [5; 9; 7]%N) with 3 in E.
  exists o. split; [exact E|].
  destruct (C12_common_items_are_marked env11 ex_aes 2 75 3 [7; 8; 9]%N [5; 9; 7]%N ex_psi (po_mask o) env11_ok ex_psi_ok I1 I2) as [_ H].
  - unfold psi_intersect. rewrite E. reflexivity.
  - split; apply H; try lia; cbn; tauto.
Qed.

(** A native run whose receiver list repeats an item: the tags of the common item 7 differ. *)
Example C12_native_example :
  exists o, psi_run env11 true ex_aes 2 75 2 [7; 8]%N [7; 7]%N ex_psi = Some o /\
    entry (po_tags o) 0 <> entry (po_local o) 0.
Proof.
  assert (items64 [7; 8]%N) as I1 by (apply items_small; reflexivity).
  assert (items64 [7; 7]%N) as I2 by (apply items_small; reflexivity).
  destruct (C12_completes_when_encodable env11 true ex_aes 75 [7; 8]%N [7; 7]%N ex_psi _ env11_ok grp11_exact ex_psi_ok
              rand11_generic eq_refl ltac:(discriminate) ltac:(lia) eq_refl) as (o & E).
  change (length (ps_u ex_psi)) with 2 in E. change (length [7; 7]%N) with 2 in E.
  exists o. split; [exact E|].
  destruct (dup_stop (hash_key_cpp (ex_aes (ps_seed ex_psi)) 75) [7; 7]%N) as [S HS].
  { intros ND. inversion ND as [|? ? NI _]. apply NI. left. reflexivity. }
  rewrite (C111_native_unpeelable_items_lose_tags_refuted env11 ex_aes 2 75 2 [7; 8]%N [7; 7]%N ex_psi o S env11_ok ex_psi_ok I1 I2 E HS
             0 0 ltac:(lia) ltac:(lia) eq_refl).
  intros Q. apply (f_equal (xor_pair (entry (po_local o) 0))) in Q. rewrite xp_assoc, xp_nil, xp_0_l in Q. clear E.
  vm_compute in Q. discriminate Q.
Qed.

(* ---------------------------------------------------------------- unbalanced PSI *)

Lemma Some_eq {A : Type} (a b : A) : Some a = Some b -> b = a.
Proof. intros H. injection H as H. symmetry. exact H. Qed.
Lemma derived_wp X (OKX : env_ok X) s x : word_pair (derived_value X s x).
Proof. apply (prg_wp X OKX). Qed.

(** C60: unbalanced PSI: one mask entry per client item, 1 for every client item the server
    holds, for every server seed, table size and block generator. *)
Theorem C60_common_items_are_marked :
  forall X aes M server client s mask, env_ok X ->
  psi_unbalanced X false aes M server client s = Some mask ->
  length mask = length client /\
  forall j, j < length client -> In (nth j client 0%N) server -> nth j mask 0%N = 1%N.
Proof.
  intros X aes M server client s mask OKX H. unfold psi_unbalanced in H.
  destruct (Nat.eqb (length server) 0 || Nat.eqb (length client) 0) eqn:Z; [discriminate|].
  apply orb_false_iff in Z. destruct Z as [Z1 Z2]. apply Nat.eqb_neq in Z1, Z2.
  apply bind_Some in H. destruct H as (T & HT & H). apply bind_Some in H. destruct H as (D & HD & H).
  apply Some_eq in H. subst mask. split; [apply tab_length|]. intros j Hj Hin. rewrite tab_nth by exact Hj.
  assert (0 < M) as HM.
  { destruct M; [|lia]. unfold okvs_encode, okvs_solve in HT. rewrite map_length in HT.
    destruct (length server); [lia|discriminate HT]. }
  rewrite okvs_dec_value in HD by exact HM. apply Some_eq in HD. subst D.
  rewrite map_map.
  match goal with |- context[nth j (map ?f client) 0%N] => rewrite (nth_map_in f client j 0%N 0%N) by exact Hj end.
  set (x := nth j client 0%N) in *.
  destruct (encode_decodes false aes s (map (derived_key X s) server) _ M T HM
              (eq_trans (map_length _ _) (eq_sym (map_length _ _))) (fun E => False_ind _ (Bool.diff_false_true E)) HT) as [_ HE].
  apply (In_nth _ _ 0%N) in Hin. destruct Hin as (i & Hi & Ei).
  apply (f_equal (fun l => nth i l 0%N)) in HE. rewrite map_map in HE.
  rewrite (nth_map_in _ server i 0%N 0%N) in HE by exact Hi. rewrite (nth_map_in _ server i 0%N 0%N) in HE by exact Hi.
  rewrite Ei in HE. rewrite HE, split_join by (apply derived_wp; exact OKX). rewrite !N.eqb_refl. reflexivity.
Qed.
Print Assumptions C60_common_items_are_marked.

(** C60: a client item is marked exactly when the table decodes its key to its value. *)
Theorem C60_marked_iff_value_matches :
  forall X lib aes M server client s mask table, env_ok X -> 0 < M ->
  psi_unbalanced X lib aes M server client s = Some mask ->
  okvs_encode lib aes s (map (derived_key X s) server) (map (fun x => join (derived_value X s x)) server) M = Some table ->
  forall j, j < length client ->
    (nth j mask 0%N = 1%N <->
     okvs_dec lib aes s [derived_key X s (nth j client 0%N)] table M = Some [join (derived_value X s (nth j client 0%N))]).
Proof.
  intros X lib aes M server client s mask table OKX HM H HT j Hj. unfold psi_unbalanced in H.
  destruct (Nat.eqb (length server) 0 || Nat.eqb (length client) 0); [discriminate|].
  rewrite HT in H. cbn [bind] in H. rewrite okvs_dec_value in H by exact HM. cbn [bind] in H. apply Some_eq in H. subst mask.
  rewrite tab_nth by exact Hj. rewrite map_map.
  match goal with |- context[nth j (map ?f client) 0%N] => rewrite (nth_map_in f client j 0%N 0%N) by exact Hj end.
  rewrite okvs_dec_value by exact HM. cbn [map]. set (x := nth j client 0%N).
  assert (Forall small table) as ST.
  { eapply encode_small; [|exact HT]. apply Forall_forall. intros z Hz. apply in_map_iff in Hz. destruct Hz as (y & <- & _).
    apply join_lt, derived_wp, OKX. }
  set (d := decode_row table (rowof lib aes s M (derived_key X s x))).
  assert (small d) as Sd by (apply decode_row_small, ST).
  pose proof (derived_wp X OKX s x) as Wv. set (v := derived_value X s x) in *. split.
  - intros E. destruct (N.eqb (fst (split128 d)) (fst v)) eqn:E1; [|discriminate].
    destruct (N.eqb (snd (split128 d)) (snd v)) eqn:E2; [|discriminate]. apply N.eqb_eq in E1, E2.
    assert (split128 d = v) as <- by (rewrite (surjective_pairing (split128 d)), E1, E2; symmetry; apply surjective_pairing).
    rewrite join_split by exact Sd. reflexivity.
  - intros E. injection E as ->. rewrite split_join by exact Wv. rewrite !N.eqb_refl. reflexivity.
Qed.
Print Assumptions C60_marked_iff_value_matches.

(** C60: the limit the documentation warns about: the table and the seed, which the client
    receives, decide membership for every item of the server's set offline, not only for the
    client's own items. *)
Theorem C60_table_decides_membership :
  forall X aes M server s table, env_ok X -> 0 < M -> server <> [] ->
  okvs_encode false aes s (map (derived_key X s) server) (map (fun x => join (derived_value X s x)) server) M = Some table ->
  forall x, In x server ->
    okvs_dec false aes s [derived_key X s x] table M = Some [join (derived_value X s x)].
Proof.
  intros X aes M server s table OKX HM NE HT x Hin.
  destruct (psi_unbalanced X false aes M server [x] s) as [mask|] eqn:E.
  - apply (C60_marked_iff_value_matches X false aes M server [x] s mask table OKX HM E HT 0 ltac:(cbn; lia)).
    destruct (C60_common_items_are_marked X aes M server [x] s mask OKX E) as [_ H]. apply H; [cbn; lia|exact Hin].
  - exfalso. unfold psi_unbalanced in E. destruct server as [|a l]; [congruence|]. cbn [length Nat.eqb orb] in E.
    rewrite HT in E. cbn [bind] in E. rewrite okvs_dec_value in E by exact HM. discriminate E.
Qed.
Print Assumptions C60_table_decides_membership.

Example C60_example :
  exists mask, psi_unbalanced env11 false ex_aes 100 [3; 1; 4; 15]%N [9; 4; 15]%N (5, 6)%N = Some mask /\ mask = [0; 1; 1]%N.
Proof. eexists. split; [vm_compute; reflexivity|reflexivity]. Qed.
