(** Proofs for packed histograms, second part: all nodes and features. *)
From Coq Require Import List ZArith Bool Arith Lia.
From Verif Require Import MPCBase BFVModel BFVSpec BFVProofs SGBModel SGBHistProofs SGBPackModel SGBPackSpec SGBPackProofs.
Import ListNotations.
Local Open Scope nat_scope.

Lemma batch_in {A} stride (features : list A) bt : 0 < stride -> In bt (batches stride features) ->
  bt <> [] /\ length bt <= stride /\ (forall x, In x bt -> In x features).
Proof.
  intros Hs H. unfold batches in H. apply in_map_iff in H. destruct H as (s & <- & Hi). apply in_seq in Hi.
  assert (s * stride < length features) as L.
  { destruct Hi as [_ Hi]. cbn [Nat.add] in Hi. pose proof (Nat.div_mod (length features + stride - 1) stride ltac:(lia)).
    assert (s + 1 <= (length features + stride - 1) / stride) by lia. nia. }
  split; [|split].
  - intros E. apply (f_equal (@length A)) in E. rewrite firstn_length, skipn_length in E. cbn [length] in E. lia.
  - apply firstn_le_length.
  - intros x Hx. (assert (In x (skipn (s * stride) features)) as Hy by (rewrite <- (firstn_skipn stride (skipn (s * stride) features)); apply in_or_app; left; exact Hx);
      rewrite <- (firstn_skipn (s * stride) features); apply in_or_app; right; exact Hy).
Qed.
Lemma batch_nth {A} stride (features : list A) s d : 0 < stride -> s < (length features + stride - 1) / stride ->
  nth s (batches stride features) d = firstn stride (skipn (s * stride) features).
Proof. intros Hs H. unfold batches. exact (nth_map_seq (fun s => firstn stride (skipn (s * stride) features)) _ s d H). Qed.
Lemma batches_length {A} stride (features : list A) : length (batches stride features) = (length features + stride - 1) / stride.
Proof. unfold batches. rewrite map_length, seq_length. reflexivity. Qed.
Lemma centred_idem t v : (0 < t)%Z -> centred t (centred t v) = centred t v.
Proof.
  intros Ht. apply centred_cong. unfold cong. unfold centred. destruct (t / 2 <? v mod t)%Z; [|apply Z.mod_mod; lia].
  rewrite <- (Z_mod_plus (v mod t - t) 1 t) by lia. rewrite Z.mul_1_l, Z.sub_add. apply Z.mod_mod. lia.
Qed.

Section P.
Variables (R : nat) (t : Z).
Hypothesis HR : 0 < R.
Hypothesis Ht1 : (1 < t)%Z.
Variable key : nat.
Variables (nb stride : nat).
Hypothesis Hnb : 2 <= nb <= 2 * R.
Hypothesis Est : stride = 2 * R / nb.
Notation slot_vector := (slot_vector R t nb stride).

Lemma decrypted_ok g nodes features (h : list bool -> list nat -> list Z) :
  (forall node bins, In node nodes -> In bins features -> histogram R t g node bins nb key = Some (h node bins)) ->
  decrypted R t g nodes features nb key = Some (map (fun x => slot_vector (map (h (fst x)) (snd x))) (list_prod nodes (batches stride features))).
Proof.
  intros H. destruct (stride_bounds R HR nb stride Hnb Est) as (B1 & B2 & B3). unfold decrypted, packs. rewrite <- Est.
  assert (K : forall l, (forall x, In x l -> In x (list_prod nodes (batches stride features))) ->
    exists cts, mapM (fun x => do aggs <- mapM (fun bins => feature_total R t g (fst x) bins nb key) (snd x); pack R t aggs nb stride key) l = Some cts /\
      mapM (fun c => do slots <- decrypt c (SecretCtx key); Some (decode t slots)) cts = Some (map (fun x => slot_vector (map (h (fst x)) (snd x))) l)).
  { induction l as [|[node bt] l IH]; intros Hl; [exists []; split; reflexivity|].
    specialize (Hl (node, bt)) as Hx. specialize (Hx (or_introl eq_refl)). apply in_prod_iff in Hx. destruct Hx as [Hn Hbt].
    destruct (batch_in stride features bt B1 Hbt) as (Ne & L & Sub).
    destruct (batch_ok R t HR Ht1 key nb stride Hnb Est g node bt (h node) (fun bins Hb => H node bins Hn (Sub bins Hb)) Ne ltac:(lia)) as (aggs & c & Ea & Ec & Ed).
    destruct (IH (fun x Hx => Hl x (or_intror Hx))) as (cts & Ects & Edc). exists (c :: cts). cbn [mapM fst snd map]. rewrite Ea. cbn [bind]. rewrite Ec. cbn [bind].
    rewrite Ects. cbn [bind]. split; [reflexivity|]. rewrite Ed. cbn [bind]. rewrite Edc. reflexivity. }
  destruct (K _ (fun x Hx => Hx)) as (cts & E1 & E2). rewrite E1. cbn [bind]. exact E2.
Qed.
Lemma histogram_shape g node bins h : histogram R t g node bins nb key = Some h -> length h = nb /\ forall b, centred t (nth b h 0%Z) = nth b h 0%Z.
Proof.
  intros H. destruct (total_of_histogram R t HR Ht1 key nb stride Hnb Est g node bins h H) as (agg & s & _ & _ & ->). split; [rewrite map_length, seq_length; reflexivity|].
  intros b. destruct (Nat.lt_ge_cases b nb) as [L|L].
  - rewrite nth_map_seq by exact L. apply centred_idem. lia.
  - rewrite nth_overflow by (rewrite map_length, seq_length; exact L). unfold centred. rewrite Z.mod_0_l by lia. replace (t / 2 <? 0)%Z with false; [reflexivity|]. symmetry. apply Z.ltb_ge. apply Z.div_pos; lia.
Qed.

Lemma rpos_back q k : q / R = (q + k) / R -> rpos R (q + k) (- Z.of_nat k) = q.
Proof.
  intros E. pose proof (Nat.div_mod q R ltac:(lia)). pose proof (Nat.div_mod (q + k) R ltac:(lia)).
  pose proof (Nat.mod_upper_bound q R ltac:(lia)). pose proof (Nat.mod_upper_bound (q + k) R ltac:(lia)).
  unfold rpos. assert (E2 : (q + k) mod R = q mod R + k) by lia. rewrite E2.
  replace (Z.of_nat (q mod R + k) + - Z.of_nat k)%Z with (Z.of_nat (q mod R)) by lia. rewrite Z.mod_small by lia. rewrite Nat2Z.id. lia.
Qed.
Lemma rpos_fwd q k p : q / R = (q + k) / R -> rpos R p (- Z.of_nat k) = q -> p = q + k.
Proof.
  intros E Hp. rewrite <- (rpos_0 R HR p). replace 0%Z with (- Z.of_nat k + Z.of_nat k)%Z by lia. rewrite <- (rpos_rpos R HR), Hp.
  pose proof (Nat.div_mod q R ltac:(lia)). pose proof (Nat.div_mod (q + k) R ltac:(lia)).
  pose proof (Nat.mod_upper_bound q R ltac:(lia)). pose proof (Nat.mod_upper_bound (q + k) R ltac:(lia)).
  unfold rpos. assert (E2 : (q + k) mod R = q mod R + k) by lia. rewrite Z.mod_small by lia. lia.
Qed.
Lemma slot_value (hs : list (list Z)) b i : rows_respected R nb stride (length hs) -> length hs <= stride -> b < nb -> i < length hs ->
  slot_of R nb stride hs (b * stride + i) = nth b (nth i hs []) 0%Z.
Proof.
  intros RR L Hb Hi. destruct (stride_bounds R HR nb stride Hnb Est) as (B1 & B2 & B3). unfold slot_of. rewrite (zsum_one _ i _ Hi).
  - cbv zeta. rewrite rpos_back by (symmetry; apply RR; assumption). replace (is_start nb stride (b * stride)) with true by (symmetry; apply (start_iff R HR nb stride Hnb Est); exists b; split; [exact Hb|reflexivity]).
    rewrite Nat.div_mul by lia. reflexivity.
  - intros k Hk Nk. cbv zeta. destruct (is_start nb stride (rpos R (b * stride + i) (- Z.of_nat k))) eqn:Eq; [|reflexivity]. exfalso.
    apply (start_iff R HR nb stride Hnb Est) in Eq. destruct Eq as (b' & Hb' & Eq). apply rpos_fwd in Eq; [|symmetry; apply RR; assumption].
    assert (b = b') by nia. subst b'. lia.
Qed.

Lemma unpack_ok g nodes features (h : list bool -> list nat -> list Z) : rows_respected R nb stride (Nat.min stride (length features)) ->
  (forall node bins, In node nodes -> In bins features -> histogram R t g node bins nb key = Some (h node bins)) ->
  histograms R t g nodes features nb key = Some (map (fun node => map (h node) features) nodes).
Proof.
  intros RR H. destruct (stride_bounds R HR nb stride Hnb Est) as (B1 & B2 & B3). unfold histograms. rewrite (decrypted_ok g nodes features h H). cbn [bind]. f_equal. rewrite <- Est. unfold unpack.
  rewrite (map_as_seq _ [] nodes). apply map_ext_in. intros ni Hni. apply in_seq in Hni.
  rewrite (map_as_seq _ [] features). apply map_ext_in. intros fi Hfi. apply in_seq in Hfi.
  assert (In (nth ni nodes []) nodes) as In1 by (apply nth_In; lia). assert (In (nth fi features []) features) as In2 by (apply nth_In; lia).
  destruct (histogram_shape g _ _ _ (H _ _ In1 In2)) as [Lh Ch].
  apply nth_ext with (d := 0%Z) (d' := 0%Z); [rewrite map_length, seq_length; symmetry; exact Lh|]. intros b Hb. rewrite map_length, seq_length in Hb.
  rewrite nth_map_seq by exact Hb.
  set (s := fi / stride). set (o := fi mod stride). assert (fi = s * stride + o) as Efi by (unfold s, o; pose proof (Nat.div_mod fi stride ltac:(lia)); lia).
  assert (o < stride) as Ho by (apply Nat.mod_upper_bound; lia).
  assert (s < (length features + stride - 1) / stride) as Hs by (apply block_of; lia).
  assert (ni * length (batches stride features) + s < length (list_prod nodes (batches stride features))) as Lx.
  { rewrite prod_length, batches_length. nia. }
  rewrite <- (batches_length stride features). rewrite (nth_map_in _ _ _ _ ([], [])) by exact Lx. rewrite nth_list_prod by (rewrite ?batches_length; lia). cbn [fst snd].
  rewrite batch_nth by assumption. set (bt := firstn stride (skipn (s * stride) features)).
  assert (Lb : length bt = Nat.min stride (length features - s * stride)) by (unfold bt; rewrite firstn_length, skipn_length; reflexivity).
  assert (Pp : b * stride + o < 2 * R) by nia.
  unfold SGBPackProofs.slot_vector. rewrite tab_nth by exact Pp. rewrite slot_value.
  - rewrite (nth_map_in _ _ _ _ []) by lia. unfold bt. rewrite nth_firstn' by exact Ho. rewrite nth_skipn', <- Efi. apply Ch.
  - rewrite map_length. intros b' i' Hb' Hi'. apply RR; [exact Hb'|lia].
  - rewrite map_length. lia.
  - exact Hb.
  - rewrite map_length. lia.
Qed.
Lemma total_none_slot g nodes features features' :
  Forall2 (fun bins bins' => forall node, In node nodes -> exists h, histogram R t g node bins nb key = Some h /\ histogram R t g node bins' nb key = Some h) features features' ->
  decrypted R t g nodes features nb key = decrypted R t g nodes features' nb key.
Proof.
  intros F. set (hh := fun node bins => match histogram R t g node bins nb key with Some h => h | None => [] end).
  rewrite (decrypted_ok g nodes features hh), (decrypted_ok g nodes features' hh).
  - f_equal. assert (E : forall node, In node nodes -> map (hh node) features = map (hh node) features').
    { intros node Hn. clear -F Hn. induction F as [|b b' l l' H F IH]; [reflexivity|]. cbn [map]. rewrite IH. f_equal. destruct (H node Hn) as (h & E & E'). unfold hh. rewrite E, E'. reflexivity. }
    assert (L : length features = length features') by (clear -F; induction F; cbn; congruence).
    unfold batches. rewrite <- L. clear F L. induction nodes as [|n ns IH]; [reflexivity|]. cbn [list_prod]. rewrite !map_app, IH by (intros; apply E; right; assumption). f_equal.
    rewrite !map_map. cbn [fst snd]. apply map_ext. intros s. rewrite <- !firstn_map, <- !skipn_map, (E n (or_introl eq_refl)). reflexivity.
  - clear -F. intros node bins' Hn Hb. induction F as [|b b' l l' H F IH]; [destruct Hb|]. destruct Hb as [<-|Hb]; [|apply IH, Hb]. destruct (H node Hn) as (h & E & E'). unfold hh. rewrite E'. reflexivity.
  - clear -F. intros node bins Hn Hb. induction F as [|b b' l l' H F IH]; [destruct Hb|]. destruct Hb as [<-|Hb]; [|apply IH, Hb]. destruct (H node Hn) as (h & E & E'). unfold hh. rewrite E. reflexivity.
Qed.
End P.
Lemma rows_pow2 e j k : j <= e -> k <= 2 ^ (e - j) -> rows_respected (2 ^ e) (2 ^ S j) (2 ^ (e - j)) k.
Proof.
  intros H Hk b i Hb Hi. set (s := 2 ^ (e - j)) in *. assert (2 ^ e = s * 2 ^ j) as E by (unfold s; rewrite <- Nat.pow_add_r; f_equal; lia).
  assert (0 < 2 ^ j) by (pose proof (Nat.pow_nonzero 2 j); lia). assert (0 < s) by lia.
  rewrite E, <- !Nat.div_div by lia. rewrite Nat.div_mul by lia. rewrite Nat.add_comm, Nat.div_add by lia. rewrite (Nat.div_small i s) by lia. reflexivity.
Qed.
