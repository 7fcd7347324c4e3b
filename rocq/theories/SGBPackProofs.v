(** Proofs for packed histograms. *)
From Coq Require Import List ZArith Bool Arith Lia.
From Verif Require Import MPCBase BFVModel BFVSpec BFVProofs SGBModel SGBHistProofs SGBPackModel SGBPackSpec.
Import ListNotations.
Local Open Scope nat_scope.

Lemma mapM_ext {A B} (f g : A -> option B) l : (forall a, In a l -> f a = g a) -> mapM f l = mapM g l.
Proof.
  induction l as [|a l IH]; intros H; [reflexivity|]. cbn [mapM]. rewrite (H a (or_introl eq_refl)), IH by (intros; apply H; right; assumption). reflexivity.
Qed.
Lemma map_as_seq {A B} (f : A -> B) d l : map f l = map (fun i => f (nth i l d)) (seq 0 (length l)).
Proof.
  induction l as [|a l IH]; [reflexivity|]. cbn [map length seq]. f_equal. rewrite <- seq_shift, map_map. exact IH.
Qed.
Lemma combine_seq {A} (l : list A) b : forall d, combine (seq b (length l)) l = map (fun i => (b + i, nth i l d)) (seq 0 (length l)).
Proof.
  revert b. induction l as [|a l IH]; intros b d; [reflexivity|]. cbn [length seq combine map]. f_equal; [f_equal; lia|].
  rewrite (IH (S b) d), <- seq_shift, map_map. apply map_ext. intros i. f_equal. lia.
Qed.
Lemma nth_skipn' {A} (l : list A) k i d : nth i (skipn k l) d = nth (k + i) l d.
Proof. revert l. induction k as [|k IH]; intros [|a l]; cbn [skipn nth Nat.add]; try reflexivity; [destruct i; reflexivity|apply IH]. Qed.
Lemma nth_firstn' {A} (l : list A) k i d : i < k -> nth i (firstn k l) d = nth i l d.
Proof. revert k l. induction i as [|i IH]; intros [|k] [|a l] H; try lia; cbn; try reflexivity. apply IH. lia. Qed.
Lemma nth_list_prod {A B} (l : list A) (l' : list B) i j da db : i < length l -> j < length l' ->
  nth (i * length l' + j) (list_prod l l') (da, db) = (nth i l da, nth j l' db).
Proof.
  revert i. induction l as [|a l IH]; intros i Hi Hj; [cbn in Hi; lia|]. cbn [list_prod]. destruct i as [|i].
  - cbn [Nat.mul Nat.add nth]. rewrite app_nth1 by (rewrite map_length; exact Hj).
    rewrite (nth_indep _ (da, db) (a, db)) by (rewrite map_length; exact Hj). exact (map_nth (fun y => (a, y)) l' db j).
  - rewrite app_nth2 by (rewrite map_length; cbn; lia). rewrite map_length. replace (S i * length l' + j - length l') with (i * length l' + j) by (cbn; lia).
    cbn [nth]. apply IH; [cbn in Hi; lia|exact Hj].
Qed.

Lemma nth_map_seq {A} (f : nat -> A) n b d : b < n -> nth b (map f (seq 0 n)) d = f b.
Proof. intros H. rewrite (nth_indep _ d (f 0)) by (rewrite map_length, seq_length; exact H). rewrite map_nth, seq_nth by exact H. reflexivity. Qed.
Lemma nth_map_in {A B} (f : A -> B) l k d d' : k < length l -> nth k (map f l) d = f (nth k l d').
Proof. intros H. rewrite (nth_indep _ d (f d')) by (rewrite map_length; exact H). apply map_nth. Qed.
Lemma F2_cons {A B} (P : A -> B -> Prop) l y l' : Forall2 P l (y :: l') -> exists x r, l = x :: r /\ P x y /\ Forall2 P r l'.
Proof. intros H. inversion H; subst. eauto. Qed.
Lemma F2_nil {A B} (P : A -> B -> Prop) l : Forall2 P l [] -> l = [].
Proof. intros H. inversion H. reflexivity. Qed.
Section P.
Variables (R : nat) (t : Z).
Hypothesis HR : 0 < R.
Hypothesis Ht1 : (1 < t)%Z.
Let Ht0 : (0 < t)%Z. Proof. lia. Qed.
Variable key : nat.
Variables (nb stride : nat).
Hypothesis Hnb : 2 <= nb <= 2 * R.
Hypothesis Est : stride = 2 * R / nb.
Notation mask := (slot_mask R nb stride).
Notation rpos := (rpos R).

Lemma stride_bounds : 0 < stride /\ stride <= R /\ nb * stride <= 2 * R.
Proof.
  pose proof (Nat.mul_div_le (2 * R) nb). rewrite <- Est in H. split.
  - rewrite Est. apply Nat.div_str_pos. lia.
  - split; [|lia]. assert (2 * stride <= nb * stride) by (apply Nat.mul_le_mono_r; lia). lia.
Qed.
Definition is_start (p : nat) : bool := existsb (fun b => p =? b * stride) (seq 0 nb).
Lemma start_iff p : is_start p = true <-> exists b, b < nb /\ p = b * stride.
Proof.
  unfold is_start. rewrite existsb_exists. split; intros (b & H1 & H2); exists b.
  - apply in_seq in H1. apply Nat.eqb_eq in H2. split; [lia|exact H2].
  - split; [apply in_seq; lia|apply Nat.eqb_eq; exact H2].
Qed.
Lemma mask_value p : p < 2 * R -> nth p mask 0%Z = if is_start p then 1%Z else 0%Z.
Proof. intros H. unfold slot_mask. rewrite tab_nth by exact H. reflexivity. Qed.
Lemma mask_length : length mask = 2 * R.
Proof. unfold slot_mask, tab. rewrite map_length, seq_length. reflexivity. Qed.
Lemma mask_fits : fits t mask.
Proof.
  apply (bits_fit R t HR Ht0). - exact Ht1. - intros v Hv. destruct (In_nth _ _ 0%Z Hv) as (p & Hp & <-). rewrite mask_length in Hp. rewrite mask_value by exact Hp. destruct (is_start p); auto.
Qed.

(** a ciphertext under the key whose slots are f modulo t *)
Definition sl (c : cipher) (f : nat -> Z) : Prop := exists v, payload c = Some (key, v) /\ length v = 2 * R /\ forall p, p < 2 * R -> nth p v 0%Z = (f p mod t)%Z.
Lemma tab_length {A} n (f : nat -> A) : length (tab n f) = n.
Proof. unfold tab. rewrite map_length. apply seq_length. Qed.

Lemma mask_sl a s : payload a = Some (key, s) -> exists c, mul_plain R t a mask = Some c /\ sl c (fun p => nth p s 0 * (if is_start p then 1 else 0))%Z.
Proof.
  intros H. destruct (encode_nth R t HR Ht0 mask) as (e & Ee & Le & Ne); [rewrite mask_length; lia|apply mask_fits|].
  unfold mul_plain. rewrite Ee. destruct (forallb (Z.eqb 0) e) eqn:Z0.
  - exfalso. assert (nth 0 e 0%Z = 1%Z) as E1.
    { rewrite Ne, mask_value by lia. replace (is_start 0) with true; [apply Z.mod_small; lia|]. symmetry. apply start_iff. exists 0. split; [lia|reflexivity]. }
    assert (In (nth 0 e 0%Z) e) as Hin by (apply nth_In; lia). apply (proj1 (forallb_forall _ _) Z0) in Hin. apply Z.eqb_eq in Hin. lia.
  - rewrite H. eexists. split; [reflexivity|]. eexists. split; [reflexivity|]. split; [apply tab_length|]. intros p Hp. unfold slotwise. rewrite tab_nth by exact Hp.
    rewrite Ne, mask_value by exact Hp. rewrite Z.mul_mod_idemp_r by lia. reflexivity.
Qed.
Lemma rot_sl c f i : sl c f -> i < R -> exists c', rotate R c (- Z.of_nat i) (make_galois_keys (SecretCtx key)) = Some c' /\ sl c' (fun p => f (rpos p (- Z.of_nat i))).
Proof.
  intros (v & P & L & N) Hi. unfold rotate. destruct (Z.eqb_spec (- Z.of_nat i) 0) as [E|E].
  - exists c. split; [reflexivity|]. exists v. split; [exact P|]. split; [exact L|]. intros p Hp. rewrite E, (rpos_0 R HR). apply N, Hp.
  - rewrite P. cbn [public_part make_galois_keys]. rewrite Nat.eqb_refl. replace (Z.abs (- Z.of_nat i) <? Z.of_nat R)%Z with true by (symmetry; apply Z.ltb_lt; lia). cbn [andb].
    eexists. split; [reflexivity|]. eexists. split; [reflexivity|]. split; [apply tab_length|]. intros p Hp. unfold rot_rows. rewrite tab_nth by exact Hp. apply N. apply rpos_lt; assumption.
Qed.
Lemma add_sl a b f g : sl a f -> sl b g -> exists c, add R t a b = Some c /\ sl c (fun p => f p + g p)%Z.
Proof.
  intros (v & P & L & N) (w & Q & L' & N'). unfold add. rewrite P, Q, Nat.eqb_refl. eexists. split; [reflexivity|]. eexists. split; [reflexivity|]. split; [apply tab_length|].
  intros p Hp. unfold slotwise. rewrite tab_nth by exact Hp. rewrite N, N' by exact Hp. symmetry. apply Z.add_mod. lia.
Qed.
Lemma sl_ext a f g : sl a f -> (forall p, p < 2 * R -> f p = g p) -> sl a g.
Proof. intros (v & P & L & N) E. exists v. split; [exact P|]. split; [exact L|]. intros p Hp. rewrite <- E by exact Hp. apply N, Hp. Qed.
Lemma tree_sl (fs : list (nat -> Z)) : forall items acc f, Forall2 sl items fs -> sl acc f ->
  exists c, tree_sum R t acc items = Some c /\ sl c (fun p => f p + fold_right Z.add 0 (map (fun h : nat -> Z => h p) fs))%Z.
Proof.
  induction fs as [|h fs IH]; intros items acc f F A; cbn [map fold_right].
  - rewrite (F2_nil _ _ F). cbn [tree_sum]. exists acc. split; [reflexivity|]. apply (sl_ext _ _ _ A). intros p _. lia.
  - destruct (F2_cons _ _ _ _ F) as (a & items' & -> & Ha & F'). cbn [tree_sum]. destruct (add_sl _ _ _ _ A Ha) as (acc' & E & A'). rewrite E. destruct (IH items' acc' _ F' A') as (c & Ec & Hc). exists c. split; [exact Ec|].
    apply (sl_ext _ _ _ Hc). intros p _. cbv beta. lia.
Qed.

Definition moved (ss : list (list Z)) (k p : nat) : Z := (nth (rpos p (- Z.of_nat k)) (nth k ss []) 0 * (if is_start (rpos p (- Z.of_nat k)) then 1 else 0))%Z.
Lemma pack_sl aggs ss : Forall2 (fun a s => payload a = Some (key, s)) aggs ss -> aggs <> [] -> length aggs <= R ->
  exists c, pack R t aggs nb stride key = Some c /\ sl c (fun p => zsum (length ss) (fun k => moved ss k p)).
Proof.
  intros F Ne L. unfold pack. pose proof (Forall2_length _ _ _ F) as El.
  rewrite (combine_seq aggs 0 (Cipher None ParamCtx)). cbn [Nat.add].
  assert (Nth : forall k, k < length aggs -> payload (nth k aggs (Cipher None ParamCtx)) = Some (key, nth k ss [])).
  { clear -F. induction F as [|a s aggs ss H F IH]; intros k Hk; [cbn in Hk; lia|]. destruct k as [|k]; [exact H|]. cbn. apply IH. cbn in Hk. lia. }
  assert (exists items, mapM (fun ia => do masked <- mul_plain R t (snd ia) mask; rotate R masked (- Z.of_nat (fst ia)) (make_galois_keys (SecretCtx key)))
                         (map (fun i => (i, nth i aggs (Cipher None ParamCtx))) (seq 0 (length aggs))) = Some items /\
          Forall2 sl items (map (moved ss) (seq 0 (length aggs)))) as (items & E & G).
  { assert (K : forall b, b <= length aggs -> exists items, mapM (fun ia => do masked <- mul_plain R t (snd ia) mask; rotate R masked (- Z.of_nat (fst ia)) (make_galois_keys (SecretCtx key)))
                         (map (fun i => (i, nth i aggs (Cipher None ParamCtx))) (seq (length aggs - b) b)) = Some items /\
          Forall2 sl items (map (moved ss) (seq (length aggs - b) b))).
    { induction b as [|b IH]; intros Hb; [exists []; split; [reflexivity|constructor]|].
      cbn [seq map mapM fst snd Nat.add]. set (i := length aggs - S b).
      destruct (mask_sl _ _ (Nth i ltac:(unfold i; lia))) as (c & Ec & Hc). rewrite Ec. cbn [bind].
      destruct (rot_sl _ _ i Hc ltac:(unfold i; lia)) as (c' & Ec' & Hc'). rewrite Ec'.
      destruct (IH ltac:(lia)) as (items & Ei & Hi). replace (length aggs - b) with (S i) in Ei, Hi by (unfold i; lia). rewrite Ei. cbn [bind].
      exists (c' :: items). split; [reflexivity|]. constructor; [exact Hc'|exact Hi]. }
    specialize (K (length aggs) (le_n _)). rewrite Nat.sub_diag in K. exact K. }
  rewrite E. cbn [bind]. destruct aggs as [|a0 aggs]; [congruence|]. cbn [length seq map] in G. destruct (F2_cons _ _ _ _ G) as (c0 & rest & -> & H0 & G').
  destruct (tree_sl _ _ _ _ G' H0) as (c & Ec & Hc). exists c. split; [exact Ec|]. apply (sl_ext _ _ _ Hc). intros p _. cbv beta.
  rewrite map_map, <- El, <- (fold_right_zsum R HR). cbn [length seq map fold_right]. reflexivity.
Qed.

(* ---------------------------------------------------------------- one feature *)

Lemma total_of_histogram g node bins h : histogram R t g node bins nb key = Some h ->
  exists agg s, feature_total R t g node bins nb key = Some agg /\ payload agg = Some (key, s) /\ h = map (fun b => centred t (nth (b * stride) s 0%Z)) (seq 0 nb).
Proof.
  unfold histogram, feature_total. rewrite <- Est. intros H.
  destruct (encrypt_g R t g _ _) as [g_cts|]; [|discriminate H]. cbn [bind] in *. destruct (mapM _ _) as [masked|]; [|discriminate H]. cbn [bind] in *.
  destruct masked as [|c0 rest]; [discriminate H|]. destruct (tree_sum R t c0 rest) as [acc|]; [|discriminate H]. cbn [bind] in *.
  destruct (batch_bucket_aggregate R t acc nb _ _ _) as [agg|]; [|discriminate H]. cbn [bind] in *.
  change (tab (2 * R) (fun p => if existsb (fun b => p =? b * stride) (seq 0 nb) then 1%Z else 0%Z)) with mask in H.
  destruct (mul_plain R t agg mask) as [packed|] eqn:Em; [|discriminate H]. cbn [bind] in *. destruct (decrypt packed (SecretCtx key)) as [slots|] eqn:Ed; [|discriminate H]. cbn [bind] in H. injection H as <-.
  exists agg. destruct (payload agg) as [[k s]|] eqn:P.
  2: { exfalso. unfold mul_plain in Em. destruct (encode_nth R t HR Ht0 mask) as (e & Ee & Le & Ne); [rewrite mask_length; lia|apply mask_fits|]. rewrite Ee in Em.
       destruct (forallb (Z.eqb 0) e) eqn:Z0; [|rewrite P in Em; discriminate Em].
       assert (nth 0 e 0%Z = 1%Z) as E1.
       { rewrite Ne, mask_value by lia. replace (is_start 0) with true; [apply Z.mod_small; lia|]. symmetry. apply start_iff. exists 0. split; [lia|reflexivity]. }
       assert (In (nth 0 e 0%Z) e) as Hin by (apply nth_In; lia). apply (proj1 (forallb_forall _ _) Z0) in Hin. apply Z.eqb_eq in Hin. lia. }
  assert (k = key) as ->.
  { unfold mul_plain in Em. destruct (encode_nth R t HR Ht0 mask) as (e & Ee & Le & Ne); [rewrite mask_length; lia|apply mask_fits|]. rewrite Ee in Em.
    destruct (forallb (Z.eqb 0) e) eqn:Z0.
    - exfalso. assert (nth 0 e 0%Z = 1%Z) as E1.
      { rewrite Ne, mask_value by lia. replace (is_start 0) with true; [apply Z.mod_small; lia|]. symmetry. apply start_iff. exists 0. split; [lia|reflexivity]. }
      assert (In (nth 0 e 0%Z) e) as Hin by (apply nth_In; lia). apply (proj1 (forallb_forall _ _) Z0) in Hin. apply Z.eqb_eq in Hin. lia.
    - rewrite P in Em. injection Em as <-. unfold decrypt in Ed. cbn in Ed. destruct (Nat.eqb_spec key k) as [->|]; [reflexivity|discriminate Ed]. }
  exists s. split; [reflexivity|]. split; [reflexivity|].
  destruct (mask_sl agg s P) as (c & Ec & v & Pc & Lv & Nv). rewrite Em in Ec. injection Ec as <-. unfold decrypt in Ed. rewrite Pc in Ed. cbn in Ed. rewrite Nat.eqb_refl in Ed. injection Ed as <-.
  apply map_ext_in. intros b Hb. apply in_seq in Hb. destruct stride_bounds as (B1 & B2 & B3).
  assert (b * stride < 2 * R) as Lb by (assert (b * stride < nb * stride) by (apply Nat.mul_lt_mono_pos_r; lia); lia).
  unfold decode. rewrite (nth_indep _ 0%Z (centred t 0)) by (rewrite map_length; lia). rewrite map_nth, Nv by exact Lb.
  replace (is_start (b * stride)) with true by (symmetry; apply start_iff; exists b; split; [lia|reflexivity]).
  apply (centred_cong t). unfold cong. rewrite Z.mod_mod by lia. f_equal. lia.
Qed.

(* ---------------------------------------------------------------- what is decrypted *)

(** slot p of a batch whose features have the histograms [hs] *)
Definition slot_of (hs : list (list Z)) (p : nat) : Z :=
  zsum (length hs) (fun k => let q := rpos p (- Z.of_nat k) in if is_start q then nth (q / stride) (nth k hs []) 0%Z else 0%Z).
Definition slot_vector (hs : list (list Z)) : list Z := tab (2 * R) (fun p => centred t (slot_of hs p)).

Lemma batch_ok g node (features : list (list nat)) (h : list nat -> list Z) : (forall bins, In bins features -> histogram R t g node bins nb key = Some (h bins)) ->
  features <> [] -> length features <= R ->
  exists aggs c, mapM (fun bins => feature_total R t g node bins nb key) features = Some aggs /\ pack R t aggs nb stride key = Some c /\
    (do slots <- decrypt c (SecretCtx key); Some (decode t slots)) = Some (slot_vector (map h features)).
Proof.
  intros H Ne L.
  assert (exists aggs ss, mapM (fun bins => feature_total R t g node bins nb key) features = Some aggs /\ Forall2 (fun a s => payload a = Some (key, s)) aggs ss /\
    map h features = map (fun s => map (fun b => centred t (nth (b * stride) s 0%Z)) (seq 0 nb)) ss) as (aggs & ss & E & F & M).
  { clear Ne L. induction features as [|bins fs IH]; [exists [], []; split; [reflexivity|split; [constructor|reflexivity]]|].
    destruct (total_of_histogram g node bins _ (H bins (or_introl eq_refl))) as (agg & s & Ea & Pa & Eh). destruct (IH (fun b Hb => H b (or_intror Hb))) as (aggs & ss & E & F & M).
    exists (agg :: aggs), (s :: ss). cbn [mapM map]. rewrite Ea, E. split; [reflexivity|]. split; [constructor; assumption|]. rewrite M, Eh. reflexivity. }
  pose proof (Forall2_length _ _ _ F) as El. assert (length ss = length features) as Els by (rewrite <- (map_length h features), M, map_length; reflexivity).
  assert (aggs <> []) as Na by (destruct aggs; [destruct features; [congruence|cbn in *; lia]|discriminate]).
  destruct (pack_sl aggs ss F Na ltac:(lia)) as (c & Ec & v & Pc & Lv & Nv). exists aggs, c. split; [exact E|]. split; [exact Ec|].
  unfold decrypt. rewrite Pc. cbn [secret_part]. rewrite Nat.eqb_refl. cbn [bind]. f_equal. apply nth_ext with (d := 0%Z) (d' := 0%Z); [unfold decode, slot_vector; rewrite map_length, tab_length; exact Lv|].
  intros p Hp. unfold decode in *. rewrite map_length, Lv in Hp. rewrite (nth_indep _ 0%Z (centred t 0)) by (rewrite map_length; lia). rewrite map_nth, Nv by exact Hp.
  unfold slot_vector. rewrite tab_nth by exact Hp. apply (centred_cong t). unfold cong. rewrite Z.mod_mod by lia. unfold slot_of. rewrite M, map_length.
  apply zsum_cong; [lia|]. intros k Hk. unfold moved. cbv zeta. set (q := rpos p (- Z.of_nat k)). destruct (is_start q) eqn:Sq; [|rewrite Z.mul_0_r; reflexivity].
  apply start_iff in Sq. destruct Sq as (b & Hb & Eq). rewrite Eq. destruct stride_bounds as (B1 & _). rewrite Nat.div_mul by lia.
  rewrite (nth_map_in _ ss k [] []) by exact Hk.
  rewrite nth_map_seq by exact Hb.
  rewrite Z.mul_1_r. symmetry. apply (centred_spec R t HR Ht0).
Qed.
End P.
