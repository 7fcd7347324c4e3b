(** What the encrypted histogram of gradient boosting computes. *)
From Coq Require Import List ZArith Bool Arith Lia.
From Verif Require Import MPCBase BFVModel BFVSpec BFVProofs BFVProofs2 SGBModel SGBHistSpec.
Import ListNotations.
Local Open Scope nat_scope.

(** the m-th member of a filtered range *)
Lemma rank_unique (P : nat -> bool) n m :
  length (filter (fun j => P j && (length (filter P (seq 0 j)) =? m)) (seq 0 n)) = if m <? length (filter P (seq 0 n)) then 1 else 0.
Proof.
  induction n as [|n IH]; [reflexivity|]. rewrite seq_S, !filter_app, !app_length, IH. cbn [filter Nat.add].
  destruct (P n); cbn [andb length].
  - destruct (Nat.eqb_spec (length (filter P (seq 0 n))) m) as [E|E]; cbn [length]; repeat match goal with |- context [?a <? ?b] => destruct (Nat.ltb_spec a b) end; lia.
  - cbn. rewrite !Nat.add_0_r. reflexivity.
Qed.
Lemma filter_le {A} (P : A -> bool) l l' : length (filter P l) <= length (filter P (l ++ l')).
Proof. rewrite filter_app, app_length. lia. Qed.
Lemma rank_lt (P : nat -> bool) n j : j < n -> P j = true -> length (filter P (seq 0 j)) < length (filter P (seq 0 n)).
Proof.
  intros L H. replace n with (S j + (n - S j)) by lia. rewrite seq_app. eapply Nat.lt_le_trans; [|apply filter_le].
  rewrite seq_S, filter_app, app_length. cbn [filter Nat.add]. rewrite H. cbn. lia.
Qed.

Lemma block_of i a s : 0 < s -> i < a -> i / s < (a + s - 1) / s.
Proof.
  intros Hs Hi. apply Nat.div_lt_upper_bound; [lia|]. pose proof (Nat.div_mod (a + s - 1) s ltac:(lia)). pose proof (Nat.mod_upper_bound (a + s - 1) s ltac:(lia)). lia.
Qed.

Section H.
Variable R : nat.
Hypothesis HR : 0 < R.

Variables (node : list bool) (bins : list nat) (nb stride : nat).
Hypothesis Hgrid : nb * stride = 2 * R.
Hypothesis Hb : forall b, In b bins -> b < nb.

Lemma chunk_nth' {A} (d : A) l c p : p < 2 * R -> nth p (chunk R d l c) d = nth (c * (2 * R) + p) l d.
Proof. intros H. unfold chunk. now rewrite tab_nth. Qed.
Lemma bin_lt i : 0 < nb -> nth i bins 0 < nb.
Proof. intros H. destruct (nth_in_or_default i bins 0) as [I|E]; [apply Hb, I|rewrite E; exact H]. Qed.

Lemma mask_value c b m : 0 < nb -> b < nb -> m < stride ->
  (forall b', b' < nb -> members node bins b' (c * (2 * R)) (2 * R) <= stride) ->
  nth (b * stride + m) (packed_mask R (chunk R false node c) (chunk R 0 bins c) stride) 0%Z
  = if m <? members node bins b (c * (2 * R)) (2 * R) then 1%Z else 0%Z.
Proof.
  intros Hn Hbn Hm Hc. set (lo := c * (2 * R)) in *.
  set (P := fun b j => nth (lo + j) node false && (nth (lo + j) bins 0 =? b)).
  assert (CNT : forall b', members node bins b' lo (2 * R) = length (filter (P b') (seq 0 (2 * R)))).
  { intros b'. unfold members. replace (seq lo (2 * R)) with (map (fun i => lo + i) (seq 0 (2 * R))).
    - generalize (seq 0 (2 * R)). intros l. induction l as [|a l IH]; [reflexivity|]. cbn [map filter]. unfold P at 1. destruct (nth (lo + a) node false && (nth (lo + a) bins 0 =? b')); cbn [length]; now rewrite IH.
    - assert (G : forall n s, map (fun i => lo + i) (seq s n) = seq (lo + s) n).
      { induction n as [|n IH]; intros s; [reflexivity|]. cbn [seq map]. f_equal. rewrite IH. f_equal. lia. }
      rewrite G, Nat.add_0_r. reflexivity. }
  assert (PE : forall b' j, j < 2 * R -> in_node (chunk R false node c) (chunk R 0 bins c) b' j = P b' j).
  { intros b' j Hj. unfold in_node, P. rewrite !chunk_nth' by exact Hj. reflexivity. }
  unfold packed_mask. rewrite tab_nth by nia.
  replace (length (chunk R false node c)) with (2 * R) by (unfold chunk; now rewrite tab_length).
  rewrite (filter_ext_in _ (fun j => P b j && (length (filter (P b) (seq 0 j)) =? m))).
  { rewrite rank_unique, CNT. destruct (m <? _); reflexivity. }
  intros j Hj. apply in_seq in Hj. rewrite chunk_nth' by lia. fold lo.
  assert (OFF : offset (chunk R false node c) (chunk R 0 bins c) j = length (filter (P (nth (lo + j) bins 0)) (seq 0 j))).
  { unfold offset. rewrite chunk_nth' by lia. fold lo. f_equal. apply filter_ext_in. intros i Hi. apply in_seq in Hi. apply PE. lia. }
  rewrite OFF, chunk_nth' by lia. fold lo. set (bj := nth (lo + j) bins 0) in *. unfold P at 2. fold bj.
  destruct (nth (lo + j) node false) eqn:Nj; [|reflexivity]. cbn [andb].
  assert (Lj : length (filter (P bj) (seq 0 j)) < stride).
  { eapply Nat.lt_le_trans; [apply (rank_lt (P bj) (2 * R) j); [lia|]|].
    - unfold P. rewrite Nj. fold bj. apply Nat.eqb_refl.
    - rewrite <- CNT. apply Hc, bin_lt, Hn. }
  destruct (Nat.eqb_spec bj b) as [->|NE]; cbn [andb].
  - destruct (Nat.eqb_spec (length (filter (P b) (seq 0 j))) m), (Nat.eqb_spec (b * stride + length (filter (P b) (seq 0 j))) (b * stride + m)); lia || reflexivity.
  - apply Nat.eqb_neq. nia.
Qed.

End H.

(** ** accumulation over the blocks: [st a f M] *)
Section Acc.
Variables (R : nat) (t : Z).
Hypothesis HR : 0 < R.
Hypothesis Ht1 : (1 < t)%Z.
Notation has := BFVProofs.has.
Let Ht0 : (0 < t)%Z. Proof. lia. Qed.
Variable key : nat.
Definition st (a : cipher) (f M : nat -> Z) : Prop :=
  (payload a = None /\ forall p, p < 2 * R -> f p = 0%Z /\ M p = 0%Z) \/
  (exists s, has a key s /\ forall p, p < 2 * R -> nth p s 0%Z = (f p mod t)%Z).

Lemma add_st a b f g M N : st a f M -> st b g N -> exists c, add R t a b = Some c /\ st c (fun p => f p + g p)%Z (fun p => M p + N p)%Z.
Proof.
  intros [[Pa Fa]|(s & Ha & Fa)] [[Pb Fb]|(s' & Hb' & Fb)].
  - exists b. unfold add. rewrite Pa. split; [reflexivity|]. left. split; [exact Pb|]. intros p Hp. destruct (Fa p Hp), (Fb p Hp). lia.
  - exists b. unfold add. rewrite Pa. split; [reflexivity|]. right. exists s'. split; [exact Hb'|]. intros p Hp. destruct (Fa p Hp) as [-> _]. rewrite Z.add_0_l. apply Fb, Hp.
  - exists a. unfold add. unfold BFVProofs.has in Ha. rewrite Ha, Pb. split; [reflexivity|]. right. exists s. split; [exact Ha|]. intros p Hp. destruct (Fb p Hp) as [-> _]. rewrite Z.add_0_r. apply Fa, Hp.
  - unfold BFVProofs.has in Ha, Hb'. unfold add. rewrite Ha, Hb', Nat.eqb_refl. eexists. split; [reflexivity|]. right. eexists. split; [reflexivity|].
    intros p Hp. unfold slotwise. rewrite tab_nth by exact Hp. rewrite (Fa p Hp), (Fb p Hp). symmetry. apply Z.add_mod. lia.
Qed.
Lemma mul_st a s w : has a key s -> length w = 2 * R -> (forall p, p < 2 * R -> nth p w 0%Z = 0%Z \/ nth p w 0%Z = 1%Z) -> forall f, (forall p, p < 2 * R -> nth p s 0%Z = (f p mod t)%Z) ->
  exists c, mul_encoded R t a w = Some c /\ st c (fun p => f p * nth p w 0)%Z (fun p => nth p w 0%Z).
Proof.
  intros Ha L B f Hf. destruct (encode_nth R t HR Ht0 w) as (e & Ee & Le & Ne); [lia| |].
  { intros v Hv. destruct (In_nth _ _ 0%Z Hv) as (p & Hp & <-). rewrite L in Hp. destruct (B p Hp) as [-> | ->]; lia. }
  unfold mul_encoded. rewrite Ee. destruct (forallb (Z.eqb 0) e) eqn:Z0.
  - eexists. split; [reflexivity|]. left. split; [reflexivity|]. intros p Hp.
    assert (W : nth p w 0%Z = 0%Z).
    { assert (nth p e 0%Z = 0%Z) as E0. { destruct (nth_in_or_default p e 0%Z) as [Hin|Hd]; [|exact Hd]. apply (proj1 (forallb_forall _ _) Z0) in Hin. apply Z.eqb_eq in Hin. congruence. }
      rewrite Ne in E0. destruct (B p Hp) as [->|E1]; [reflexivity|]. rewrite E1, Z.mod_small in E0 by lia. discriminate E0. }
    rewrite W. lia.
  - unfold BFVProofs.has in Ha. rewrite Ha. eexists. split; [reflexivity|]. right. eexists. split; [reflexivity|]. intros p Hp.
    unfold slotwise. rewrite tab_nth by exact Hp. rewrite Ne, (Hf p Hp). symmetry. apply Z.mul_mod. lia.
Qed.
Lemma tree_st (F M : nat -> nat -> Z) : forall cs items, Forall2 (fun c a => st a (F c) (M c)) cs items ->
  forall acc f m, st acc f m -> exists r, tree_sum R t acc items = Some r /\
    st r (fun p => f p + fold_right Z.add 0 (map (fun c => F c p) cs))%Z (fun p => m p + fold_right Z.add 0 (map (fun c => M c p) cs))%Z.
Proof.
  induction 1 as [|c a cs items Ha _ IH]; intros acc f m Hacc.
  - exists acc. split; [reflexivity|]. cbn. destruct Hacc as [[P K]|(s & Hs & K)].
    + left. split; [exact P|]. intros p Hp. destruct (K p Hp). lia.
    + right. exists s. split; [exact Hs|]. intros p Hp. rewrite Z.add_0_r. apply K, Hp.
  - cbn [tree_sum]. destruct (add_st acc a f (F c) m (M c) Hacc Ha) as (acc' & E & Hacc'). rewrite E. cbn [bind].
    destruct (IH acc' _ _ Hacc') as (r & Er & Hr). exists r. split; [exact Er|]. cbn [map fold_right].
    destruct Hr as [[P K]|(s & Hs & K)].
    + left. split; [exact P|]. intros p Hp. destruct (K p Hp). lia.
    + right. exists s. split; [exact Hs|]. intros p Hp. rewrite Z.add_assoc. apply K, Hp.
Qed.
End Acc.

Section Main.
Variables (R e j : nat) (t : Z).
Hypothesis HRe : R = 2 ^ e.
Hypothesis Hje : j <= e.
Hypothesis Ht1 : (1 < t)%Z.
Variables (g : list Z) (node : list bool) (bins : list nat) (key : nat).
Let nb := 2 ^ S j.
Let slots := 2 * R.
Let stride := slots / nb.
Let blocks := (length g + slots - 1) / slots.
Let cap := Nat.min stride (Nat.max ((length g + blocks - 1) / blocks / nb * 2) 64).

Lemma histogram_ok : fits t g -> length node = length g -> length bins = length g -> (forall b, In b bins -> b < nb) ->
  (exists i, nth_error node i = Some true) ->
  (forall c b, c < blocks -> b < nb -> members node bins b (c * slots) slots <= cap) ->
  exists h, histogram R t g node bins nb key = Some h /\ length h = nb /\
    forall b, b < nb -> is_centred t (block_starts_sum g node bins slots blocks stride b) (nth b h 0%Z).
Proof.
  intros FT Ln Lb Hb (i0 & Hi0) Hcap.
  assert (HR : 0 < R) by (rewrite HRe; pose proof (Nat.pow_nonzero 2 e); lia).
  assert (Ht0 : (0 < t)%Z) by lia.
  assert (Est : stride = 2 ^ (e - j)).
  { unfold stride, slots, nb. rewrite HRe, <- Nat.pow_succ_r'. rewrite <- Nat.pow_sub_r by lia. f_equal. }
  assert (Hst : 0 < stride) by (rewrite Est; pose proof (Nat.pow_nonzero 2 (e - j)); lia).
  assert (Hgrid : nb * stride = 2 * R).
  { rewrite Est. unfold nb. rewrite HRe, <- Nat.pow_add_r, <- Nat.pow_succ_r'. f_equal. lia. }
  assert (Hnb : 0 < nb) by (unfold nb; pose proof (Nat.pow_nonzero 2 (S j)); lia).
  assert (Hsl : 0 < slots) by (unfold slots; lia).
  assert (Hcs : forall c b, c < blocks -> b < nb -> members node bins b (c * slots) slots <= stride) by (intros c b Hc Hb'; specialize (Hcap c b Hc Hb'); unfold cap in Hcap; lia).
  assert (Li0 : i0 < length g) by (rewrite <- Ln; apply nth_error_Some; congruence).
  assert (Hblk : i0 / slots < blocks).
  { apply block_of; assumption. }
  set (W := fun c => packed_mask R (chunk R false node c) (chunk R 0 bins c) stride).
  assert (WV : forall c b m, c < blocks -> b < nb -> m < stride -> nth (b * stride + m) (W c) 0%Z = if m <? members node bins b (c * slots) slots then 1%Z else 0%Z).
  { intros c b m Hc Hb' Hm. unfold W. apply (mask_value R HR node bins nb stride Hgrid Hb); try assumption. intros b' Hb''. apply (Hcs c b' Hc Hb''). }
  assert (WB : forall c p, c < blocks -> p < 2 * R -> nth p (W c) 0%Z = 0%Z \/ nth p (W c) 0%Z = 1%Z).
  { intros c p Hc Hp. rewrite (Nat.div_mod p stride) by lia. rewrite (Nat.mul_comm stride). rewrite WV; [destruct (_ <? _); auto|exact Hc| |apply Nat.mod_upper_bound; lia].
    apply Nat.div_lt_upper_bound; [lia|]. rewrite Nat.mul_comm. lia. }
  (* encryption *)
  unfold histogram. cbv zeta. fold slots. fold nb. change (2 * R) with slots. fold stride. fold blocks. fold cap.
  set (GC := fun c => chunk R 0%Z g c).
  assert (FC : forall c, fits t (GC c)).
  { intros c v Hv. unfold GC, chunk, tab in Hv. apply in_map_iff in Hv. destruct Hv as (p & <- & _).
    destruct (nth_in_or_default (c * (2 * R) + p) g 0%Z) as [I|E]; [apply FT, I|rewrite E; lia]. }
  assert (LC : forall c, length (GC c) = 2 * R) by (intros c; unfold GC, chunk; apply tab_length).
  unfold encrypt_g.
  destruct (mapM_exists (fun c => encrypt R t (GC c) (PublicCtx key)) (seq 0 blocks)) as (cts & Ec & Fc).
  { intros c _. destruct (encrypt_has R t HR Ht0 (GC c) (PublicCtx key) key eq_refl) as (s & Es & _); [rewrite LC; lia|apply FC|]. eauto. }
  change (mapM (fun c : nat => encrypt R t (chunk R 0%Z g c) (PublicCtx key)) (seq 0 blocks)) with (mapM (fun c => encrypt R t (GC c) (PublicCtx key)) (seq 0 blocks)).
  rewrite Ec. cbn [bind].
  assert (CT : forall c, c < blocks -> exists s, has (nth c cts (Cipher None (PublicCtx key))) key s /\ forall p, p < 2 * R -> nth p s 0%Z = (nth (c * slots + p) g 0 mod t)%Z).
  { intros c Hc. destruct (mapM_Some _ _ _ Ec) as [Lc Nc]. rewrite seq_length in Lc, Nc. specialize (Nc c 0 (Cipher None (PublicCtx key)) Hc). rewrite seq_nth in Nc by exact Hc. cbn [Nat.add] in Nc.
    destruct (encode_nth R t HR Ht0 (GC c)) as (s & Es & _ & Ns); [rewrite LC; lia|apply FC|].
    unfold encrypt in Nc. cbn [public_part] in Nc. rewrite Es in Nc. injection Nc as Nc. rewrite <- Nc. exists s. split; [reflexivity|]. intros p Hp. rewrite Ns. unfold GC. rewrite chunk_nth' by exact Hp. reflexivity. }
  set (F := fun c p => (nth (c * slots + p) g 0 * nth p (W c) 0)%Z).
  set (M := fun c p => nth p (W c) 0%Z).
  destruct (mapM_exists (fun c => mul_encoded R t (nth c cts (Cipher None (PublicCtx key))) (W c)) (seq 0 blocks)) as (ms & Em & Fm).
  { intros c Hc. apply in_seq in Hc. destruct (CT c) as (s & Hs & Ns); [lia|].
    destruct (mul_st R t HR Ht1 key _ s (W c) Hs) with (f := fun p => nth (c * slots + p) g 0%Z) as (c' & E' & _); [apply tab_length|intros p Hp; apply WB; [lia|exact Hp]|exact Ns|]. eauto. }
  match goal with |- context [mapM ?f (seq 0 blocks)] => change (mapM f (seq 0 blocks)) with (mapM (fun c => mul_encoded R t (nth c cts (Cipher None (PublicCtx key))) (W c)) (seq 0 blocks)) end.
  rewrite Em. cbn [bind].
  assert (SM : Forall2 (fun c a => st R t key a (F c) (M c)) (seq 0 blocks) ms).
  { clear Em. revert Fm. assert (ALL : forall c, In c (seq 0 blocks) -> c < blocks) by (intros c Hc; apply in_seq in Hc; lia).
    revert ALL. generalize (seq 0 blocks). intros l ALL Fm. induction Fm as [|c a l l' E' Fm' IH]; constructor.
    - assert (Hc : c < blocks) by (apply ALL; left; reflexivity). destruct (CT c Hc) as (s & Hs & Ns).
      destruct (mul_st R t HR Ht1 key _ s (W c) Hs) with (f := fun p => nth (c * slots + p) g 0%Z) as (c' & E2 & S2); [apply tab_length|intros p Hp; apply WB; assumption|exact Ns|].
      rewrite E2 in E'. injection E' as <-. exact S2.
    - apply IH. intros c' Hc'. apply ALL. right. exact Hc'. }
  destruct blocks as [|n] eqn:EB; [lia|]. cbn [seq] in SM. inversion SM as [|c0 a0 cs rest S0 SR E1 E2]. subst c0 cs ms. rewrite <- EB in *.
  destruct (tree_st R t HR Ht1 key F M _ _ SR a0 (F 0) (M 0) S0) as (acc & Ea & Sa). rewrite Ea. cbn [bind].
  assert (SUM : forall (f : nat -> Z), (f 0%nat + fold_right Z.add 0 (map f (seq 1 n)) = zsum blocks f)%Z).
  { intros f. rewrite EB, <- (fold_right_zsum R HR). cbn [seq map fold_right]. reflexivity. }
  assert (ACC : exists s, has acc key s /\ forall p, p < 2 * R -> nth p s 0%Z = (zsum blocks (fun c => F c p) mod t)%Z).
  { destruct Sa as [[P K]|(s & Hs & K)].
    - exfalso. set (c0 := i0 / slots) in *. set (p0 := i0 mod slots).
      assert (Hp0 : p0 < slots) by (apply Nat.mod_upper_bound; lia).
      assert (Ei0 : i0 = c0 * slots + p0) by (unfold c0, p0; rewrite (Nat.mul_comm _ slots); apply Nat.div_mod; lia).
      set (b0 := nth i0 bins 0). assert (Hb0 : b0 < nb). { apply Hb, nth_In. lia. }
      assert (C1 : 0 < members node bins b0 (c0 * slots) slots).
      { unfold members. destruct (filter _ _) as [|x l] eqn:Fl; [|cbn; lia]. exfalso. assert (I : In i0 (filter (fun i => nth i node false && (nth i bins 0 =? b0)) (seq (c0 * slots) slots))).
        { apply filter_In. split; [apply in_seq; lia|]. rewrite (nth_error_nth node i0 false Hi0). unfold b0. now rewrite Nat.eqb_refl. }
        rewrite Fl in I. destruct I. }
      assert (Hpos : b0 * stride + 0 < 2 * R) by nia.
      destruct (K (b0 * stride + 0) Hpos) as [_ KM].
      rewrite (SUM (fun c => M c (b0 * stride + 0))) in KM.
      assert (NN : forall k, k <= blocks -> (0 <= zsum k (fun c => M c (b0 * stride + 0)%nat) /\ ((c0 < k)%nat -> 0 < zsum k (fun c => M c (b0 * stride + 0)%nat)))%Z).
      { induction k as [|k IHk]; intros Hk; cbn [zsum]; [lia|]. destruct IHk as [N1 N2]; [lia|].
        assert (B : M k (b0 * stride + 0) = 0%Z \/ M k (b0 * stride + 0) = 1%Z) by (apply WB; [lia|exact Hpos]). split; [lia|]. intros Hk'.
        destruct (Nat.eq_dec c0 k) as [<-|NE]; [|specialize (N2 ltac:(lia)); lia].
        assert (M1 : M c0 (b0 * stride + 0) = 1%Z) by (unfold M; rewrite WV by lia; destruct (Nat.ltb_spec 0 (members node bins b0 (c0 * slots) slots)); [reflexivity|lia]).
        rewrite M1. lia. }
      destruct (NN blocks ltac:(lia)) as [_ N2]. specialize (N2 Hblk). lia.
    - exists s. split; [exact Hs|]. intros p Hp. rewrite <- (SUM (fun c => F c p)). apply K, Hp. }
  destruct ACC as (s & Hs & Ns).
  assert (FV : forall c b m, c < blocks -> b < nb -> m < stride -> F c (b * stride + m) = if m <? members node bins b (c * slots) slots then nth (c * slots + b * stride + m) g 0%Z else 0%Z).
  { intros c b m Hc Hb' Hm. unfold F. rewrite WV by assumption. rewrite Nat.add_assoc. destruct (_ <? _); lia. }
  assert (Hcap0 : 0 < cap) by (unfold cap; lia).
  destruct (bucket_ok R t HR Ht1 acc key s (SecretCtx key) e j cap HRe Hje Hs eq_refl Hcap0) as (agg & s2 & Eagg & Hagg & Nagg).
  { change (cap <= stride). unfold cap. lia. }
  { intros b m Hb' Hm. change (2 * R / 2 ^ S j) with stride. change (2 * R / 2 ^ S j) with stride in Hm. change (2 ^ S j) with nb in Hb'.
    rewrite Ns by nia. rewrite (zsum_ext blocks _ (fun _ => 0%Z)); [rewrite zsum_0; apply Z.mod_0_l; lia|].
    intros c Hc. rewrite FV by (lia || assumption). pose proof (Hcap c b Hc Hb'). destruct (Nat.ltb_spec m (members node bins b (c * slots) slots)); [lia|reflexivity]. }
  change (2 ^ S j) with nb in Eagg, Nagg. change (2 * R) with slots in Eagg. change (2 * R / nb) with stride in Nagg. unfold make_galois_keys. rewrite Eagg. cbn [bind].
  set (pm := tab slots _).
  destruct (mul_has R t HR Ht0 agg key s2 pm Hagg) as (packed & s3 & Epk & _ & Hpk & Npk).
  { unfold pm. rewrite tab_length. unfold slots. lia. }
  { intros v Hv. unfold pm, tab in Hv. apply in_map_iff in Hv. destruct Hv as (p & <- & _). destruct (existsb _ _); lia. }
  { right. exists 0. split; [unfold pm; rewrite tab_length; exact Hsl|]. unfold pm. rewrite tab_nth by exact Hsl.
    replace (existsb (fun b => 0 =? b * stride) (seq 0 nb)) with true; [rewrite Z.mod_small by lia; discriminate|].
    symmetry. apply existsb_exists. exists 0. split; [apply in_seq; lia|reflexivity]. }
  rewrite Epk. cbn [bind]. unfold decrypt. cbn [secret_part]. unfold BFVProofs.has in Hpk. rewrite Hpk, Nat.eqb_refl. cbn [bind].
  eexists. split; [reflexivity|]. split; [rewrite map_length, seq_length; reflexivity|]. intros b Hb'.
  rewrite (nth_indep _ 0%Z ((fun b => nth (b * stride) (decode t s3) 0%Z) 0)) by (rewrite map_length, seq_length; exact Hb').
  rewrite (map_nth (fun b => nth (b * stride) (decode t s3) 0%Z)). rewrite seq_nth by exact Hb'. cbn [Nat.add].
  assert (D : nth (b * stride) (decode t s3) 0%Z = centred t (nth (b * stride) s3 0%Z)).
  { unfold decode. assert (Z0 : centred t 0 = 0%Z).
    { unfold centred. rewrite Z.mod_0_l by lia. destruct (Z.ltb_spec (t / 2) 0); [|reflexivity]. pose proof (Z.div_pos t 2). lia. }
    rewrite <- Z0 at 1. apply map_nth. }
  rewrite D. rewrite (centred_cong t _ (block_starts_sum g node bins slots blocks stride b)); [apply (centred_spec R t HR Ht0)|].
  assert (Hp : b * stride < 2 * R) by nia.
  eapply eq_trans; [apply Npk, Hp|].
  assert (P1 : nth (b * stride) pm 0%Z = 1%Z).
  { unfold pm. rewrite tab_nth by exact Hp. replace (existsb (fun b' => b * stride =? b' * stride) (seq 0 nb)) with true; [reflexivity|].
    symmetry. apply existsb_exists. exists b. split; [apply in_seq; lia|apply Nat.eqb_refl]. }
  rewrite P1, Z.mul_1_r. eapply eq_trans; [apply (Nagg b Hb')|].
  unfold bucket_sum, block_starts_sum. eapply eq_trans; [apply (zsum_cong cap _ (fun m => zsum blocks (fun c => F c (b * stride + m)))); [lia|]|].
  { intros m Hm. rewrite Ns; [apply Z.mod_mod; lia|]. assert (cap <= stride) by (unfold cap; lia). nia. }
  f_equal. rewrite zsum_swap. apply zsum_ext. intros c Hc.
  pose proof (Hcap c b Hc Hb') as Hm. rewrite (zsum_pad R HR (members node bins b (c * slots) slots) cap).
  - apply zsum_ext. intros m Hm'. assert (cap <= stride) by (unfold cap; lia). rewrite FV by (lia || assumption). destruct (Nat.ltb_spec m (members node bins b (c * slots) slots)); [reflexivity|lia].
  - exact Hm.
  - intros m Hm'. assert (cap <= stride) by (unfold cap; lia). rewrite FV by (lia || assumption). destruct (Nat.ltb_spec m (members node bins b (c * slots) slots)); [lia|reflexivity].
Qed.
End Main.

(** when the samples of every block already lie in their bucket's region, that is the plaintext sum *)
Lemma zsum_one n b f : b < n -> (forall i, i < n -> i <> b -> f i = 0%Z) -> zsum n f = f b.
Proof.
  revert f. induction n as [|n IH]; intros f Hb H; [lia|]. cbn [zsum]. destruct (Nat.eq_dec b n) as [->|N].
  - rewrite (zsum_ext n f (fun _ => 0%Z)) by (intros i Hi; apply H; lia). rewrite zsum_0. lia.
  - rewrite IH by (lia || intros; apply H; lia). rewrite (H n) by lia. lia.
Qed.
Lemma zsum_split s n k f : s = n * k -> zsum s f = zsum n (fun i => zsum k (fun j => f (i * k + j))).
Proof. intros ->. apply zsum_mul. Qed.
Lemma zsum_split2 s a f : a <= s -> zsum s f = (zsum a f + zsum (s - a) (fun i => f (a + i)%nat))%Z.
Proof. intros H. rewrite <- zsum_add. f_equal. lia. Qed.
Lemma arranged_sum g node bins slots blocks nb stride b : 0 < stride -> slots = nb * stride -> length g <= blocks * slots ->
  length node = length g -> b < nb ->
  (forall c b, c < blocks -> b < nb -> members node bins b (c * slots) slots <= stride) ->
  (forall c b m i, c < blocks -> b < nb -> m < stride -> i = c * slots + b * stride + m ->
     (m < members node bins b (c * slots) slots <-> nth i node false = true) /\ (nth i node false = true -> nth i bins 0 = b)) ->
  block_starts_sum g node bins slots blocks stride b = zsum (length g) (fun j => if in_node node bins b j then nth j g 0%Z else 0%Z).
Proof.
  intros Hst Hs Hlen Ln Hb Hcap Harr. unfold block_starts_sum.
  assert (PAD : zsum (length g) (fun j => if in_node node bins b j then nth j g 0%Z else 0%Z) = zsum (blocks * slots) (fun j => if in_node node bins b j then nth j g 0%Z else 0%Z)).
  { symmetry. replace (blocks * slots) with (length g + (blocks * slots - length g)) by lia. rewrite zsum_add. rewrite (zsum_ext (_ - _) _ (fun _ => 0%Z)); [rewrite zsum_0; lia|].
    intros i Hi. unfold in_node. rewrite (nth_overflow node) by lia. reflexivity. }
  rewrite PAD, zsum_mul. apply zsum_ext. intros c Hc.
  rewrite (zsum_split slots nb stride _ Hs). rewrite (zsum_one nb b); [|exact Hb|].
  - symmetry. rewrite (zsum_split2 stride (members node bins b (c * slots) slots)) by (apply Hcap; assumption).
    specialize (Hcap c b Hc Hb). rewrite (zsum_ext (stride - _) _ (fun _ => 0%Z)).
    + rewrite zsum_0, Z.add_0_r. apply zsum_ext. intros m Hm. rewrite Nat.add_assoc. destruct (Harr c b m _ Hc Hb ltac:(lia) eq_refl) as [A1 A2]. unfold in_node.
      rewrite (proj1 A1 Hm), (A2 (proj1 A1 Hm)), Nat.eqb_refl. reflexivity.
    + intros i Hi. destruct (Harr c b (members node bins b (c * slots) slots + i) _ Hc Hb ltac:(lia) eq_refl) as [A1 _]. unfold in_node.
      replace (c * slots + (b * stride + (members node bins b (c * slots) slots + i))) with (c * slots + b * stride + (members node bins b (c * slots) slots + i)) by lia.
      destruct (nth (c * slots + b * stride + (members node bins b (c * slots) slots + i)) node false); [|reflexivity]. exfalso. pose proof (proj2 A1 eq_refl). lia.
  - intros b' Hb' NE. rewrite (zsum_ext stride _ (fun _ => 0%Z)); [apply zsum_0|]. intros m Hm. destruct (Harr c b' m _ Hc Hb' Hm eq_refl) as [_ A2]. unfold in_node. rewrite Nat.add_assoc.
    destruct (nth (c * slots + b' * stride + m) node false) eqn:E; [|reflexivity]. rewrite (A2 eq_refl). destruct (Nat.eqb_spec b' b); [lia|reflexivity].
Qed.
Lemma blocks_cover n s : 0 < s -> n <= (n + s - 1) / s * s.
Proof. intros H. pose proof (Nat.div_mod (n + s - 1) s ltac:(lia)). pose proof (Nat.mod_upper_bound (n + s - 1) s ltac:(lia)). nia. Qed.
Lemma centred_eq t v w : (1 < t)%Z -> is_centred t v w -> (2 * Z.abs v < t)%Z -> w = v.
Proof.
  unfold is_centred. intros Ht (E & L & U) B. pose proof (Z.mod_pos_bound v t ltac:(lia)).
  assert ((w - v) mod t = 0)%Z as M by (rewrite Zminus_mod, E, Z.sub_diag; apply Z.mod_0_l; lia).
  apply Z.mod_divide in M; [|lia]. destruct M as [k Hk].
  pose proof (Z.div_mod t 2 ltac:(lia)). pose proof (Z.mod_pos_bound t 2 ltac:(lia)).
  pose proof (Z.div_mod (-(t - 1)) 2 ltac:(lia)). pose proof (Z.mod_pos_bound (-(t - 1)) 2 ltac:(lia)).
  assert (k = 0)%Z by nia. lia.
Qed.
