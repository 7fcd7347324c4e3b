(** Proofs about RandomModel: counting. *)
From Coq Require Import NArith ZArith List Arith Bool Lia Permutation.
From Verif Require Import RandomModel RandomSpec.
Import ListNotations.
Open Scope N_scope.

Lemma in_all_bytes b : In b all_bytes <-> b < 256.
Proof.
  unfold all_bytes. rewrite in_map_iff. split.
  - intros [n [<- Hn]]. apply in_seq in Hn. lia.
  - intros H. exists (N.to_nat b). split; [apply Nnat.N2Nat.id|]. apply in_seq. lia.
Qed.
Lemma nodup_all_bytes : NoDup all_bytes.
Proof. apply FinFun.Injective_map_NoDup; [intros x y; apply Nnat.Nat2N.inj|apply seq_NoDup]. Qed.
Lemma in_strings k s : In s (all_strings k) <-> length s = k /\ Forall (fun b => b < 256) s.
Proof.
  revert s. induction k as [|k IH]; intros s; cbn [all_strings].
  - split.
    + intros [<-|[]]. split; [reflexivity|constructor].
    + intros [H _]. destruct s; [left; reflexivity|discriminate].
  - rewrite in_flat_map. split.
    + intros [b [Hb Hs]]. apply in_map_iff in Hs as [s' [<- Hs]]. apply IH in Hs as [Hl Hf]. split; [cbn; lia|]. constructor; [apply in_all_bytes; assumption|assumption].
    + intros [Hl Hf]. destruct s as [|b s]; [discriminate|]. inversion Hf; subst. exists b. split; [apply in_all_bytes; assumption|].
      apply in_map. apply IH. split; [cbn in Hl; lia|assumption].
Qed.
Lemma nodup_flat_cons (A : Type) (l : list A) (m : list (list A)) : NoDup l -> NoDup m -> NoDup (flat_map (fun b => map (cons b) m) l).
Proof.
  intros Hl Hm. induction Hl as [|b l Hb Hl IH]; [constructor|]. cbn [flat_map].
  assert (Happ : forall (x y : list (list A)), NoDup x -> NoDup y -> (forall z, In z x -> ~ In z y) -> NoDup (x ++ y)).
  { clear. intros x y Hx Hy Hd. induction Hx as [|z x Hz Hx IH]; [assumption|]. cbn. constructor.
    - rewrite in_app_iff. intros [H|H]; [exact (Hz H)|apply (Hd z); [left; reflexivity|exact H]].
    - apply IH. intros w Hw. apply Hd. right. exact Hw. }
  apply Happ; [|exact IH|].
  - apply FinFun.Injective_map_NoDup; [|assumption]. intros x y H. congruence.
  - intros z Hz Hz'. apply in_map_iff in Hz as [s [<- _]]. apply in_flat_map in Hz' as [b' [Hb' Hs]]. apply in_map_iff in Hs as [s' [E _]]. injection E as -> _. exact (Hb Hb').
Qed.
Lemma nodup_strings k : NoDup (all_strings k).
Proof. induction k as [|k IH]; cbn [all_strings]; [repeat constructor; intros []|]. apply nodup_flat_cons; [apply nodup_all_bytes|exact IH]. Qed.

Lemma once_same k s : once k s k = s.
Proof. unfold once. rewrite Nat.eqb_refl. reflexivity. Qed.

(** counting by listing the preimages *)
Lemma ways_list (A : Type) dec k (f : (nat -> list N) -> A) v (L : list (list N)) : NoDup L ->
  (forall s, In s L <-> In s (all_strings k) /\ f (once k s) = v) -> ways dec k f v = N.of_nat (length L).
Proof.
  intros HL Hin. unfold ways. f_equal. apply Permutation_length. apply NoDup_Permutation; [apply NoDup_filter, nodup_strings|exact HL|].
  intros s. rewrite filter_In, Hin. destruct (dec (f (once k s)) v); split; intros [H1 H2]; split; auto; discriminate.
Qed.

(** big-endian and little-endian numbers *)
Fixpoint to_le (k : nat) (x : N) : list N := match k with O => [] | S k' => x mod 256 :: to_le k' (x / 256) end.
Lemma le_bound l : Forall (fun b => b < 256) l -> le l < 256 ^ N.of_nat (length l).
Proof.
  induction 1 as [|b l Hb Hl IH]; [cbn; lia|]. cbn [le length]. rewrite Nnat.Nat2N.inj_succ, N.pow_succ_r'. nia.
Qed.
Lemma to_le_length k x : length (to_le k x) = k.
Proof. revert x. induction k as [|k IH]; intros x; [reflexivity|]. cbn. rewrite IH. reflexivity. Qed.
Lemma to_le_bytes k x : Forall (fun b => b < 256) (to_le k x).
Proof. revert x. induction k as [|k IH]; intros x; [constructor|]. cbn [to_le]. constructor; [apply N.mod_lt; lia|apply IH]. Qed.
Lemma le_to_le k x : x < 256 ^ N.of_nat k -> le (to_le k x) = x.
Proof.
  revert x. induction k as [|k IH]; intros x H; [cbn in H; cbn; lia|]. cbn [to_le le]. rewrite IH.
  - pose proof (N.div_mod x 256). lia.
  - rewrite Nnat.Nat2N.inj_succ, N.pow_succ_r' in H. apply N.div_lt_upper_bound; lia.
Qed.
Lemma to_le_le l : Forall (fun b => b < 256) l -> to_le (length l) (le l) = l.
Proof.
  induction 1 as [|b l Hb Hl IH]; [reflexivity|]. cbn [length to_le le].
  replace (b + 256 * le l) with (b + le l * 256) by lia. rewrite N.mod_add, N.mod_small by lia. rewrite N.div_add, N.div_small by lia. cbn. rewrite IH. reflexivity.
Qed.
Lemma be_le_gen l a : fold_left (fun a b => 256 * a + b) l a = le (rev l) + 256 ^ N.of_nat (length l) * a.
Proof.
  revert a. induction l as [|b l IH]; intros a; [cbn [fold_left rev le length N.of_nat]; rewrite N.pow_0_r; lia|]. cbn [fold_left rev length]. rewrite IH.
  assert (Happ : forall x c, le (x ++ [c]) = le x + 256 ^ N.of_nat (length x) * c).
  { induction x as [|y x IHx]; intros c; [cbn [app le length N.of_nat]; rewrite N.pow_0_r; lia|]. cbn [app le length]. rewrite IHx, Nnat.Nat2N.inj_succ, N.pow_succ_r'. ring. }
  rewrite Happ, rev_length, Nnat.Nat2N.inj_succ, N.pow_succ_r'. ring.
Qed.
Lemma be_le l : be l = le (rev l).
Proof. unfold be. rewrite be_le_gen. lia. Qed.

Lemma Forall_rev' (P : N -> Prop) l : Forall P l -> Forall P (rev l).
Proof. intros H. apply Forall_forall. intros x Hx. apply in_rev in Hx. rewrite Forall_forall in H. apply H. exact Hx. Qed.

(** the strings with a given big-endian value *)
Lemma be_preimage k s x : In s (all_strings k) -> be s = x -> s = rev (to_le k x).
Proof.
  intros H E. apply in_strings in H as [Hl Hf]. rewrite be_le in E. rewrite <- E, <- Hl, <- (rev_length s).
  rewrite to_le_le by (apply Forall_rev'; exact Hf). symmetry. apply rev_involutive.
Qed.
Lemma be_image k x : x < 256 ^ N.of_nat k -> In (rev (to_le k x)) (all_strings k) /\ be (rev (to_le k x)) = x.
Proof.
  intros H. split.
  - apply in_strings. split; [rewrite rev_length; apply to_le_length|apply Forall_rev', to_le_bytes].
  - rewrite be_le, rev_involutive. apply le_to_le. exact H.
Qed.

Lemma scalar_ways s : s < order ->
  ways N.eq_dec 32 random_scalar s = if s <? 2 ^ 256 - order then 2 else 1.
Proof.
  intros Hs. assert (E256 : 256 ^ N.of_nat 32 = 2 ^ 256) by reflexivity.
  assert (Ho : 2 ^ 256 < 2 * order) by reflexivity. assert (Ho' : order < 2 ^ 256) by reflexivity.
  remember (2 ^ 256) as B eqn:EB. clear EB.
  assert (Hpre : forall t, In t (all_strings 32) -> random_scalar (once 32 t) = s -> be t = s \/ (be t = s + order /\ s + order < B)).
  { intros t Ht E. unfold random_scalar in E. rewrite once_same in E.
    assert (Hb : be t < B).
    { apply in_strings in Ht as [Hl Hf]. rewrite be_le. rewrite <- E256, <- Hl, <- (rev_length t). apply le_bound, Forall_rev', Hf. }
    assert (Hm := N.div_mod (be t) order). assert (Hq : be t / order < 2) by (apply N.div_lt_upper_bound; lia).
    rewrite E in Hm. assert (Hn : order <> 0) by discriminate. specialize (Hm Hn).
    remember (be t / order) as d eqn:Ed. clear Ed E Hn. remember order as o eqn:Eo. clear Eo.
    assert (Hc : d = 0 \/ d = 1) by (clear -Hq; lia). destruct Hc as [Hc|Hc]; subst d; [left|right]; clear -Hm Hb; lia. }
  assert (Hn : order <> 0) by discriminate.
  destruct (N.ltb_spec s (B - order)) as [Hlt|Hge].
  - rewrite (ways_list _ N.eq_dec 32 random_scalar s [rev (to_le 32 s); rev (to_le 32 (s + order))]); [reflexivity| |].
    + destruct (be_image 32 s) as [_ E1]; [lia|]. destruct (be_image 32 (s + order)) as [_ E2]; [lia|].
      constructor; [|repeat constructor; intros []]. intros [H|[]]. rewrite <- H in E1. rewrite E2 in E1. lia.
    + intros t. split.
      * intros [<-|[<-|[]]].
        -- destruct (be_image 32 s) as [Hi E1]; [lia|]. split; [exact Hi|]. unfold random_scalar. rewrite once_same, E1. apply N.mod_small. exact Hs.
        -- destruct (be_image 32 (s + order)) as [Hi E1]; [lia|]. split; [exact Hi|]. unfold random_scalar. rewrite once_same, E1.
           replace (s + order) with (s + 1 * order) by lia. rewrite N.mod_add by exact Hn. apply N.mod_small. exact Hs.
      * intros [Ht E]. destruct (Hpre t Ht E) as [Hb|[Hb _]]; [left|right; left]; symmetry; apply (be_preimage _ _ _ Ht Hb).
  - rewrite (ways_list _ N.eq_dec 32 random_scalar s [rev (to_le 32 s)]); [reflexivity|repeat constructor; intros []|].
    intros t. split.
    + intros [<-|[]]. destruct (be_image 32 s) as [Hi E1]; [lia|]. split; [exact Hi|]. unfold random_scalar. rewrite once_same, E1. apply N.mod_small. exact Hs.
    + intros [Ht E]. destruct (Hpre t Ht E) as [Hb|[_ Hb]]; [left; symmetry; apply (be_preimage _ _ _ Ht Hb)|lia].
Qed.

(** tensors *)
Fixpoint unview (w : nat) (v : list N) : list N := match v with [] => [] | x :: r => to_le w x ++ unview w r end.
Lemma unview_ok w v : Forall (fun x => x < 256 ^ N.of_nat w) v ->
  view w (length v) (unview w v) = v /\ length (unview w v) = (length v * w)%nat /\ Forall (fun b => b < 256) (unview w v).
Proof.
  induction 1 as [|x v Hx Hv [IH1 [IH2 IH3]]]; [repeat split; constructor|]. cbn [unview length view]. repeat split.
  - assert (F1 : firstn w (to_le w x ++ unview w v) = to_le w x).
    { rewrite firstn_app, to_le_length, Nat.sub_diag, firstn_O, app_nil_r. apply firstn_all2. rewrite to_le_length. lia. }
    assert (F2 : skipn w (to_le w x ++ unview w v) = unview w v).
    { rewrite skipn_app, to_le_length, Nat.sub_diag, skipn_all2 by (rewrite to_le_length; lia). reflexivity. }
    rewrite F1, F2, IH1, le_to_le by exact Hx. reflexivity.
  - rewrite app_length, to_le_length, IH2. lia.
  - apply Forall_app. split; [apply to_le_bytes|exact IH3].
Qed.
Lemma view_unview w n s : length s = (n * w)%nat -> Forall (fun b => b < 256) s -> unview w (view w n s) = s /\ Forall (fun x => x < 256 ^ N.of_nat w) (view w n s) /\ length (view w n s) = n.
Proof.
  revert s. induction n as [|n IH]; intros s Hl Hf; [destruct s; [repeat constructor|discriminate]|]. cbn [view unview].
  assert (Hlw : length (firstn w s) = w) by (rewrite firstn_length; lia).
  assert (Hsplit := firstn_skipn w s).
  assert (Hf1 : Forall (fun b => b < 256) (firstn w s)) by (rewrite <- Hsplit in Hf; apply Forall_app in Hf; tauto).
  assert (Hf2 : Forall (fun b => b < 256) (skipn w s)) by (rewrite <- Hsplit in Hf; apply Forall_app in Hf; tauto).
  destruct (IH (skipn w s)) as [E [Hx Hn]]; [rewrite skipn_length; cbn in Hl; lia|exact Hf2|]. split; [|split].
  - rewrite E. rewrite <- Hlw at 1. rewrite to_le_le by exact Hf1. exact Hsplit.
  - constructor; [|exact Hx]. pose proof (le_bound _ Hf1) as Hb. rewrite Hlw in Hb. exact Hb.
  - cbn [length]. rewrite Hn. reflexivity.
Qed.
Lemma tensor_ways w v : Forall (fun x => x < 256 ^ N.of_nat w) v ->
  ways list_N_dec (length v * w) (random_tensor w (length v)) v = 1.
Proof.
  intros Hv. destruct (unview_ok w v Hv) as [H1 [H2 H3]].
  rewrite (ways_list _ list_N_dec _ _ v [unview w v]); [reflexivity|repeat constructor; intros []|].
  intros s. unfold random_tensor. rewrite once_same. split.
  - intros [<-|[]]. split; [apply in_strings; split; assumption|exact H1].
  - intros [Hs E]. apply in_strings in Hs as [Hl Hf]. left. destruct (view_unview w (length v) s Hl Hf) as [Hu _]. rewrite E in Hu. exact Hu.
Qed.
Lemma tensor_range w n s : length s = (n * w)%nat -> Forall (fun b => b < 256) s ->
  length (random_tensor w n (once (n * w) s)) = n /\ Forall (fun x => x < 256 ^ N.of_nat w) (random_tensor w n (once (n * w) s)).
Proof. intros Hl Hf. unfold random_tensor. rewrite once_same. destruct (view_unview w n s Hl Hf) as [_ [H1 H2]]. split; assumption. Qed.
Lemma pow256 w : 256 ^ N.of_nat w = 2 ^ (8 * N.of_nat w).
Proof. change 256 with (2 ^ 8). rewrite <- N.pow_mul_r. reflexivity. Qed.
Lemma signed_ways (w : nat) v : (0 < w)%nat -> Forall (fun z => (- 2 ^ (8 * Z.of_nat w - 1) <= z < 2 ^ (8 * Z.of_nat w - 1))%Z) v ->
  ways list_Z_dec (length v * w) (random_tensor_signed w (length v)) v = 1.
Proof.
  intros Hw Hv. set (un := fun z : Z => Z.to_N (z mod 2 ^ (8 * Z.of_nat w))).
  assert (EH : (2 ^ (8 * Z.of_nat w) = 2 * 2 ^ (8 * Z.of_nat w - 1))%Z).
  { replace (8 * Z.of_nat w)%Z with (Z.succ (8 * Z.of_nat w - 1)) at 1 by lia. rewrite Z.pow_succ_r by lia. reflexivity. }
  assert (EP : (0 < 2 ^ (8 * Z.of_nat w - 1))%Z) by (apply Z.pow_pos_nonneg; lia).
  assert (EN : Z.of_N (2 ^ (8 * N.of_nat w - 1)) = (2 ^ (8 * Z.of_nat w - 1))%Z).
  { rewrite N2Z.inj_pow. f_equal. lia. }
  assert (EB : Z.of_N (256 ^ N.of_nat w) = (2 ^ (8 * Z.of_nat w))%Z).
  { rewrite pow256, N2Z.inj_pow. f_equal. lia. }
  assert (Hun : forall z, (- 2 ^ (8 * Z.of_nat w - 1) <= z < 2 ^ (8 * Z.of_nat w - 1))%Z -> signed w (un z) = z /\ un z < 256 ^ N.of_nat w).
  { intros z Hz. unfold un, signed.
    assert (Hm : (z mod 2 ^ (8 * Z.of_nat w) = if (z <? 0)%Z then z + 2 ^ (8 * Z.of_nat w) else z)%Z).
    { destruct (Z.ltb_spec z 0).
      - symmetry. apply Z.mod_unique_pos with (q := (-1)%Z); lia.
      - apply Z.mod_small. lia. }
    rewrite Hm. destruct (Z.ltb_spec z 0) as [Hneg|Hpos].
    - destruct (N.ltb_spec (Z.to_N (z + 2 ^ (8 * Z.of_nat w))) (2 ^ (8 * N.of_nat w - 1))) as [Hc|Hc].
      + exfalso. apply N2Z.inj_lt in Hc. rewrite Z2N.id, EN in Hc by lia. lia.
      + split; [rewrite Z2N.id by lia; lia|]. apply N2Z.inj_lt. rewrite Z2N.id, EB by lia. lia.
    - destruct (N.ltb_spec (Z.to_N z) (2 ^ (8 * N.of_nat w - 1))) as [Hc|Hc].
      + split; [apply Z2N.id; lia|]. apply N2Z.inj_lt. rewrite Z2N.id, EB by lia. lia.
      + exfalso. apply N2Z.inj_le in Hc. rewrite Z2N.id, EN in Hc by lia. lia. }
  assert (Hinj : forall x, x < 256 ^ N.of_nat w -> un (signed w x) = x).
  { intros x Hx. apply N2Z.inj_lt in Hx. rewrite EB in Hx. unfold un, signed.
    destruct (N.ltb_spec x (2 ^ (8 * N.of_nat w - 1))) as [Hc|Hc].
    - rewrite Z.mod_small by lia. apply N2Z.id.
    - replace ((Z.of_N x - 2 ^ (8 * Z.of_nat w)) mod 2 ^ (8 * Z.of_nat w))%Z with (Z.of_N x); [apply N2Z.id|].
      apply Z.mod_unique_pos with (q := (-1)%Z); lia. }
  assert (Hl : Forall (fun x => x < 256 ^ N.of_nat w) (map un v)).
  { apply Forall_map. eapply Forall_impl; [|exact Hv]. intros z Hz. apply Hun. exact Hz. }
  assert (Hm : map (signed w) (map un v) = v).
  { rewrite map_map. rewrite <- (map_id v) at 2. apply map_ext_in. intros z Hz. rewrite Forall_forall in Hv. apply Hun. apply Hv. exact Hz. }
  destruct (unview_ok w (map un v) Hl) as [H1 [H2 H3]]. rewrite map_length in *.
  rewrite (ways_list _ list_Z_dec _ _ v [unview w (map un v)]); [reflexivity|repeat constructor; intros []|].
  intros s. unfold random_tensor_signed, random_tensor. rewrite once_same. split.
  - intros [<-|[]]. split; [apply in_strings; split; assumption|]. rewrite H1. exact Hm.
  - intros [Hs E]. apply in_strings in Hs as [Hls Hf]. left. destruct (view_unview w (length v) s Hls Hf) as [Hu [Hx _]].
    rewrite <- Hu. f_equal. transitivity (map un (map (signed w) (view w (length v) s))); [f_equal; symmetry; exact E|].
    rewrite map_map. transitivity (map (fun x => x) (view w (length v) s)); [|apply map_id]. apply map_ext_in. intros x Hxi. apply Hinj. rewrite Forall_forall in Hx. apply Hx. exact Hxi.
Qed.

(** bits *)
Definition isbit (b : N) : Prop := b = 0 \/ b = 1.
Fixpoint bit_lists (n : nat) : list (list N) := match n with O => [[]] | S n' => flat_map (fun b => map (cons b) (bit_lists n')) [0; 1] end.
Lemma in_bit_lists v : Forall isbit v -> In v (bit_lists (length v)).
Proof.
  induction 1 as [|b v Hb Hv IH]; [left; reflexivity|]. cbn [bit_lists length]. apply in_flat_map. exists b. split; [destruct Hb as [->| ->]; cbn; tauto|]. apply in_map. exact IH.
Qed.
Definition matches (v : list N) (b : N) : bool := if list_N_dec (firstn (length v) (byte_bits b)) v then true else false.
Lemma byte_count_ok : forallb (fun n => forallb (fun v => Nat.eqb (length (filter (matches v) all_bytes)) (2 ^ (8 - n))) (bit_lists n)) (seq 0 9) = true.
Proof. vm_compute. reflexivity. Qed.
Lemma byte_count v : Forall isbit v -> (length v <= 8)%nat -> length (filter (matches v) all_bytes) = (2 ^ (8 - length v))%nat.
Proof.
  intros Hv Hl. pose proof byte_count_ok as H. rewrite forallb_forall in H. specialize (H (length v)).
  rewrite in_seq in H. specialize (H ltac:(lia)). rewrite forallb_forall in H. specialize (H v (in_bit_lists v Hv)). apply Nat.eqb_eq in H. exact H.
Qed.
Lemma byte_bits_length b : length (byte_bits b) = 8%nat. Proof. reflexivity. Qed.
Definition prefix (v : list N) (s : list N) : bool := if list_N_dec (firstn (length v) (unpackbits s)) v then true else false.
Lemma prefix_cons v b s : prefix v (b :: s) = matches (firstn 8 v) b && prefix (skipn 8 v) s.
Proof.
  unfold prefix, matches. change (unpackbits (b :: s)) with (byte_bits b ++ unpackbits s).
  rewrite firstn_app, byte_bits_length, firstn_length, skipn_length.
  assert (E1 : firstn (length v) (byte_bits b) = firstn (Nat.min 8 (length v)) (byte_bits b)).
  { destruct (Nat.le_gt_cases 8 (length v)); [|f_equal; lia]. rewrite !firstn_all2 by (rewrite byte_bits_length; lia). reflexivity. }
  rewrite E1. assert (Hla : length (firstn (Nat.min 8 (length v)) (byte_bits b)) = length (firstn 8 v)) by (rewrite !firstn_length, byte_bits_length; lia).
  set (x := firstn (Nat.min 8 (length v)) (byte_bits b)) in *. set (y := firstn (length v - 8) (unpackbits s)).
  assert (Hs : v = firstn 8 v ++ skipn 8 v) by (symmetry; apply firstn_skipn).
  destruct (list_N_dec (x ++ y) v) as [E|E]; destruct (list_N_dec x (firstn 8 v)) as [Ex|Ex]; destruct (list_N_dec y (skipn 8 v)) as [Ey|Ey]; try reflexivity; exfalso.
  - apply Ey. rewrite Hs, Ex in E. apply app_inv_head in E. exact E.
  - apply Ex. rewrite Hs in E. apply (f_equal (firstn (length x))) in E. rewrite firstn_app, Nat.sub_diag, firstn_all, firstn_O, app_nil_r in E.
    rewrite Hla, firstn_app, Nat.sub_diag, firstn_all, firstn_O, app_nil_r in E. exact E.
  - apply Ex. rewrite Hs in E. apply (f_equal (firstn (length x))) in E. rewrite firstn_app, Nat.sub_diag, firstn_all, firstn_O, app_nil_r in E.
    rewrite Hla, firstn_app, Nat.sub_diag, firstn_all, firstn_O, app_nil_r in E. exact E.
  - apply E. rewrite Hs, Ex, Ey. reflexivity.
Qed.
Lemma filter_flat_cons (P Q : N -> bool) (R : list N -> bool) (C : list N -> bool) l m :
  (forall b s, C (b :: s) = P b && R s) ->
  length (filter C (flat_map (fun b => map (cons b) m) l)) = (length (filter P l) * length (filter R m))%nat.
Proof.
  intros HC. induction l as [|b l IH]; [reflexivity|]. cbn [flat_map filter]. rewrite filter_app, app_length, IH.
  assert (Hm : length (filter C (map (cons b) m)) = if P b then length (filter R m) else 0%nat).
  { clear IH. induction m as [|s m IH]; [destruct (P b); reflexivity|]. cbn [map filter]. rewrite HC. destruct (P b); cbn [andb].
    - destruct (R s); cbn [length]; rewrite IH; reflexivity.
    - exact IH. }
  rewrite Hm. destruct (P b); cbn [length]; lia.
Qed.
Lemma Forall_firstn_skipn (P : N -> Prop) k v : Forall P v -> Forall P (firstn k v) /\ Forall P (skipn k v).
Proof. intros H. rewrite <- (firstn_skipn k v) in H. apply Forall_app in H. exact H. Qed.
Lemma bits_count k v : Forall isbit v -> (length v <= 8 * k)%nat -> length (filter (prefix v) (all_strings k)) = (2 ^ (8 * k - length v))%nat.
Proof.
  revert v. induction k as [|k IH]; intros v Hv Hl; [destruct v; [reflexivity|cbn in Hl; lia]|]. cbn [all_strings].
  rewrite (filter_flat_cons (matches (firstn 8 v)) (fun _ => true) (prefix (skipn 8 v))) by (intros; apply prefix_cons).
  destruct (Forall_firstn_skipn _ 8 v Hv) as [Hf Hs]. rewrite IH, byte_count; [|exact Hf|rewrite firstn_length; lia|exact Hs|rewrite skipn_length; lia].
  rewrite <- Nat.pow_add_r. f_equal. rewrite firstn_length, skipn_length. lia.
Qed.
Lemma bits_ways v : Forall isbit v ->
  ways list_N_dec (random_bits_len (length v)) (random_bits (length v)) v = 2 ^ N.of_nat (8 * random_bits_len (length v) - length v).
Proof.
  intros Hv. unfold ways, random_bits.
  assert (E : forall s, (if list_N_dec (firstn (length v) (unpackbits (once (random_bits_len (length v)) s (random_bits_len (length v))))) v then true else false) = prefix v s)
    by (intros s; rewrite once_same; reflexivity).
  rewrite (filter_ext _ _ E). rewrite bits_count.
  - rewrite Nat2N.inj_pow. reflexivity.
  - exact Hv.
  - unfold random_bits_len. pose proof (Nat.div_mod (length v + 7) 8). pose proof (Nat.mod_upper_bound (length v + 7) 8). lia.
Qed.
Lemma bits_shape n s : length s = random_bits_len n -> length (random_bits n (once (random_bits_len n) s)) = n /\ Forall isbit (random_bits n (once (random_bits_len n) s)).
Proof.
  intros Hl. unfold random_bits. rewrite once_same.
  assert (Hu : length (unpackbits s) = (8 * length s)%nat).
  { clear. induction s as [|b s IH]; [reflexivity|]. change (unpackbits (b :: s)) with (byte_bits b ++ unpackbits s). rewrite app_length, IH, byte_bits_length. cbn [length]. lia. }
  split.
  - rewrite firstn_length, Hu, Hl. unfold random_bits_len. pose proof (Nat.div_mod (n + 7) 8). pose proof (Nat.mod_upper_bound (n + 7) 8). lia.
  - apply Forall_firstn_skipn. clear. induction s as [|b s IH]; [constructor|]. change (unpackbits (b :: s)) with (byte_bits b ++ unpackbits s). apply Forall_app. split; [|exact IH].
    apply Forall_map. apply Forall_forall. intros i _. destruct (N.testbit b i); [right|left]; reflexivity.
Qed.
