(** The bitonic network sorts: proof over functions from positions to bits (all thresholds),
    then to naturals. *)
From Coq Require Import List Bool Arith Lia ZifyBool.
From Verif Require Import PermModel.
Import ListNotations.
Local Open Scope nat_scope.

(* ---------------------------------------------------------------- partner positions *)

Lemma bit_lo a k i : i < 2 ^ k -> Nat.testbit (a * 2 ^ S k + i) k = false.
Proof.
  intros H. rewrite Nat.testbit_eqb. replace (a * 2 ^ S k + i) with (i + (2 * a) * 2 ^ k) by (cbn [Nat.pow]; lia).
  rewrite Nat.div_add by (apply Nat.pow_nonzero; discriminate). rewrite Nat.div_small by exact H.
  rewrite Nat.add_0_l, Nat.mul_comm, Nat.mod_mul by discriminate. reflexivity.
Qed.
Lemma lxor_add p k : Nat.testbit p k = false -> Nat.lxor p (2 ^ k) = p + 2 ^ k.
Proof.
  intros H. symmetry. apply Nat.add_nocarry_lxor. apply Nat.bits_inj. intros j.
  rewrite Nat.land_spec, Nat.bits_0, Nat.pow2_bits_eqb. destruct (Nat.eqb_spec k j) as [<-|]; [rewrite H; reflexivity|apply andb_false_r].
Qed.
Lemma partner_lo a k i : i < 2 ^ k -> Nat.lxor (a * 2 ^ S k + i) (2 ^ k) = a * 2 ^ S k + i + 2 ^ k.
Proof. intros H. apply lxor_add, bit_lo, H. Qed.
Lemma lxor_invol p q : Nat.lxor (Nat.lxor p q) q = p.
Proof. rewrite Nat.lxor_assoc, Nat.lxor_nilpotent, Nat.lxor_0_r. reflexivity. Qed.
Lemma partner_hi a k i : i < 2 ^ k -> Nat.lxor (a * 2 ^ S k + i + 2 ^ k) (2 ^ k) = a * 2 ^ S k + i.
Proof. intros H. rewrite <- partner_lo by exact H. apply lxor_invol. Qed.
Lemma split_pos p k : exists a i, i < 2 ^ k /\ (p = a * 2 ^ S k + i \/ p = a * 2 ^ S k + i + 2 ^ k).
Proof.
  exists (p / 2 ^ S k). assert (2 ^ S k <> 0) as Z by (apply Nat.pow_nonzero; discriminate).
  pose proof (Nat.div_mod p (2 ^ S k) Z) as E. pose proof (Nat.mod_upper_bound p (2 ^ S k) Z) as U.
  destruct (le_lt_dec (2 ^ k) (p mod 2 ^ S k)) as [L|L].
  - exists (p mod 2 ^ S k - 2 ^ k). change (2 ^ S k) with (2 * 2 ^ k) in *. split; [lia|right; lia].
  - exists (p mod 2 ^ S k). change (2 ^ S k) with (2 * 2 ^ k) in *. split; [lia|left; lia].
Qed.

(* ---------------------------------------------------------------- boolean half cleaner *)

Definition inn (x y i : nat) : bool := (x <=? i) && (i <? y).
Definition bitonic (L : nat) (f : nat -> bool) : Prop :=
  exists c x y, x <= y /\ y <= L /\ forall i, i < L -> f i = xorb c (inn x y i).

Lemma bitonic_ext L f g : (forall i, i < L -> f i = g i) -> bitonic L f -> bitonic L g.
Proof. intros E (c & x & y & A & B & H). exists c, x, y. split; [exact A|]. split; [exact B|]. intros i Hi. rewrite <- E by exact Hi. apply H, Hi. Qed.
Lemma bitonic_neg L f : bitonic L f -> bitonic L (fun i => negb (f i)).
Proof.
  intros (c & x & y & A & B & H). exists (negb c), x, y. split; [exact A|]. split; [exact B|].
  intros i Hi. rewrite H by exact Hi. destruct c, (inn x y i); reflexivity.
Qed.

Lemma half_ones h f x y : x <= y -> y <= 2 * h -> (forall i, i < 2 * h -> f i = inn x y i) ->
  bitonic h (fun i => f i && f (i + h)) /\ bitonic h (fun i => f i || f (i + h)) /\
  ((forall i, i < h -> f i && f (i + h) = false) \/ (forall i, i < h -> f i || f (i + h) = true)).
Proof.
  intros A B H.
  assert (forall i, i < h -> f i = inn x y i) as H1 by (intros i Hi; apply H; lia).
  assert (forall i, i < h -> f (i + h) = inn x y (i + h)) as H2 by (intros i Hi; apply H; lia).
  unfold inn in *.
  destruct (le_lt_dec y h) as [Yh|Yh]; [|destruct (le_lt_dec h x) as [Xh|Xh]; [|destruct (le_lt_dec (y - h) x) as [D|D]]].
  - split; [|split].
    + exists false, 0, 0. split; [lia|]. split; [lia|]. intros i Hi. rewrite H1, H2 by exact Hi. unfold inn. lia.
    + exists false, x, y. split; [lia|]. split; [lia|]. intros i Hi. rewrite H1, H2 by exact Hi. unfold inn. lia.
    + left. intros i Hi. rewrite H1, H2 by exact Hi. lia.
  - split; [|split].
    + exists false, 0, 0. split; [lia|]. split; [lia|]. intros i Hi. rewrite H1, H2 by exact Hi. unfold inn. lia.
    + exists false, (x - h), (y - h). split; [lia|]. split; [lia|]. intros i Hi. rewrite H1, H2 by exact Hi. unfold inn. lia.
    + left. intros i Hi. rewrite H1, H2 by exact Hi. lia.
  - split; [|split].
    + exists false, 0, 0. split; [lia|]. split; [lia|]. intros i Hi. rewrite H1, H2 by exact Hi. unfold inn. lia.
    + exists true, (y - h), x. split; [lia|]. split; [lia|]. intros i Hi. rewrite H1, H2 by exact Hi. unfold inn. lia.
    + left. intros i Hi. rewrite H1, H2 by exact Hi. lia.
  - split; [|split].
    + exists false, x, (y - h). split; [lia|]. split; [lia|]. intros i Hi. rewrite H1, H2 by exact Hi. unfold inn. lia.
    + exists true, 0, 0. split; [lia|]. split; [lia|]. intros i Hi. rewrite H1, H2 by exact Hi. unfold inn. lia.
    + right. intros i Hi. rewrite H1, H2 by exact Hi. lia.
Qed.

Lemma half_cleaner h f : bitonic (2 * h) f ->
  bitonic h (fun i => f i && f (i + h)) /\ bitonic h (fun i => f i || f (i + h)) /\
  ((forall i, i < h -> f i && f (i + h) = false) \/ (forall i, i < h -> f i || f (i + h) = true)).
Proof.
  intros (c & x & y & A & B & H). destruct c.
  - destruct (half_ones h (fun i => negb (f i)) x y A B) as (P & Q & R).
    { intros i Hi. rewrite H by exact Hi. destruct (inn x y i); reflexivity. }
    split; [|split].
    + apply (bitonic_ext _ _ _ (fun i Hi => eq_refl)). apply bitonic_neg in Q.
      eapply bitonic_ext; [|exact Q]. intros i Hi. cbn beta. destruct (f i), (f (i + h)); reflexivity.
    + apply bitonic_neg in P. eapply bitonic_ext; [|exact P]. intros i Hi. cbn beta. destruct (f i), (f (i + h)); reflexivity.
    + destruct R as [R|R]; [right|left]; intros i Hi; specialize (R i Hi); destruct (f i), (f (i + h)); cbn in *; congruence.
  - apply (half_ones h f x y A B). intros i Hi. rewrite H by exact Hi. destruct (inn x y i); reflexivity.
Qed.

Lemma sorted_threshold L f : (forall i j, i < j -> j < L -> f i = true -> f j = true) ->
  exists t, t <= L /\ forall i, i < L -> f i = (t <=? i).
Proof.
  induction L as [|L IH]; intros H; [exists 0; split; [lia|intros; lia]|].
  destruct IH as (t & Ht & E); [intros i j A B; apply H; lia|].
  destruct (f L) eqn:F.
  - exists t. split; [lia|]. intros i Hi. destruct (Nat.eq_dec i L) as [->|Ne]; [rewrite F; lia|apply E; lia].
  - exists (S L). split; [lia|]. intros i Hi. destruct (Nat.eq_dec i L) as [->|Ne]; [rewrite F; lia|].
    destruct (f i) eqn:G; [|lia]. rewrite (H i L) in F; [discriminate|lia|lia|exact G].
Qed.

(* ---------------------------------------------------------------- the boolean network *)

Definition bstep (stage dist : nat) (B : nat -> bool) (p : nat) : bool :=
  let q := Nat.lxor p dist in
  if Bool.eqb (ascending stage (Nat.min p q)) (p <? q) then B p && B q else B p || B q.

(** window [a] of size 2^m *)
Definition win (m a i : nat) : nat := a * 2 ^ m + i.

Lemma win_split m a i : win (S m) a i = win m (2 * a) i.
Proof. unfold win. cbn [Nat.pow]. lia. Qed.
Lemma win_split_hi m a i : win (S m) a (i + 2 ^ m) = win m (2 * a + 1) i.
Proof. unfold win. cbn [Nat.pow]. lia. Qed.

(** block index of window a at level m in a stage with block size 2^(m+r) *)
Lemma asc_win stage m a i : m <= S stage -> i < 2 ^ m ->
  ascending stage (win m a i) = Nat.even (a / 2 ^ (S stage - m)).
Proof.
  intros Hm Hi. unfold ascending, win. f_equal. replace (stage + 1) with (m + (S stage - m)) by lia.
  rewrite Nat.pow_add_r, <- Nat.div_div by (apply Nat.pow_nonzero; discriminate).
  f_equal. rewrite Nat.add_comm, Nat.div_add by (apply Nat.pow_nonzero; discriminate).
  rewrite Nat.div_small by exact Hi. reflexivity.
Qed.

Lemma bstep_lo stage m B a i : m <= stage -> i < 2 ^ m ->
  bstep stage (2 ^ m) B (win m (2 * a) i) =
  if Nat.even (a / 2 ^ (stage - m)) then B (win (S m) a i) && B (win (S m) a (i + 2 ^ m))
  else B (win (S m) a i) || B (win (S m) a (i + 2 ^ m)).
Proof.
  intros Hm Hi. rewrite <- win_split. unfold bstep.
  assert (Nat.lxor (win (S m) a i) (2 ^ m) = win (S m) a (i + 2 ^ m)) as -> by (unfold win; rewrite partner_lo by exact Hi; lia).
  assert (0 < 2 ^ m) as P by lia.
  assert (win (S m) a i < win (S m) a (i + 2 ^ m)) as Lt by (unfold win; lia).
  rewrite Nat.min_l by lia. rewrite asc_win by (cbn [Nat.pow]; lia).
  replace (S stage - S m) with (stage - m) by lia. rewrite (proj2 (Nat.ltb_lt _ _) Lt).
  destruct (Nat.even _); reflexivity.
Qed.
Lemma bstep_hi stage m B a i : m <= stage -> i < 2 ^ m ->
  bstep stage (2 ^ m) B (win m (2 * a + 1) i) =
  if Nat.even (a / 2 ^ (stage - m)) then B (win (S m) a i) || B (win (S m) a (i + 2 ^ m))
  else B (win (S m) a i) && B (win (S m) a (i + 2 ^ m)).
Proof.
  intros Hm Hi. rewrite <- win_split_hi. unfold bstep.
  assert (Nat.lxor (win (S m) a (i + 2 ^ m)) (2 ^ m) = win (S m) a i) as ->.
  { unfold win. rewrite Nat.add_assoc. apply partner_hi, Hi. }
  assert (win (S m) a i < win (S m) a (i + 2 ^ m)) as Lt by (unfold win; lia).
  rewrite Nat.min_r by lia. rewrite asc_win by (cbn [Nat.pow]; lia).
  replace (S stage - S m) with (stage - m) by lia. rewrite (proj2 (Nat.ltb_ge _ _) (Nat.lt_le_incl _ _ Lt)).
  destruct (Nat.even _); cbn [Bool.eqb]; rewrite ?(orb_comm (B (win (S m) a (i + _)))), ?(andb_comm (B (win (S m) a (i + _)))); reflexivity.
Qed.

(** before the layer of distance 2^(m-1) of a stage *)
Definition Inv (stage m : nat) (B : nat -> bool) : Prop :=
  (forall a, bitonic (2 ^ m) (fun i => B (win m a i))) /\
  (forall a a' i j, a < a' -> a / 2 ^ (S stage - m) = a' / 2 ^ (S stage - m) -> i < 2 ^ m -> j < 2 ^ m ->
     if Nat.even (a / 2 ^ (S stage - m)) then B (win m a i) = true -> B (win m a' j) = true
     else B (win m a' j) = true -> B (win m a i) = true).

Lemma Inv_step stage m B : m <= stage -> Inv stage (S m) B -> Inv stage m (bstep stage (2 ^ m) B).
Proof.
  intros Hm (W & O). replace (S stage - S m) with (stage - m) in O by lia.
  split.
  - intros b. assert (b = 2 * (b / 2) \/ b = 2 * (b / 2) + 1) as Hb.
    { pose proof (Nat.div_mod b 2). pose proof (Nat.mod_upper_bound b 2). lia. }
    set (a := b / 2) in Hb. clearbody a.
    specialize (W a). change (2 ^ S m) with (2 * 2 ^ m) in W. apply half_cleaner in W. destruct W as (P & Q & _).
    destruct Hb as [-> | ->].
    + destruct (Nat.even (a / 2 ^ (stage - m))) eqn:E.
      * eapply bitonic_ext; [|exact P]. intros i Hi. cbn beta. rewrite bstep_lo, E by assumption. reflexivity.
      * eapply bitonic_ext; [|exact Q]. intros i Hi. cbn beta. rewrite bstep_lo, E by assumption. reflexivity.
    + destruct (Nat.even (a / 2 ^ (stage - m))) eqn:E.
      * eapply bitonic_ext; [|exact Q]. intros i Hi. cbn beta. rewrite bstep_hi, E by assumption. reflexivity.
      * eapply bitonic_ext; [|exact P]. intros i Hi. cbn beta. rewrite bstep_hi, E by assumption. reflexivity.
  - intros b b' i j Hlt Hblk Hi Hj. replace (S stage - m) with (S (stage - m)) in * by lia.
    assert (exists a, b / 2 = a) as (a & Ea) by eauto. assert (exists a, b' / 2 = a) as (a' & Ea') by eauto.
    assert (forall x, x / 2 ^ S (stage - m) = (x / 2) / 2 ^ (stage - m)) as DD.
    { intros x. cbn [Nat.pow]. rewrite Nat.div_div; [reflexivity|discriminate|apply Nat.pow_nonzero; discriminate]. }
    rewrite !DD, Ea, Ea' in *.
    assert (b = 2 * a \/ b = 2 * a + 1) as Hb by (pose proof (Nat.div_mod b 2); pose proof (Nat.mod_upper_bound b 2); lia).
    assert (b' = 2 * a' \/ b' = 2 * a' + 1) as Hb' by (pose proof (Nat.div_mod b' 2); pose proof (Nat.mod_upper_bound b' 2); lia).
    assert (i < 2 ^ S m /\ i + 2 ^ m < 2 ^ S m /\ j < 2 ^ S m /\ j + 2 ^ m < 2 ^ S m) as (I1 & I2 & J1 & J2) by (cbn [Nat.pow]; lia).
    destruct (Nat.eq_dec a a') as [<-|Ne].
    + assert (b = 2 * a /\ b' = 2 * a + 1) as [-> ->] by lia.
      rewrite bstep_lo, bstep_hi by assumption.
      specialize (W a). change (2 ^ S m) with (2 * 2 ^ m) in W. apply half_cleaner in W. destruct W as (_ & _ & D).
      destruct (Nat.even (a / 2 ^ (stage - m))); cbn beta in D.
      * destruct D as [D|D]; [rewrite (D i Hi); discriminate|rewrite (D j Hj); reflexivity].
      * destruct D as [D|D]; [rewrite (D j Hj); discriminate|rewrite (D i Hi); reflexivity].
    + assert (a < a') as Lt by lia.
      pose proof (O a a' i j Lt Hblk I1 J1) as O11. pose proof (O a a' i (j + 2 ^ m) Lt Hblk I1 J2) as O12.
      pose proof (O a a' (i + 2 ^ m) j Lt Hblk I2 J1) as O21. pose proof (O a a' (i + 2 ^ m) (j + 2 ^ m) Lt Hblk I2 J2) as O22.
      destruct Hb as [-> | ->]; destruct Hb' as [-> | ->];
        rewrite ?bstep_lo, ?bstep_hi by assumption; rewrite <- ?Hblk;
        destruct (Nat.even (a / 2 ^ (stage - m)));
        destruct (B (win (S m) a i)), (B (win (S m) a (i + 2 ^ m))), (B (win (S m) a' j)), (B (win (S m) a' (j + 2 ^ m)));
        cbn; intuition congruence.
Qed.

Fixpoint bnet (ls : list (nat * nat)) (B : nat -> bool) : nat -> bool :=
  match ls with [] => B | (s, dist) :: r => bnet r (bstep s dist B) end.
Lemma bnet_app l l' B : bnet (l ++ l') B = bnet l' (bnet l B).
Proof. revert B. induction l as [|[s t] l IH]; intros B; [reflexivity|cbn [app bnet]; apply IH]. Qed.

(** blocks of size 2^m are sorted in alternating directions *)
Definition Blocks (m : nat) (B : nat -> bool) : Prop :=
  forall k i j, i < j -> j < 2 ^ m ->
    if Nat.even k then B (win m k i) = true -> B (win m k j) = true
    else B (win m k j) = true -> B (win m k i) = true.

Lemma Blocks_Inv stage B : Blocks stage B -> Inv stage (S stage) B.
Proof.
  intros H. split.
  - intros a.
    destruct (sorted_threshold (2 ^ stage) (fun i => B (win stage (2 * a) i))) as (t & Ht & Et).
    { intros i j Hij Hj. pose proof (H (2 * a) i j Hij Hj) as K. rewrite Nat.even_mul in K. exact K. }
    destruct (sorted_threshold (2 ^ stage) (fun i => negb (B (win stage (2 * a + 1) i)))) as (u & Hu & Eu).
    { intros i j Hij Hj. pose proof (H (2 * a + 1) i j Hij Hj) as K. assert (Nat.even (2 * a + 1) = false) as Ev by (rewrite Nat.even_add, Nat.even_mul; reflexivity). rewrite Ev in K.
      cbn beta. destruct (B (win stage (2 * a + 1) i)), (B (win stage (2 * a + 1) j)); intuition congruence. }
    exists false, t, (2 ^ stage + u). cbn [Nat.pow]. split; [lia|]. split; [lia|]. intros i Hi.
    destruct (lt_dec i (2 ^ stage)) as [L|L].
    + rewrite win_split, Et by exact L. rewrite xorb_false_l. unfold inn. lia.
    + replace i with (i - 2 ^ stage + 2 ^ stage) at 1 by lia. rewrite win_split_hi.
      assert (i - 2 ^ stage < 2 ^ stage) as L' by lia. pose proof (Eu _ L') as E.
      apply (f_equal negb) in E. rewrite negb_involutive in E. rewrite E. rewrite xorb_false_l. unfold inn. lia.
  - intros a a' i j Hlt He. rewrite Nat.sub_diag in He. cbn [Nat.pow] in He. rewrite !Nat.div_1_r in He. lia.
Qed.
Lemma Inv_Blocks stage B : Inv stage 0 B -> Blocks (S stage) B.
Proof.
  intros (_ & O) k i j Hij Hj.
  assert (forall x, x < 2 ^ S stage -> (k * 2 ^ S stage + x) / 2 ^ (S stage - 0) = k) as D.
  { intros x Hx. rewrite Nat.sub_0_r, Nat.add_comm, Nat.div_add, Nat.div_small; [reflexivity|exact Hx|apply Nat.pow_nonzero; discriminate]. }
  pose proof (O (k * 2 ^ S stage + i) (k * 2 ^ S stage + j) 0 0) as K.
  rewrite !D in K by lia. unfold win in *. rewrite Nat.pow_0_r, !Nat.mul_1_r, !Nat.add_0_r in K.
  apply K; lia.
Qed.

Definition stage_layers (stage : nat) : list (nat * nat) := map (fun step => (stage, 2 ^ (stage - step))) (seq 0 (stage + 1)).
Lemma stage_sorts stage B : Blocks stage B -> Blocks (S stage) (bnet (stage_layers stage) B).
Proof.
  intros H. apply Inv_Blocks. apply Blocks_Inv in H. unfold stage_layers.
  assert (forall k B, k <= S stage -> Inv stage k B ->
     Inv stage 0 (bnet (map (fun step => (stage, 2 ^ (stage - step))) (seq (S stage - k) k)) B)) as K.
  { clear. induction k as [|k IH]; intros B Hk HI; [exact HI|].
    cbn [seq map bnet]. replace (stage - (S stage - S k)) with k by lia.
    replace (S (S stage - S k)) with (S stage - k) by lia. apply IH; [lia|]. apply Inv_step; [lia|exact HI]. }
  specialize (K (S stage) B (le_n _) H). rewrite Nat.sub_diag in K. replace (stage + 1) with (S stage) by lia. exact K.
Qed.
Lemma net_sorts S_ B : Blocks S_ (bnet (layers S_) B).
Proof.
  induction S_ as [|s IH]; [intros k i j A C; cbn in C; lia|].
  unfold layers in *. rewrite seq_S, flat_map_app, bnet_app. cbn [flat_map Nat.add]. rewrite app_nil_r. apply stage_sorts, IH.
Qed.

(* ---------------------------------------------------------------- the network on naturals *)

Definition swp (stage dist : nat) (f : nat -> nat) (p : nat) : bool :=
  let q := Nat.lxor p dist in
  let lo := Nat.min p q in let hi := Nat.max p q in
  if ascending stage lo then f hi <? f lo else f lo <? f hi.
Definition sg (stage dist : nat) (f : nat -> nat) (p : nat) : nat :=
  if swp stage dist f p then Nat.lxor p dist else p.

Lemma thr_step t stage dist f p : dist <> 0 ->
  (t <=? f (sg stage dist f p)) = bstep stage dist (fun p => t <=? f p) p.
Proof.
  intros Hd. unfold sg, swp, bstep. set (q := Nat.lxor p dist).
  assert (p <> q) as Ne.
  { intros E. apply Hd. apply (f_equal (Nat.lxor p)) in E. unfold q in E.
    rewrite Nat.lxor_nilpotent, <- Nat.lxor_assoc, Nat.lxor_nilpotent, Nat.lxor_0_l in E. congruence. }
  destruct (Nat.ltb_spec p q) as [L|L].
  - rewrite Nat.min_l, Nat.max_r by lia. destruct (ascending stage p); cbn [Bool.eqb].
    + destruct (Nat.ltb_spec (f q) (f p)); lia.
    + destruct (Nat.ltb_spec (f p) (f q)); lia.
  - rewrite Nat.min_r, Nat.max_l by lia. destruct (ascending stage q); cbn [Bool.eqb].
    + destruct (Nat.ltb_spec (f p) (f q)); lia.
    + destruct (Nat.ltb_spec (f q) (f p)); lia.
Qed.

(** the composed permutation of positions *)
Fixpoint nsig (ls : list (nat * nat)) (f : nat -> nat) : nat -> nat :=
  match ls with
  | [] => fun p => p
  | (s, dist) :: r => fun p => sg s dist f (nsig r (fun q => f (sg s dist f q)) p)
  end.

Lemma bnet_ext ls : forall B C, (forall p, B p = C p) -> forall p, bnet ls B p = bnet ls C p.
Proof.
  induction ls as [|[s dist] r IH]; intros B C E p; [apply E|]. cbn [bnet]. apply IH. intros x.
  unfold bstep. rewrite !E. reflexivity.
Qed.
Lemma thr_net t ls : Forall (fun l => snd l <> 0) ls -> forall f p,
  (t <=? f (nsig ls f p)) = bnet ls (fun p => t <=? f p) p.
Proof.
  induction 1 as [|[s dist] r Hd Hr IH]; intros f p; [reflexivity|].
  cbn [nsig bnet]. rewrite (IH (fun q => f (sg s dist f q))). apply bnet_ext. intros x. apply thr_step, Hd.
Qed.
Lemma layers_dist S_ : Forall (fun l => snd l <> 0) (layers S_).
Proof.
  unfold layers. apply Forall_flat_map, Forall_forall. intros s _. apply Forall_forall. intros l Hl.
  apply in_map_iff in Hl. destruct Hl as (x & <- & _). cbn [snd]. apply Nat.pow_nonzero. discriminate.
Qed.
Lemma layers_shape S_ : Forall (fun l => exists k, k < S_ /\ snd l = 2 ^ k) (layers S_).
Proof.
  unfold layers. apply Forall_flat_map, Forall_forall. intros s Hs. apply in_seq in Hs. apply Forall_forall. intros l Hl.
  apply in_map_iff in Hl. destruct Hl as (x & <- & _). exists (s - x). cbn [snd]. split; [lia|reflexivity].
Qed.

Theorem network_sorts S_ f : forall i j, i < j -> j < 2 ^ S_ ->
  f (nsig (layers S_) f i) <= f (nsig (layers S_) f j).
Proof.
  intros i j Hij Hj.
  pose proof (net_sorts S_ (fun p => f (nsig (layers S_) f i) <=? f p) 0 i j Hij Hj) as K. cbn [Nat.even] in K.
  unfold win in K. rewrite !Nat.mul_0_l, !Nat.add_0_l in K.
  rewrite <- !thr_net in K by apply layers_dist. rewrite Nat.leb_refl in K. specialize (K eq_refl). apply Nat.leb_le in K. exact K.
Qed.

(** positions below 2^S stay below, and the composed map is injective *)
Lemma lxor_lt S_ k p : k < S_ -> p < 2 ^ S_ -> Nat.lxor p (2 ^ k) < 2 ^ S_.
Proof.
  intros Hk Hp. destruct (split_pos p k) as (a & i & Hi & [-> | ->]).
  - rewrite partner_lo by exact Hi.
    assert (S_ = S k + (S_ - S k)) as E by lia. rewrite E, Nat.pow_add_r in *.
    assert (a < 2 ^ (S_ - S k)) as A. { destruct (le_lt_dec (2 ^ (S_ - S k)) a) as [L|L]; [exfalso|exact L].
      pose proof (Nat.mul_le_mono_l _ _ (2 ^ S k) L). lia. }
    assert (a + 1 <= 2 ^ (S_ - S k)) as A' by lia. pose proof (Nat.mul_le_mono_l _ _ (2 ^ S k) A').
    cbn [Nat.pow] in *. lia.
  - rewrite partner_hi by exact Hi. lia.
Qed.
Lemma sg_lt S_ k s f p : k < S_ -> p < 2 ^ S_ -> sg s (2 ^ k) f p < 2 ^ S_.
Proof. intros Hk Hp. unfold sg. destruct (swp _ _ _ _); [apply lxor_lt; assumption|exact Hp]. Qed.
Lemma swp_partner s dist f p : swp s dist f (Nat.lxor p dist) = swp s dist f p.
Proof. unfold swp. rewrite lxor_invol, Nat.min_comm, Nat.max_comm. reflexivity. Qed.
Lemma sg_invol s dist f p : sg s dist f (sg s dist f p) = p.
Proof.
  unfold sg at 2. destruct (swp s dist f p) eqn:E; unfold sg.
  - rewrite swp_partner, E. apply lxor_invol.
  - rewrite E. reflexivity.
Qed.
Lemma nsig_lt S_ ls : Forall (fun l => exists k, k < S_ /\ snd l = 2 ^ k) ls -> forall f p, p < 2 ^ S_ -> nsig ls f p < 2 ^ S_.
Proof.
  induction 1 as [|[s dist] r Hd Hr IH]; intros f p Hp; [exact Hp|]. cbn [nsig snd] in *.
  destruct Hd as (k & Hk & ->). apply sg_lt; [exact Hk|]. apply IH, Hp.
Qed.
Lemma nsig_inj ls : forall f p q, nsig ls f p = nsig ls f q -> p = q.
Proof.
  induction ls as [|[s dist] r IH]; intros f p q H; [exact H|]. cbn [nsig] in H.
  apply (f_equal (sg s dist f)) in H. rewrite !sg_invol in H. exact (IH _ _ _ H).
Qed.

(** a sorted injection of {0..n-1} into itself is the identity *)
Lemma sorted_inj_id n (g : nat -> nat) : (forall i, i < n -> g i < n) ->
  (forall i j, i < n -> j < n -> g i = g j -> i = j) -> (forall i j, i < j -> j < n -> g i <= g j) ->
  forall i, i < n -> g i = i.
Proof.
  intros HL HI HS.
  assert (forall i, i < n -> i <= g i) as Lo.
  { induction i as [|i IH]; intros Hi; [lia|]. assert (g i <= g (S i)) by (apply HS; lia).
    assert (g i <> g (S i)) by (intros E; apply HI in E; lia). assert (i <= g i) by (apply IH; lia). lia. }
  assert (forall k i, i + k = n -> 0 < k -> g i <= i) as Hi_.
  { induction k as [|k IH]; intros i E P; [lia|]. destruct k as [|k].
    - assert (g i < n) by (apply HL; lia). lia.
    - assert (g (S i) <= S i) by (apply IH; lia). assert (g i <= g (S i)) by (apply HS; lia).
      assert (g i <> g (S i)) by (intros E'; apply HI in E'; lia). lia. }
  intros i Hi. assert (g i <= i) by (apply (Hi_ (n - i)); lia). specialize (Lo i Hi). lia.
Qed.
