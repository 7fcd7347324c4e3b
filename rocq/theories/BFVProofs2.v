(** Sparse and bucket aggregation, key cache. *)
From Coq Require Import List ZArith Bool Arith Lia.
From Verif Require Import MPCBase BFVModel BFVSpec BFVProofs.
Import ListNotations.
Local Open Scope nat_scope.

(* ---------------------------------------------------------------- masks of a sparse aggregation *)

Section Masks.
Variable V : nat.

(** every mask bit was asked for *)
Definition rots_ok (ps : list (nat * nat)) (rots : list (Z * list Z)) : Prop :=
  forall s m, In (s, m) rots -> length m = V /\ forall p : nat, nth p m 0%Z = 0%Z \/
    (nth p m 0%Z = 1%Z /\ exists src, In (p, src) ps /\ (Z.of_nat src - Z.of_nat p)%Z = s).
Definition total (f : Z -> Z) (p : nat) (rots : list (Z * list Z)) : Z :=
  fold_right (fun sm acc => (nth p (snd sm) 0 * f (fst sm) + acc)%Z) 0%Z rots.
Definition asked (f : Z -> Z) (p : nat) (ps : list (nat * nat)) : Z :=
  fold_right (fun ts acc => ((if Nat.eqb (fst ts) p then f (Z.of_nat (snd ts) - Z.of_nat p) else 0) + acc)%Z) 0%Z ps.

Definition mark (tgt : nat) (m : list Z) : list Z := tab V (fun p => if Nat.eqb p tgt then 1%Z else nth p m 0%Z).
Lemma mark_nth tgt m p : tgt < V -> length m = V -> nth p (mark tgt m) 0%Z = if Nat.eqb p tgt then 1%Z else nth p m 0%Z.
Proof.
  intros Ht L. unfold mark. destruct (lt_dec p V) as [H|H]; [rewrite tab_nth by exact H; reflexivity|].
  rewrite !nth_overflow by (rewrite ?tab_length; lia). destruct (Nat.eqb_spec p tgt); [lia|reflexivity].
Qed.
Lemma mark_length tgt m : length (mark tgt m) = V. Proof. apply tab_length. Qed.

Lemma set_mask_nil s tgt : set_mask [] s tgt V = [(s, mark tgt (repeat 0%Z V))]. Proof. reflexivity. Qed.
Lemma set_mask_cons s m rots s' tgt : set_mask ((s, m) :: rots) s' tgt V
  = if (s =? s')%Z then (s, mark tgt m) :: rots else (s, m) :: set_mask rots s' tgt V.
Proof. reflexivity. Qed.
Lemma set_mask_ok ps rots tgt src : tgt < V -> rots_ok ps rots ->
  rots_ok (ps ++ [(tgt, src)]) (set_mask rots (Z.of_nat src - Z.of_nat tgt) tgt V).
Proof.
  intros Ht. induction rots as [|[s m] rots IH]; intros OK; [rewrite set_mask_nil|rewrite set_mask_cons].
  - intros s' m' [E|[]]. injection E as <- <-. split; [apply mark_length|]. intros p.
    rewrite mark_nth by (try exact Ht; apply repeat_length). destruct (Nat.eqb_spec p tgt) as [->|Ne].
    + right. split; [reflexivity|]. exists src. split; [apply in_or_app; right; left; reflexivity|reflexivity].
    + left. apply nth_repeat.
  - assert (forall s' m', In (s', m') rots -> length m' = V /\ forall p : nat, nth p m' 0%Z = 0%Z \/
      (nth p m' 0%Z = 1%Z /\ exists src', In (p, src') (ps ++ [(tgt, src)]) /\ (Z.of_nat src' - Z.of_nat p)%Z = s')) as Rest.
    { intros s' m' Hin. destruct (OK s' m' (or_intror Hin)) as [L N]. split; [exact L|]. intros p.
      destruct (N p) as [N0|(N1 & src' & I1 & I2)]; [left; exact N0|right; split; [exact N1|exists src'; split; [apply in_or_app; left; exact I1|exact I2]]]. }
    destruct (OK s m (or_introl eq_refl)) as [L N].
    destruct (Z.eqb_spec s (Z.of_nat src - Z.of_nat tgt)) as [E|NE].
    + intros s' m' [E'|Hin]; [|apply Rest, Hin]. injection E' as <- <-. split; [apply mark_length|]. intros p.
      rewrite mark_nth by assumption. destruct (Nat.eqb_spec p tgt) as [->|Ne].
      * right. split; [reflexivity|]. exists src. split; [apply in_or_app; right; left; reflexivity|lia].
      * destruct (N p) as [N0|(N1 & src' & I1 & I2)]; [left; exact N0|right; split; [exact N1|exists src'; split; [apply in_or_app; left; exact I1|exact I2]]].
    + intros s' m' [E'|Hin].
      * injection E' as <- <-. split; [exact L|]. intros p.
        destruct (N p) as [N0|(N1 & src' & I1 & I2)]; [left; exact N0|right; split; [exact N1|exists src'; split; [apply in_or_app; left; exact I1|exact I2]]].
      * apply IH; [|exact Hin]. intros s'' m'' H''. apply OK. right. exact H''.
Qed.

Lemma set_mask_total f ps rots tgt src p : tgt < V -> rots_ok ps rots -> ~ In (tgt, src) ps ->
  total f p (set_mask rots (Z.of_nat src - Z.of_nat tgt) tgt V)
  = (total f p rots + (if Nat.eqb tgt p then f (Z.of_nat src - Z.of_nat p) else 0))%Z.
Proof.
  intros Ht OK Hno. induction rots as [|[s m] rots IH]; [rewrite set_mask_nil|rewrite set_mask_cons]; cbn [total fold_right fst snd].
  - rewrite mark_nth by (try exact Ht; apply repeat_length). rewrite nth_repeat, (Nat.eqb_sym tgt p).
    destruct (Nat.eqb_spec p tgt) as [->|Ne]; lia.
  - destruct (OK s m (or_introl eq_refl)) as [L N].
    assert (rots_ok ps rots) as OK' by (intros s'' m'' H''; apply OK; right; exact H'').
    specialize (IH OK'). unfold total in IH |- *.
    destruct (Z.eqb_spec s (Z.of_nat src - Z.of_nat tgt)) as [E|NE]; cbn [fold_right fst snd].
    + rewrite mark_nth by assumption. rewrite (Nat.eqb_sym tgt p). destruct (Nat.eqb_spec p tgt) as [->|Ne]; [|lia].
      destruct (N tgt) as [N0|(N1 & src' & I1 & I2)].
      * rewrite N0, E. lia.
      * exfalso. apply Hno. assert (src' = src) as <- by lia. exact I1.
    + rewrite IH. lia.
Qed.

Lemma NoDup_app_cons {A} (ps rest : list A) q : NoDup (ps ++ q :: rest) -> ~ In q ps /\ NoDup ((ps ++ [q]) ++ rest).
Proof.
  intros H. split.
  - intros Hin. apply NoDup_remove_2 in H. apply H. apply in_or_app. left. exact Hin.
  - rewrite <- app_assoc. exact H.
Qed.

Definition build (rots : list (Z * list Z)) (ps : list (nat * nat)) : list (Z * list Z) :=
  fold_left (fun r ts => set_mask r (Z.of_nat (snd ts) - Z.of_nat (fst ts))%Z (fst ts) V) ps rots.
Lemma build_ok f ps : forall before rots, (forall ts, In ts ps -> fst ts < V) -> rots_ok before rots -> NoDup (before ++ ps) ->
  rots_ok (before ++ ps) (build rots ps) /\ forall p, total f p (build rots ps) = (total f p rots + asked f p ps)%Z.
Proof.
  induction ps as [|[tgt src] ps IH]; intros before rots Hv OK ND.
  - rewrite app_nil_r. split; [exact OK|]. intros p. cbn [build fold_left asked fold_right]. rewrite Z.add_0_r. reflexivity.
  - destruct (NoDup_app_cons before ps (tgt, src) ND) as [Hno ND'].
    assert (tgt < V) as Ht by (apply (Hv (tgt, src)); left; reflexivity).
    destruct (IH (before ++ [(tgt, src)]) (set_mask rots (Z.of_nat src - Z.of_nat tgt) tgt V)) as [OK' T'].
    + intros ts Hts. apply Hv. right. exact Hts.
    + apply set_mask_ok; assumption.
    + exact ND'.
    + split; [rewrite <- app_assoc in OK'; exact OK'|]. intros p. cbn [build fold_left fst snd]. unfold build in T'. rewrite T'.
      rewrite (set_mask_total f before) by assumption. cbn [asked fold_right fst snd]. unfold asked. lia.
Qed.
Lemma rotations_build aggs : rotations aggs V = build [] (pairs aggs).
Proof.
  unfold rotations, build. generalize (@nil (Z * list Z)). induction aggs as [|[tgt srcs] aggs IH]; intros acc; [reflexivity|].
  cbn [fold_left pairs flat_map fst snd]. rewrite fold_left_app, <- IH. f_equal.
  revert acc. induction srcs as [|x srcs IHs]; intros acc; [reflexivity|]. cbn [fold_left map fst snd]. apply IHs.
Qed.
Lemma set_mask_nonnil rots s tgt : set_mask rots s tgt V <> [].
Proof. destruct rots as [|[s' m] rots]; [rewrite set_mask_nil; discriminate|rewrite set_mask_cons]. destruct (s' =? s)%Z; discriminate. Qed.
(** a mask that was made has a bit set *)
Definition some_bit (rots : list (Z * list Z)) : Prop := forall s m, In (s, m) rots -> exists p, nth p m 0%Z = 1%Z.
Lemma set_mask_bit rots s tgt : tgt < V -> (forall s' m, In (s', m) rots -> length m = V) -> some_bit rots -> some_bit (set_mask rots s tgt V).
Proof.
  intros Ht. induction rots as [|[s' m] rots IH]; intros HL SB; [rewrite set_mask_nil|rewrite set_mask_cons].
  - intros a b [E|[]]. injection E as <- <-. exists tgt. rewrite mark_nth by (try exact Ht; apply repeat_length). rewrite Nat.eqb_refl. reflexivity.
  - assert (some_bit rots) as SB' by (intros a b H; apply (SB a b); right; exact H).
    destruct (s' =? s)%Z.
    + intros a b [E|Hin]; [|apply (SB a b); right; exact Hin]. injection E as <- <-. exists tgt.
      rewrite mark_nth by (try exact Ht; apply (HL s' m); left; reflexivity). rewrite Nat.eqb_refl. reflexivity.
    + intros a b [E|Hin]; [injection E as <- <-; apply (SB s' m); left; reflexivity|].
      apply (IH (fun a b H => HL a b (or_intror H)) SB' a b Hin).
Qed.
Lemma build_bit ps : forall before rots, (forall ts, In ts ps -> fst ts < V) -> rots_ok before rots -> some_bit rots -> some_bit (build rots ps).
Proof.
  induction ps as [|[tgt src] ps IH]; intros before rots Hv OK SB; [exact SB|]. cbn [build fold_left fst snd].
  assert (tgt < V) as Ht by (apply (Hv (tgt, src)); left; reflexivity).
  apply (IH (before ++ [(tgt, src)])).
  - intros ts Hts. apply Hv. right. exact Hts.
  - apply set_mask_ok; assumption.
  - apply set_mask_bit; [exact Ht|intros s' m H; apply (OK s' m H)|exact SB].
Qed.
Lemma build_nonnil ps : forall rots, ps <> [] \/ rots <> [] -> build rots ps <> [].
Proof.
  induction ps as [|[tgt src] ps IH]; intros rots H; [destruct H as [H|H]; [contradiction|exact H]|].
  cbn [build fold_left]. apply IH. right. apply set_mask_nonnil.
Qed.
End Masks.

Section Ops.
Variables (R : nat) (t : Z).
Hypothesis HR : 0 < R.
Hypothesis Ht1 : (1 < t)%Z.
Notation cong := (cong t).
Let Ht0 : (0 < t)%Z. Proof. lia. Qed.

Lemma same_row_shift p q : p / R = q / R -> (Z.abs (Z.of_nat q - Z.of_nat p) < Z.of_nat R)%Z.
Proof. intros E. pose proof (Nat.div_mod p R). pose proof (Nat.div_mod q R). pose proof (Nat.mod_upper_bound p R). pose proof (Nat.mod_upper_bound q R). nia. Qed.
Lemma same_row_rpos p q : p / R = q / R -> rpos R p (Z.of_nat q - Z.of_nat p) = q.
Proof.
  intros E. unfold rpos. pose proof (Nat.div_mod p R). pose proof (Nat.div_mod q R). pose proof (Nat.mod_upper_bound p R). pose proof (Nat.mod_upper_bound q R).
  assert (Z.of_nat (p mod R) + (Z.of_nat q - Z.of_nat p) = Z.of_nat (q mod R))%Z as -> by nia.
  rewrite Z.mod_small by lia. rewrite Nat2Z.id, E. lia.
Qed.

Lemma sparse_loop_has c k s gk V : has c k s -> public_part gk = Some k -> V <= 2 * R ->
  forall rots, (forall sh m, In (sh, m) rots -> (Z.abs sh < Z.of_nat R)%Z /\ length m = V /\ (forall p, nth p m 0%Z = 0%Z \/ nth p m 0%Z = 1%Z) /\ exists p, nth p m 0%Z = 1%Z) ->
  forall acc sa, has acc k sa ->
  exists c' s', sparse_loop R t c rots gk (Some acc) = Some (Some c') /\ has c' k s' /\
    forall p, p < 2 * R -> cong (nth p s' 0%Z) (nth p sa 0 + total (fun sh => nth (rpos R p sh) s 0%Z) p rots)%Z.
Proof.
  intros H Hg HV. induction rots as [|[sh m] rots IH]; intros Hr acc sa Ha.
  - exists acc, sa. split; [reflexivity|]. split; [exact Ha|]. intros p Hp. cbn. rewrite Z.add_0_r. reflexivity.
  - destruct (Hr sh m (or_introl eq_refl)) as (Hs & Lm & Hb & (q & Hq)).
    assert (q < V) as Hqv. { destruct (lt_dec q V) as [X|X]; [exact X|]. rewrite nth_overflow in Hq by lia. discriminate Hq. }
    cbn [sparse_loop]. assert (forallb (Z.eqb 0) m = false) as ->.
    { destruct (forallb (Z.eqb 0) m) eqn:E; [|reflexivity]. exfalso. rewrite forallb_forall in E.
      assert (In (nth q m 0%Z) m) as Hin by (apply nth_In; lia). apply E in Hin. rewrite Hq in Hin. discriminate Hin. }
    destruct (rotate_has R HR c k s sh gk H Hg Hs) as (c1 & s1 & E1 & X1 & H1 & N1). rewrite E1. cbn [bind].
    destruct (mul_has R t HR Ht0 c1 k s1 m H1) as (c2 & s2 & E2 & X2 & H2 & N2); [lia| | |].
    { apply (bits_fit R t HR Ht0); [exact Ht1|]. intros v Hv. apply (In_nth _ _ 0%Z) in Hv. destruct Hv as (j & _ & <-). apply Hb. }
    { right. exists q. split; [lia|]. rewrite Hq, Z.mod_1_l by exact Ht1. discriminate. }
    rewrite E2. cbn [bind]. destruct (add_has R t HR Ht0 acc c2 k sa s2 Ha H2) as (c3 & s3 & E3 & X3 & H3 & N3). rewrite E3. cbn [bind].
    destruct (IH (fun a b I => Hr a b (or_intror I)) c3 s3 H3) as (c4 & s4 & E4 & H4 & N4).
    exists c4, s4. split; [exact E4|]. split; [exact H4|]. intros p Hp. eapply eq_trans; [apply N4, Hp|].
    cbn [total fold_right fst snd]. rewrite Z.add_assoc. apply (cong_add R t HR Ht0); [|reflexivity].
    eapply eq_trans; [apply N3, Hp|]. apply (cong_add R t HR Ht0); [reflexivity|]. eapply eq_trans; [apply N2, Hp|].
    rewrite N1 by exact Hp. rewrite Z.mul_comm. reflexivity.
Qed.

Lemma sparse_first c k s gk V : has c k s -> public_part gk = Some k -> V <= 2 * R ->
  forall rots, rots <> [] -> (forall sh m, In (sh, m) rots -> (Z.abs sh < Z.of_nat R)%Z /\ length m = V /\ (forall p, nth p m 0%Z = 0%Z \/ nth p m 0%Z = 1%Z) /\ exists p, nth p m 0%Z = 1%Z) ->
  exists c' s', sparse_loop R t c rots gk None = Some (Some c') /\ has c' k s' /\
    forall p, p < 2 * R -> cong (nth p s' 0%Z) (total (fun sh => nth (rpos R p sh) s 0%Z) p rots)%Z.
Proof.
  intros H Hg HV [|[sh m] rots] Hne Hr; [contradiction|].
  destruct (Hr sh m (or_introl eq_refl)) as (Hs & Lm & Hb & (q & Hq)).
  assert (q < V) as Hqv. { destruct (lt_dec q V) as [X|X]; [exact X|]. rewrite nth_overflow in Hq by lia. discriminate Hq. }
  cbn [sparse_loop]. assert (forallb (Z.eqb 0) m = false) as ->.
  { destruct (forallb (Z.eqb 0) m) eqn:E; [|reflexivity]. exfalso. rewrite forallb_forall in E.
    assert (In (nth q m 0%Z) m) as Hin by (apply nth_In; lia). apply E in Hin. rewrite Hq in Hin. discriminate Hin. }
  destruct (rotate_has R HR c k s sh gk H Hg Hs) as (c1 & s1 & E1 & X1 & H1 & N1). rewrite E1. cbn [bind].
  destruct (mul_has R t HR Ht0 c1 k s1 m H1) as (c2 & s2 & E2 & X2 & H2 & N2); [lia| | |].
  { apply (bits_fit R t HR Ht0); [exact Ht1|]. intros v Hv. apply (In_nth _ _ 0%Z) in Hv. destruct Hv as (j & _ & <-). apply Hb. }
  { right. exists q. split; [lia|]. rewrite Hq, Z.mod_1_l by exact Ht1. discriminate. }
  rewrite E2. cbn [bind].
  destruct (sparse_loop_has c k s gk V H Hg HV rots (fun a b I => Hr a b (or_intror I)) c2 s2 H2) as (c4 & s4 & E4 & H4 & N4).
  exists c4, s4. split; [exact E4|]. split; [exact H4|]. intros p Hp. eapply eq_trans; [apply N4, Hp|].
  cbn [total fold_right fst snd]. apply (cong_add R t HR Ht0); [|reflexivity]. eapply eq_trans; [apply N2, Hp|].
  rewrite N1 by exact Hp. rewrite Z.mul_comm. reflexivity.
Qed.

Lemma asked_wanted s p ps : (forall ts, In ts ps -> fst ts / R = snd ts / R) ->
  asked (fun sh => nth (rpos R p sh) s 0%Z) p ps = fold_right (fun ts acc => ((if Nat.eqb (fst ts) p then nth (snd ts) s 0 else 0) + acc)%Z) 0%Z ps.
Proof.
  induction ps as [|[tgt src] ps IH]; intros H; [reflexivity|]. cbn [asked fold_right fst snd]. unfold asked in IH. rewrite IH by (intros; apply H; right; assumption).
  destruct (Nat.eqb_spec tgt p) as [->|Ne]; [|reflexivity]. rewrite same_row_rpos by (apply (H (p, src)); left; reflexivity). reflexivity.
Qed.

Lemma aggregate_sparse_ok c k s gk V aggs : has c k s -> public_part gk = Some k -> V <= 2 * R ->
  pairs aggs <> [] -> NoDup (pairs aggs) -> (forall tgt src, In (tgt, src) (pairs aggs) -> tgt < V /\ tgt / R = src / R) ->
  exists c' s', aggregate_sparse R t c aggs gk V = Some (Some c') /\ has c' k s' /\
    forall p, p < 2 * R -> cong (nth p s' 0%Z) (wanted aggs s p).
Proof.
  intros H Hg HV Hne ND Hp.
  assert (forall ts, In ts (pairs aggs) -> fst ts < V) as Hv by (intros [a b] Hin; apply (Hp a b Hin)).
  assert (rots_ok V [] []) as OK0 by (intros s' m' []).
  destruct (build_ok V (fun _ => 0%Z) (pairs aggs) [] [] Hv OK0 ND) as [OK _]. cbn [app] in OK.
  pose proof (build_bit V (pairs aggs) [] [] Hv OK0 (fun s' m' (F : In (s', m') []) => match F with end)) as SB.
  destruct (sparse_first c k s gk V H Hg HV (build V [] (pairs aggs))) as (c' & s' & E & H' & N').
  - apply build_nonnil. left. exact Hne.
  - intros sh m Hin. destruct (OK sh m Hin) as [L N]. destruct (SB sh m Hin) as (q & Hq).
    split.
    + destruct (N q) as [N0|(_ & src & I & Es)]; [rewrite N0 in Hq; discriminate Hq|]. rewrite <- Es. apply same_row_shift, (Hp q src I).
    + split; [exact L|]. split; [|exists q; exact Hq]. intros p. destruct (N p) as [N0|(N1 & _)]; auto.
  - exists c', s'. split; [|split; [exact H'|]].
    + unfold aggregate_sparse. rewrite rotations_build.
      assert (forallb (fun ts => (fst ts <? V) || match snd ts with [] => true | _ => false end) aggs = true) as ->; [|exact E].
      apply forallb_forall. intros [tgt srcs] Hin. destruct srcs as [|x srcs]; [apply orb_true_r|]. cbn [fst snd]. rewrite orb_false_r. apply Nat.ltb_lt.
      apply (Hp tgt x). apply in_flat_map. exists (tgt, x :: srcs). split; [exact Hin|left; reflexivity].
    + intros p Hlt. eapply eq_trans; [apply N', Hlt|].
      destruct (build_ok V (fun sh => nth (rpos R p sh) s 0%Z) (pairs aggs) [] [] Hv OK0 ND) as [_ T]. rewrite T. cbn [total fold_right].
      rewrite Z.add_0_l, asked_wanted; [reflexivity|]. intros [a b] Hin. apply (Hp a b Hin).
Qed.

(* ---------------------------------------------------------------- rotate_and_sum *)

Lemma covered_pow2 e j : R = 2 ^ e -> 2 ^ j <= 2 * R -> covered R (2 ^ j) = 2 ^ j.
Proof.
  intros He Hj. unfold covered. destruct (Nat.leb_spec (2 ^ j) R) as [L|L]; [rewrite Nat.log2_up_pow2 by lia; reflexivity|].
  assert (j = S e) as ->.
  { rewrite He in L, Hj. rewrite <- Nat.pow_succ_r' in Hj. apply Nat.pow_lt_mono_r_iff in L; [|lia]. apply Nat.pow_le_mono_r_iff in Hj; [|lia]. lia. }
  rewrite Nat.pow_succ_r', <- He. replace (2 * R - R) with R by lia. rewrite He at 2. rewrite Nat.log2_up_pow2 by lia. rewrite <- He. lia.
Qed.
Lemma le_log2_up cnt : 0 < cnt -> cnt <= 2 ^ Nat.log2_up cnt.
Proof. intros H. destruct (le_lt_dec cnt 1) as [L|L]; [assert (cnt = 1) as -> by lia; cbn; lia|]. apply Nat.log2_up_spec in L. lia. Qed.
Lemma covered_ge cnt : 0 < cnt -> cnt <= covered R cnt.
Proof.
  intros Hc. unfold covered. destruct (Nat.leb_spec cnt R) as [L|L]; [apply le_log2_up, Hc|].
  pose proof (le_log2_up (cnt - R) ltac:(lia)). lia.
Qed.
Lemma covered_le e cnt : R = 2 ^ e -> 0 < cnt <= 2 * R -> covered R cnt <= 2 * R.
Proof.
  intros He Hc. unfold covered. destruct (Nat.leb_spec cnt R) as [L|L]; [pose proof (cover_le R HR e cnt He); lia|].
  pose proof (cover_le R HR e (cnt - R) He). lia.
Qed.
Lemma zsum_pad n m f : n <= m -> (forall i, n <= i < m -> f i = 0%Z) -> zsum m f = zsum n f.
Proof.
  intros L H. replace m with (n + (m - n)) by lia. rewrite zsum_add. rewrite (zsum_ext (m - n) _ (fun _ => 0%Z)); [rewrite zsum_0; lia|].
  intros i Hi. apply H. lia.
Qed.

Lemma strided_has c k s gk mx stride j : has c k s -> public_part gk = Some k -> (1 <= mx)%Z -> 0 < stride -> (2 ^ j - 1) * stride < R ->
  exists c' s', strided_rotate_and_sum R t c stride (2 ^ j) gk mx = Some c' /\ has c' k s' /\
    cong (nth 0 s' 0%Z) (zsum (2 ^ j) (fun m => nth (m * stride) s 0%Z)).
Proof.
  intros H Hg Hm Hst Hj. unfold strided_rotate_and_sum. destruct (Nat.leb_spec (2 ^ j) 1) as [L|L].
  - exists c, s. split; [reflexivity|]. split; [exact H|]. pose proof (Nat.pow_nonzero 2 j). assert (2 ^ j = 1) as -> by lia. cbn [zsum]. rewrite Z.add_0_l. reflexivity.
  - rewrite Nat.log2_up_pow2 by lia.
    destruct (doubling_has R t HR Ht0 gk k mx stride (2 ^ j) Hg Hm Hst j 0 c s s H) as (c' & s' & E & _ & H' & N').
    + intros i Hi. apply Nat.pow_lt_mono_r; lia.
    + intros i Hi. assert (2 ^ i <= 2 ^ j - 1) as B by (pose proof (Nat.pow_lt_mono_r 2 i j); lia).
      assert (stride * 2 ^ i < R) by (pose proof (Nat.mul_le_mono_r _ _ stride B); lia). lia.
    + intros p Hp. unfold rsum. cbn [Nat.pow zsum]. rewrite Z.add_0_l, Nat.mul_0_l, rpos_0 by exact HR. reflexivity.
    + exists c', s'. split; [exact E|]. split; [exact H'|]. eapply eq_trans; [apply N'; lia|]. cbn [Nat.add]. unfold rsum. apply zsum_cong; [lia|].
      intros m Hm'. assert (m * stride < R) as B by (assert (m <= 2 ^ j - 1) as Bm by lia; pose proof (Nat.mul_le_mono_r _ _ stride Bm); lia).
      pose proof (rpos_row R HR 0 0 (m * stride)) as P. cbn [Nat.mul Nat.add] in P. rewrite P by exact B. reflexivity.
Qed.

(* ---------------------------------------------------------------- buckets *)

Lemma one_bucket_has c k s gk e : R = 2 ^ e -> 1024 < R -> has c k s -> public_part gk = Some k ->
  exists c' s', batch_bucket_aggregate R t c 1 (2 * R) gk (2 * R) = Some c' /\ has c' k s' /\
    cong (nth 0 s' 0%Z) (2 * zsum R (fun m => nth m s 0%Z))%Z.
Proof.
  intros He Hb H Hg. unfold batch_bucket_aggregate. rewrite (proj2 (Nat.leb_gt (2 * R) 1)) by lia.
  destruct (loop_has R t HR Ht0 c k s gk 1024 1 (2 * R) H Hg) as (c' & s' & E & _ & H' & N'); try lia.
  exists c', s'. split; [exact E|]. split; [exact H'|]. eapply eq_trans; [apply N'; lia|].
  assert (2 ^ Nat.log2_up (2 * R) = R + R) as ->.
  { rewrite He, <- Nat.pow_succ_r', Nat.log2_up_pow2 by lia. rewrite Nat.pow_succ_r'. lia. }
  unfold rsum. apply f_equal2; [|reflexivity]. rewrite zsum_add.
  assert (forall m, m < R -> rpos R 0 (Z.of_nat (m * 1)) = m /\ rpos R 0 (Z.of_nat ((R + m) * 1)) = m) as K.
  { intros m Hm. unfold rpos. rewrite Nat.div_0_l, Nat.mod_0_l by lia. cbn [Nat.mul Nat.add]. rewrite !Nat.mul_1_r. split.
    - rewrite Z.add_0_l, Z.mod_small by lia. lia.
    - rewrite Z.add_0_l, Nat2Z.inj_add, <- (Z.mul_1_l (Z.of_nat R)) at 1. rewrite Z.add_comm, Z_mod_plus_full, Z.mod_small by lia. lia. }
  rewrite (zsum_ext R (fun m => nth (rpos R 0 (Z.of_nat (m * 1))) s 0%Z) (fun m => nth m s 0%Z)) by (intros m Hm; rewrite (proj1 (K m Hm)); reflexivity).
  rewrite (zsum_ext R (fun i => nth (rpos R 0 (Z.of_nat ((R + i) * 1))) s 0%Z) (fun m => nth m s 0%Z)) by (intros m Hm; rewrite (proj2 (K m Hm)); reflexivity).
  lia.
Qed.


Lemma bucket_ok c k s gk e j samples : R = 2 ^ e -> j <= e -> has c k s -> public_part gk = Some k -> 0 < samples ->
  let stride := 2 * R / 2 ^ S j in
  samples <= stride ->
  (forall b m, b < 2 ^ S j -> samples <= m < stride -> nth (b * stride + m) s 0%Z = 0%Z) ->
  exists c' s', batch_bucket_aggregate R t c (2 ^ S j) samples gk (2 * R) = Some c' /\ has c' k s' /\
    forall b, b < 2 ^ S j -> cong (nth (b * stride) s' 0%Z) (bucket_sum s stride samples b).
Proof.
  intros He Hj H Hg Hs stride Hss Hz.
  assert (stride = 2 ^ (e - j)) as Est.
  { unfold stride. rewrite He, <- Nat.pow_succ_r'. rewrite <- Nat.pow_sub_r by lia. f_equal. }
  assert (R = 2 ^ j * stride) as ER by (rewrite Est, <- Nat.pow_add_r, He; f_equal; lia).
  assert (0 < stride) as Hst by lia.
  assert (2 ^ Nat.log2_up samples <= stride) as Lst.
  { rewrite Est. apply Nat.pow_le_mono_r; [lia|]. rewrite <- (Nat.log2_up_pow2 (e - j)) by lia. apply Nat.log2_up_le_mono. lia. }
  assert (exists c' s', batch_bucket_aggregate R t c (2 ^ S j) samples gk (2 * R) = Some c' /\ has c' k s' /\
    forall p, p < 2 * R -> cong (nth p s' 0%Z) (rsum R s p (2 ^ Nat.log2_up samples) 1)) as (c' & s' & E & H' & N').
  { unfold batch_bucket_aggregate. destruct (Nat.leb_spec samples 1) as [L|L].
    - exists c, s. split; [reflexivity|]. split; [exact H|]. intros p Hp. assert (samples = 1) as -> by lia. unfold rsum. change (2 ^ Nat.log2_up 1) with 1.
      cbn [zsum]. rewrite Z.add_0_l, Nat.mul_0_l, rpos_0 by exact HR. reflexivity.
    - destruct (loop_has R t HR Ht0 c k s gk 1024 1 samples H Hg) as (c' & s' & E & _ & H' & N'); try lia.
      + intros d Hd. assert (stride <= R) by (rewrite ER; pose proof (Nat.pow_nonzero 2 j); nia). lia.
      + exists c', s'. auto. }
  exists c', s'. split; [exact E|]. split; [exact H'|]. intros b Hb. rewrite Nat.pow_succ_r' in Hb.
  assert (b * stride < 2 * R) as Hbs by (rewrite ER; nia).
  eapply eq_trans; [apply N', Hbs|]. unfold rsum, bucket_sum. apply f_equal2; [|reflexivity].
  rewrite <- (zsum_pad samples (2 ^ Nat.log2_up samples)).
  - apply zsum_ext. intros m Hm. rewrite Nat.mul_1_r. f_equal.
    assert (b * stride = (b / 2 ^ j) * R + (b mod 2 ^ j) * stride) as Eb.
    { rewrite (Nat.div_mod b (2 ^ j)) at 1 by (apply Nat.pow_nonzero; lia). rewrite ER. nia. }
    rewrite Eb. rewrite rpos_row by (try exact HR; pose proof (Nat.mod_upper_bound b (2 ^ j)); rewrite ER; nia). lia.
  - apply le_log2_up, Hs.
  - intros m Hm. apply Hz; [rewrite Nat.pow_succ_r'; exact Hb|lia].
Qed.
End Ops.
