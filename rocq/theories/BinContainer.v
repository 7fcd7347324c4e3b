(** Proofs for C21, continued: lengths, segments, truncation. *)
From Coq Require Import List NArith ZArith String Ascii Bool Lia PeanoNat.
From Verif Require Import Base64Model CtxModel CtxProofs SerdeModel SerdeSpec SerdeProofs SerdeGraph SerdeValue BinModel BinProofs.
Import ListNotations.
Local Open Scope string_scope.
Local Open Scope list_scope.

(** ** strings *)
Lemma sapp_nil s : s +++ "" = s. Proof. induction s; cbn; congruence. Qed.
Lemma sapp_assoc a b c : (a +++ b) +++ c = a +++ (b +++ c). Proof. induction a; cbn; congruence. Qed.
Lemma slength_app a b : String.length (a +++ b) = (String.length a + String.length b)%nat.
Proof. induction a; cbn; congruence. Qed.
Lemma slen_app a b : slen (a +++ b) = (slen a + slen b)%N.
Proof. unfold slen. rewrite slength_app. lia. Qed.
Lemma sapp_split a : forall b c d, a +++ b = c +++ d ->
  (exists x, c = a +++ x /\ b = x +++ d) \/ (exists x, x <> "" /\ a = c +++ x /\ d = x +++ b).
Proof.
  induction a as [|ch a IH]; intros b c d H; cbn in H.
  - left. exists c. auto.
  - destruct c as [|ch' c]; cbn in H.
    + right. exists (String ch a). repeat split; auto. discriminate.
    + injection H as -> H. destruct (IH _ _ _ H) as [(x & -> & ->)|(x & Hx & -> & ->)]; [left|right]; exists x; auto.
Qed.
Lemma stake_app a b : stake (String.length a) (a +++ b) = a.
Proof. unfold stake. induction a; cbn; [now destruct b|congruence]. Qed.
Lemma sdrop_app a b : sdrop (String.length a) (a +++ b) = b.
Proof. induction a; cbn; auto. Qed.
Lemma sdrop_length n s : (String.length (sdrop n s) <= String.length s)%nat.
Proof. revert s. induction n; destruct s; cbn; auto. Qed.

(** ** 32-bit little endian *)
Local Open Scope N_scope.
Lemma N_of_byte n : N_of_ascii (byte n) = n mod 256.
Proof. unfold byte. apply N_ascii_embedding. apply N.mod_lt. lia. Qed.
Lemma unpack_pack n h r : pack32 n = Ok h -> unpack32 (h +++ r) = Some (n, r).
Proof.
  unfold pack32. destruct (n <? 2 ^ 32) eqn:E; [|discriminate]. intros H; injection H as <-. apply N.ltb_lt in E.
  cbn [append unpack32]. rewrite !N_of_byte. do 2 f_equal.
  change (2 ^ 32) with 4294967296 in E.
  pose proof (N.div_mod n 256 ltac:(lia)) as D1. pose proof (N.mod_lt n 256 ltac:(lia)) as L1.
  replace (n / 65536) with (n / 256 / 256) by (rewrite N.div_div by lia; reflexivity).
  replace (n / 16777216) with (n / 256 / 256 / 256) by (rewrite !N.div_div by lia; reflexivity).
  set (a := n / 256) in *. pose proof (N.div_mod a 256 ltac:(lia)) as D2. pose proof (N.mod_lt a 256 ltac:(lia)) as L2.
  set (b := a / 256) in *. pose proof (N.div_mod b 256 ltac:(lia)) as D3. pose proof (N.mod_lt b 256 ltac:(lia)) as L3.
  set (c := b / 256) in *.
  clearbody c. set (x := n mod 256) in *. set (y := a mod 256) in *. set (z := b mod 256) in *. clearbody x y z. clearbody b. clearbody a.
  assert (c < 256) by lia. rewrite (N.mod_small c) by lia. lia.
Qed.
Lemma pack_length n h : pack32 n = Ok h -> String.length h = 4%nat.
Proof. unfold pack32. destruct (n <? 2 ^ 32); [|discriminate]. now intros [= <-]. Qed.
Lemma part_inv s p : part s = Ok p -> exists h, pack32 (slen s) = Ok h /\ p = h +++ s.
Proof. unfold part. destruct (pack32 (slen s)) eqn:E; cbn; try discriminate. intros H; injection H as <-. eauto. Qed.
Lemma unpack_part s p r : part s = Ok p -> unpack32 (p +++ r) = Some (slen s, s +++ r).
Proof. intros H. apply part_inv in H. destruct H as (h & Hh & ->). rewrite sapp_assoc. now apply unpack_pack. Qed.
Lemma ton s : N.to_nat (slen s) = String.length s. Proof. unfold slen. lia. Qed.

Lemma unpack_inv s n r : unpack32 s = Some (n, r) -> exists h, String.length h = 4%nat /\ s = h +++ r.
Proof.
  destruct s as [|a [|b [|c [|d s]]]]; cbn; try discriminate. intros H; injection H as _ <-.
  exists (String a (String b (String c (String d "")))). auto.
Qed.

(** a part cut short *)
Lemma part_cut s p q p' : part s = Ok p' -> p' = p +++ q -> q <> "" ->
  unpack32 p = None \/ exists r, unpack32 p = Some (slen s, r) /\ slen r < slen s.
Proof.
  intros H E Hq. apply part_inv in H. destruct H as (h & Hh & ->).
  pose proof (pack_length _ _ Hh) as Hl. destruct (sapp_split _ _ _ _ E) as [(x & -> & Ex)|(x & Hx & Eh & _)].
  - right. exists x. split; [now apply unpack_pack|]. rewrite Ex, slen_app. unfold slen.
    destruct q; [easy|]. cbn. lia.
  - left. subst h. rewrite slength_app in Hl. destruct x; [easy|]. cbn in Hl.
    destruct p as [|c1 [|c2 [|c3 [|c4 p]]]]; auto. cbn in Hl. lia.
Qed.

Local Open Scope nat_scope.
Lemma segments_fuel f : forall f' s, String.length s <= f -> String.length s <= f' -> segments f s = segments f' s.
Proof.
  induction f as [|f IH]; intros f' s H H'.
  - destruct s; [|cbn in H; lia]. now destruct f'.
  - destruct f' as [|f']; [destruct s; [reflexivity|cbn in H'; lia]|].
    destruct s as [|c s]; [reflexivity|]. cbn [segments].
    destruct (unpack32 (String c s)) as [[n r]|] eqn:E; auto. destruct (slen r <? n)%N; auto.
    apply unpack_inv in E. destruct E as (h & Hh & Es). rewrite Es, slength_app in H, H'.
    pose proof (sdrop_length (N.to_nat n) r). rewrite (IH f') by lia. reflexivity.
Qed.
Lemma segments_step s n r : s <> "" -> unpack32 s = Some (n, r) -> (n <= slen r)%N ->
  segments (String.length s) s = (ss <- segments (String.length (sdrop (N.to_nat n) r)) (sdrop (N.to_nat n) r) ;; Ok (stake (N.to_nat n) r :: ss)).
Proof.
  intros Hs E Hn. destruct s as [|c s]; [easy|]. cbn [String.length segments]. rewrite E.
  replace (slen r <? n)%N with false by (symmetry; apply N.ltb_ge; lia).
  apply unpack_inv in E. destruct E as (h & Hh & Es). apply (f_equal String.length) in Es. rewrite slength_app in Es. cbn in Es.
  pose proof (sdrop_length (N.to_nat n) r).
  rewrite (segments_fuel (String.length s) (String.length (sdrop (N.to_nat n) r))) by lia. reflexivity.
Qed.
Lemma segments_none s : s <> "" -> unpack32 s = None -> segments (String.length s) s = ValueErr.
Proof. intros Hs E. destruct s; [easy|]. cbn [String.length segments]. now rewrite E. Qed.
Lemma segments_short s n r : s <> "" -> unpack32 s = Some (n, r) -> (slen r < n)%N -> segments (String.length s) s = ValueErr.
Proof.
  intros Hs E H. destruct s; [easy|]. cbn [String.length segments]. rewrite E.
  now replace (slen r <? n)%N with true by (symmetry; apply N.ltb_lt; lia).
Qed.
Lemma part_nonempty s p r : part s = Ok p -> p +++ r <> "".
Proof.
  intros H. apply part_inv in H. destruct H as (h & Hh & ->). apply pack_length in Hh. destruct h; [discriminate|]. discriminate.
Qed.

Lemma segments_parts l : forall s t, parts l = Ok s ->
  segments (String.length (s +++ t)) (s +++ t) = (ss <- segments (String.length t) t ;; Ok (l ++ ss)).
Proof.
  induction l as [|x l IH]; intros s t H; cbn in H.
  - injection H as <-. cbn. destruct (segments (String.length t) t); reflexivity.
  - destruct (part x) as [p| | | |] eqn:Ep; cbn in H; try discriminate.
    destruct (parts l) as [q| | | |] eqn:Eq; cbn in H; try discriminate. injection H as <-.
    rewrite sapp_assoc. rewrite (segments_step _ (slen x) (x +++ (q +++ t))).
    + rewrite ton, sdrop_app, stake_app. rewrite IH by reflexivity. destruct (segments (String.length t) t); reflexivity.
    + eapply part_nonempty; eauto.
    + now apply unpack_part.
    + rewrite slen_app. lia.
Qed.
(** a proper prefix of the segments part *)
Lemma segments_cut l : forall s p q, parts l = Ok s -> s = p +++ q -> q <> "" ->
  segments (String.length p) p = ValueErr \/ exists k, k < List.length l /\ segments (String.length p) p = Ok (firstn k l).
Proof.
  induction l as [|x l IH]; intros s p q H E Hq; cbn in H.
  - injection H as <-. destruct p; [|discriminate]. cbn in E. now subst.
  - destruct (part x) as [px| | | |] eqn:Ep; cbn in H; try discriminate.
    destruct (parts l) as [ql| | | |] eqn:El; cbn in H; try discriminate. injection H as <-.
    destruct (sapp_split _ _ _ _ E) as [(y & -> & Ey)|(y & Hy & Ex & _)].
    + specialize (IH _ _ _ eq_refl Ey Hq).
      rewrite (segments_step _ (slen x) (x +++ y)); [|eapply part_nonempty; eauto|now apply unpack_part|rewrite slen_app; lia].
      rewrite ton, sdrop_app, stake_app.
      destruct IH as [-> |(k & Hk & ->)]; [now left|]. right. exists (S k). cbn. split; [lia|reflexivity].
    + destruct (string_dec p "") as [->|Hp].
      * right. exists 0. cbn. split; [lia|reflexivity].
      * left. destruct (part_cut _ _ _ _ Ep Ex Hy) as [Hu|(r & Hu & Hr)].
        -- now apply segments_none.
        -- eapply segments_short; eauto.
Qed.

Section Container.
  Variable float_int : Z -> option Z.
  Variable itemsize : string -> option Z.
  Variable print : json -> string.
  Variable parse : string -> option json.
  Notation wf := (wf_pv float_int itemsize).
  Notation dumps := (dumps_binary print).
  Notation loads := (loads_binary float_int itemsize parse).

  Lemma dumps_inv x s : dumps x = Ok s ->
    exists p q, part (print (fst (benc x 0))) = Ok p /\ parts (snd (benc x 0)) = Ok q /\ s = p +++ q.
  Proof.
    unfold dumps_binary. cbn. destruct (part _) eqn:E1; cbn; try discriminate.
    destruct (parts _) eqn:E2; cbn; try discriminate. intros H; injection H as <-. eauto.
  Qed.
  Lemma loads_part x p t : part (print (fst (benc x 0))) = Ok p -> parse (print (fst (benc x 0))) = Some (fst (benc x 0)) ->
    loads (p +++ t) = (segs <- segments (String.length t) t ;; bdec float_int itemsize segs (depth (fst (benc x 0))) (fst (benc x 0))).
  Proof.
    intros Hp Hr. unfold loads_binary. rewrite (unpack_part _ _ _ Hp).
    replace (slen (_ +++ t) <? _)%N with false by (symmetry; apply N.ltb_ge; rewrite slen_app; lia).
    rewrite ton, stake_app, sdrop_app, Hr.
    rewrite (segments_fuel _ (String.length t)); [reflexivity| |lia]. rewrite slength_app. lia.
  Qed.

  (** decoding a container followed by anything *)
  Theorem container_roundtrip x s t : wf x -> parse (print (fst (benc x 0))) = Some (fst (benc x 0)) -> dumps x = Ok s ->
    loads (s +++ t) = Ok (norm x) \/ loads (s +++ t) = ValueErr.
  Proof.
    intros W Hr H. apply dumps_inv in H. destruct H as (p & q & Hp & Hq & ->).
    rewrite sapp_assoc, (loads_part _ _ _ Hp Hr). rewrite (segments_parts _ _ _ Hq).
    destruct (segments (String.length t) t) as [ss| | | |] eqn:E; cbn [rbind]; auto.
    - left. apply (proj1 (bin_at float_int itemsize _ x W) 0 [] ss); auto.
    - exfalso. clear -E. revert E. generalize (String.length t) at 1. intros n. revert t.
      induction n as [|n IH]; intros t; [destruct t; discriminate|]. destruct t as [|c t]; [discriminate|]. cbn [segments].
      destruct (unpack32 (String c t)) as [[m r]|]; try discriminate. destruct (slen r <? m)%N; try discriminate.
      specialize (IH (sdrop (N.to_nat m) r)). destruct (segments n _); cbn; try discriminate; congruence.
    - exfalso. clear -E. revert E. generalize (String.length t) at 1. intros n. revert t.
      induction n as [|n IH]; intros t; [destruct t; discriminate|]. destruct t as [|c t]; [discriminate|]. cbn [segments].
      destruct (unpack32 (String c t)) as [[m r]|]; try discriminate. destruct (slen r <? m)%N; try discriminate.
      specialize (IH (sdrop (N.to_nat m) r)). destruct (segments n _); cbn; try discriminate; congruence.
    - exfalso. clear -E. revert E. generalize (String.length t) at 1. intros n. revert t.
      induction n as [|n IH]; intros t; [destruct t; discriminate|]. destruct t as [|c t]; [discriminate|]. cbn [segments].
      destruct (unpack32 (String c t)) as [[m r]|]; try discriminate. destruct (slen r <? m)%N; try discriminate.
      specialize (IH (sdrop (N.to_nat m) r)). destruct (segments n _); cbn; try discriminate; congruence.
  Qed.
  Theorem container_exact x s : wf x -> parse (print (fst (benc x 0))) = Some (fst (benc x 0)) -> dumps x = Ok s -> loads s = Ok (norm x).
  Proof.
    intros W Hr H. apply dumps_inv in H. destruct H as (p & q & Hp & Hq & ->).
    rewrite (loads_part _ _ _ Hp Hr). rewrite <- (sapp_nil q), (segments_parts _ _ "" Hq). cbn [rbind segments String.length].
    apply (proj1 (bin_at float_int itemsize _ x W) 0 [] []); auto.
  Qed.
  Theorem container_truncated x s p q : wf x -> parse (print (fst (benc x 0))) = Some (fst (benc x 0)) -> dumps x = Ok s ->
    s = p +++ q -> q <> "" -> loads p = ValueErr \/ loads p = IndexErr.
  Proof.
    intros W Hr H E Hq. apply dumps_inv in H. destruct H as (pm & ps & Hp & Hs & ->).
    destruct (sapp_split _ _ _ _ E) as [(y & -> & Ey)|(y & Hy & Ex & _)].
    - rewrite (loads_part _ _ _ Hp Hr). destruct (segments_cut _ _ _ _ Hs Ey Hq) as [-> |(k & Hk & ->)]; [now left|].
      right. cbn [rbind]. apply (proj2 (bin_at float_int itemsize _ x W) 0 [] k); auto.
    - left. unfold loads_binary. destruct (part_cut _ _ _ _ Hp Ex Hy) as [-> |(r & -> & Hl)]; auto.
      now replace (slen r <? _)%N with true by (symmetry; apply N.ltb_lt; lia).
  Qed.
End Container.
