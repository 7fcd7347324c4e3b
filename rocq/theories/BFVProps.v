(** C16, C17, C54, C61-C66: BFV analytics. *)
From Coq Require Import List NArith ZArith Bool Arith Lia.
From Verif Require Import MPCBase OTModel OTSpec OTProofs OTExample PermModel PermProofs PermProps
  BFVModel BFVSpec BFVProofs BFVProofs2 KeyCacheProofs GroupModel GroupProofs SGBModel.
Import ListNotations.
Local Open Scope nat_scope.

(* ---------------------------------------------------------------- C16 *)

(** Slot 0 of the result is the sum (mod t) of the first k slots, when k is a power of two or the
    slots beyond k are zero. *)
Theorem C16_rotate_and_sum :
  forall (R e : nat) (t : Z) (c : cipher) (key : nat) (slots : list Z) (gk : context) (k : nat),
  R = 2 ^ e -> (1 < t)%Z -> payload c = Some (key, slots) -> public_part gk = Some key -> 0 < k <= 2 * R ->
  (exists j : nat, k = 2 ^ j) \/ (forall p : nat, k <= p < 2 * R -> nth p slots 0%Z = 0%Z) ->
  exists (c' : cipher) (slots' : list Z), rotate_and_sum R t c k gk (2 * R) = Some c' /\ payload c' = Some (key, slots') /\
    (nth 0 slots' 0 mod t = zsum k (fun m : nat => nth m slots 0) mod t)%Z.
Proof.
  intros R e t c key slots gk k He Ht Hp Hg Hk Hz.
  assert (0 < R) as HR by (pose proof (Nat.pow_nonzero 2 e); lia).
  destruct (rotate_and_sum_has R t HR ltac:(lia) e c key slots gk k He Hp Hg Hk) as (c' & s' & E & _ & H' & N').
  exists c', s'. split; [exact E|]. split; [exact H'|]. rewrite N'. f_equal.
  destruct Hz as [(j & Ej)|Hz].
  - rewrite Ej. rewrite (covered_pow2 R HR e j He) by lia. reflexivity.
  - apply (zsum_pad R HR); [apply (covered_ge R HR); lia|]. intros i Hi. apply Hz. pose proof (covered_le R HR e k He Hk). lia.
Qed.
Print Assumptions C16_rotate_and_sum.

(** Stride version: elements 0, s, 2s, ... of the first row. *)
Theorem C16_strided_rotate_and_sum :
  forall (R : nat) (t : Z) (c : cipher) (key : nat) (slots : list Z) (gk : context) (max_step : Z) (stride j : nat),
  (1 < t)%Z -> payload c = Some (key, slots) -> public_part gk = Some key -> (1 <= max_step)%Z -> 0 < stride -> (2 ^ j - 1) * stride < R ->
  exists (c' : cipher) (slots' : list Z), strided_rotate_and_sum R t c stride (2 ^ j) gk max_step = Some c' /\ payload c' = Some (key, slots') /\
    (nth 0 slots' 0 mod t = zsum (2 ^ j) (fun m : nat => nth (m * stride) slots 0) mod t)%Z.
Proof.
  intros R t c key slots gk mx stride j Ht Hp Hg Hm Hs Hj.
  exact (strided_has R t (Nat.le_lt_trans _ _ _ (Nat.le_0_l _) Hj) Ht c key slots gk mx stride j Hp Hg Hm Hs Hj).
Qed.
Print Assumptions C16_strided_rotate_and_sum.

Lemma nth_skipn_z (l : list Z) : forall s i, nth i (skipn s l) 0%Z = nth (s + i) l 0%Z.
Proof. induction l as [|x l IH]; intros [|s] i; cbn [skipn]; try reflexivity; [destruct i; reflexivity|]. rewrite IH. reflexivity. Qed.
Lemma nth_firstn_z (l : list Z) : forall s i, i < s -> nth i (firstn s l) 0%Z = nth i l 0%Z.
Proof. induction l as [|x l IH]; intros [|s] i Hi; cbn [firstn]; try reflexivity; try lia. destruct i; [reflexivity|]. cbn [nth]. apply IH. lia. Qed.
(** The rotations themselves, on the two rows of R slots: rotate turns both rows cyclically by
    the step (to the left if positive), rotate_columns exchanges the rows; any number of them
    only moves slots around. *)
Theorem C16_rotations :
  forall (R : nat) (row0 row1 : list Z) (key : nat) (gk sk : context) (c : cipher),
  length row0 = R -> length row1 = R -> payload c = Some (key, row0 ++ row1) -> public_part gk = Some key -> secret_part sk = Some key ->
  (exists c', rotate_columns R c gk = Some c' /\ decrypt c' sk = Some (row1 ++ row0)) /\
  forall s : nat, s < R ->
    (exists c', rotate R c (Z.of_nat s) gk = Some c' /\
       decrypt c' sk = Some ((skipn s row0 ++ firstn s row0) ++ (skipn s row1 ++ firstn s row1))) /\
    (exists c', rotate R c (- Z.of_nat s) gk = Some c' /\
       decrypt c' sk = Some ((skipn (R - s) row0 ++ firstn (R - s) row0) ++ (skipn (R - s) row1 ++ firstn (R - s) row1))).
Proof.
  intros R row0 row1 key gk sk c L0 L1 P G K.
  assert (Dec : forall x s, decrypt (Cipher (Some (key, s)) x) sk = Some s) by (intros x s; unfold decrypt; rewrite K; cbn [payload]; rewrite Nat.eqb_refl; reflexivity).
  assert (Dc : decrypt c sk = Some (row0 ++ row1)) by (unfold decrypt; rewrite K, P, Nat.eqb_refl; reflexivity).
  split.
  { unfold rotate_columns. rewrite P, G, Nat.eqb_refl. eexists. split; [reflexivity|]. rewrite Dec. f_equal.
    symmetry. rewrite (list_as_tab (row1 ++ row0) 0%Z), app_length, L0, L1. replace (R + R) with (2 * R) by lia. unfold swap_rows. apply tab_ext. intros p Hp.
    destruct (Nat.ltb_spec p R).
    - rewrite !app_nth1 by lia. rewrite app_nth2 by lia. f_equal. lia.
    - rewrite app_nth2, app_nth1 by lia. f_equal. lia. }
  assert (Rot : forall (z : Z) (s : nat), s < R \/ s = R /\ z = 0%Z -> (z mod Z.of_nat R = Z.of_nat s mod Z.of_nat R)%Z -> (Z.abs z < Z.of_nat R)%Z ->
    exists c', rotate R c z gk = Some c' /\ decrypt c' sk = Some ((skipn s row0 ++ firstn s row0) ++ (skipn s row1 ++ firstn s row1))).
  { intros z s Hs Hz Ha. unfold rotate. destruct (Z.eqb_spec z 0) as [->|Hz0].
    - exists c. split; [reflexivity|]. rewrite Dc. f_equal.
      assert (s = 0 \/ s = R) as [->| ->].
      { destruct Hs as [Hs|[-> _]]; [|auto]. rewrite Z.mod_0_l, Z.mod_small in Hz by lia. left. lia. }
      + cbn [skipn firstn]. rewrite !app_nil_r. reflexivity.
      + rewrite <- L0 at 1 2. rewrite skipn_all, firstn_all. rewrite <- L1 at 1 2. rewrite skipn_all, firstn_all. reflexivity.
    - destruct Hs as [Hs|[_ H0]]; [|contradiction]. rewrite P, G, Nat.eqb_refl, (proj2 (Z.ltb_lt _ _) Ha). cbn [andb].
      eexists. split; [reflexivity|]. rewrite Dec. f_equal. symmetry.
      rewrite (list_as_tab ((skipn s row0 ++ firstn s row0) ++ (skipn s row1 ++ firstn s row1)) 0%Z).
      rewrite !app_length, !skipn_length, !firstn_length, L0, L1. replace (R - s + Nat.min s R + (R - s + Nat.min s R)) with (2 * R) by lia.
      unfold rot_rows. apply tab_ext. intros p Hp. unfold rpos.
      assert (M : forall q row, q < R -> length row = R -> nth q (skipn s row ++ firstn s row) 0%Z = nth (Z.to_nat ((Z.of_nat q + z) mod Z.of_nat R)) row 0%Z).
      { intros q row Hq Lr. rewrite <- Zplus_mod_idemp_r, Hz, Zplus_mod_idemp_r.
        destruct (Nat.lt_ge_cases q (R - s)).
        - rewrite app_nth1 by (rewrite skipn_length; lia). rewrite nth_skipn_z. rewrite Z.mod_small by lia. f_equal. lia.
        - rewrite app_nth2 by (rewrite skipn_length; lia). rewrite skipn_length, Lr.
          rewrite nth_firstn_z by lia. replace (Z.of_nat q + Z.of_nat s)%Z with (Z.of_nat (q - (R - s)) + 1 * Z.of_nat R)%Z by lia.
          rewrite Z.mod_add, Z.mod_small by lia. f_equal. lia. }
      destruct (Nat.lt_ge_cases p R) as [Hp0|Hp0].
      + rewrite Nat.div_small, Nat.mod_small by lia. cbn [Nat.mul Nat.add].
        rewrite app_nth1 by (rewrite app_length, skipn_length, firstn_length; lia). rewrite (M p row0) by lia.
        pose proof (Z.mod_pos_bound (Z.of_nat p + z) (Z.of_nat R)). rewrite app_nth1 by lia. reflexivity.
      + assert (Ep : p = R + (p - R)) by lia. assert (Ed : p / R = 1) by (symmetry; apply (Nat.div_unique p R 1 (p - R)); lia).
        assert (Em : p mod R = p - R) by (symmetry; apply (Nat.mod_unique p R 1 (p - R)); lia).
        rewrite Ed, Em. rewrite app_nth2 by (rewrite app_length, skipn_length, firstn_length; lia).
        rewrite app_length, skipn_length, firstn_length, L0. replace (p - (R - s + Nat.min s R)) with (p - R) by lia.
        rewrite (M (p - R) row1) by lia. rewrite app_nth2 by lia. f_equal. lia. }
  intros s Hs. split.
  - apply Rot; [left; exact Hs|reflexivity|lia].
  - destruct (Nat.eq_dec s 0) as [->|H0].
    + rewrite Nat.sub_0_r. apply Rot; [right; split; [reflexivity|lia]| |lia]. rewrite Z_mod_same_full. reflexivity.
    + apply Rot; [left; lia| |lia]. rewrite Nat2Z.inj_sub by lia. rewrite <- (Z.mod_add (- Z.of_nat s) 1) by lia. f_equal. lia.
Qed.
Print Assumptions C16_rotations.
Definition ex_ct : cipher := Cipher (Some (0, [1; 2; 3; 4; 5; 6; 7; 8]%Z)) (PublicCtx 0).
Example C16_example : payload ex_ct = Some (0, [1; 2; 3; 4; 5; 6; 7; 8]%Z) /\ public_part (PublicCtx 0) = Some 0 /\ 4 = 2 ^ 2 /\
  option_map payload (rotate_and_sum 4 97 ex_ct 8 (PublicCtx 0) 8) = Some (Some (0, repeat 36%Z 8)).
Proof. vm_compute. auto. Qed.
Example C16_strided_example : (2 ^ 1 - 1) * 2 < 4 /\
  option_map (fun c => option_map (fun p => nth 0 (snd p) 0%Z) (payload c)) (strided_rotate_and_sum 4 97 ex_ct 2 2 (PublicCtx 0) 1) = Some (Some 4%Z).
Proof. vm_compute. split; [lia|reflexivity]. Qed.

(* ---------------------------------------------------------------- C66 *)

(** The docstring lets the slots beyond k hold "irrelevant data"; for a k that is not a power of
    two they are added in. *)
Theorem C66_irrelevant_slots_refuted :
  exists (R e : nat) (t : Z) (c : cipher) (key : nat) (slots : list Z) (gk : context) (k : nat) (c' : cipher) (slots' : list Z),
  R = 2 ^ e /\ (1 < t)%Z /\ payload c = Some (key, slots) /\ length slots = 2 * R /\ public_part gk = Some key /\ 0 < k <= 2 * R /\
  rotate_and_sum R t c k gk (2 * R) = Some c' /\ payload c' = Some (key, slots') /\
  (nth 0 slots' 0 mod t <> zsum k (fun m : nat => nth m slots 0) mod t)%Z.
Proof.
  exists 4, 2, 97%Z, ex_ct, 0, [1; 2; 3; 4; 5; 6; 7; 8]%Z, (PublicCtx 0), 3.
  eexists _, _. repeat split; try (vm_compute; reflexivity); try lia. vm_compute. discriminate.
Qed.
Print Assumptions C66_irrelevant_slots_refuted.

(* ---------------------------------------------------------------- C17 *)

(** In one process (values handed over as objects) the BFV group-by returns every group sum
    (centred modulo t). *)
Theorem C17_groupby_bfv_in_process :
  forall (R e : nat) (t : Z) (key : nat) (data bins : list Z) (K : nat),
  R = 2 ^ e -> (1 < t)%Z -> fits t data -> length bins = length data ->
  exists sums : list Z, snd (groupby_bfv R t false key data bins K) = Some sums /\ length sums = K /\
    forall g : nat, g < K -> is_centred t (group_sum data bins (Z.of_nat g)) (nth g sums 0%Z).
Proof.
  intros R e t key data bins K He Ht FT L. assert (0 < R) as HR by (pose proof (Nat.pow_nonzero 2 e); lia).
  eexists. split; [apply (groupby_ok R t HR ltac:(lia) e false key data bins K He Ht FT L); discriminate|].
  split; [rewrite map_length, seq_length; reflexivity|]. intros g Hg.
  set (f := fun g : nat => centred t (group_sum data bins (Z.of_nat g))).
  rewrite (nth_indep _ 0%Z (f 0)) by (rewrite map_length, seq_length; exact Hg). rewrite map_nth, seq_nth by exact Hg. unfold f.
  apply (centred_spec R t HR). lia.
Qed.
Print Assumptions C17_groupby_bfv_in_process.

(** Across processes (values serialised) it does so when every bin occurs in every chunk of R
    samples. *)
Theorem C113_groupby_bfv_networked_partial :
  forall (R e : nat) (t : Z) (key : nat) (data bins : list Z) (K : nat),
  R = 2 ^ e -> (1 < t)%Z -> fits t data -> length bins = length data ->
  (forall i g : nat, i * R < length data -> g < K ->
     exists j : nat, i * R <= j < (i + 1) * R /\ j < length bins /\ nth j bins (-1)%Z = Z.of_nat g) ->
  exists sums : list Z, snd (groupby_bfv R t true key data bins K) = Some sums /\ length sums = K /\
    forall g : nat, g < K -> is_centred t (group_sum data bins (Z.of_nat g)) (nth g sums 0%Z).
Proof.
  intros R e t key data bins K He Ht FT L Hc. assert (0 < R) as HR by (pose proof (Nat.pow_nonzero 2 e); lia).
  eexists. split; [apply (groupby_ok R t HR ltac:(lia) e true key data bins K He Ht FT L)|].
  { intros _ i g Hi Hg. apply Hc; [|exact Hg]. unfold num_chunks in Hi.
    pose proof (Nat.div_mod (length data + R - 1) R) as D. pose proof (Nat.mod_upper_bound (length data + R - 1) R) as M. nia. }
  split; [rewrite map_length, seq_length; reflexivity|]. intros g Hg.
  set (f := fun g : nat => centred t (group_sum data bins (Z.of_nat g))).
  rewrite (nth_indep _ 0%Z (f 0)) by (rewrite map_length, seq_length; exact Hg). rewrite map_nth, seq_nth by exact Hg. unfold f.
  apply (centred_spec R t HR). lia.
Qed.
Print Assumptions C113_groupby_bfv_networked_partial.

(** and raises whenever a bin is missing from a chunk. *)
Theorem C113_groupby_bfv_networked_refuted :
  forall (R : nat) (t : Z) (key : nat) (data bins : list Z) (K i g : nat),
  0 < R -> (1 < t)%Z -> fits t data -> length bins = length data ->
  i * R < length data -> g < K ->
  ~ (exists j : nat, i * R <= j < (i + 1) * R /\ j < length bins /\ nth j bins (-1)%Z = Z.of_nat g) ->
  snd (groupby_bfv R t true key data bins K) = None.
Proof.
  intros R t key data bins K i g HR Ht FT L Hi Hg Hno.
  apply (groupby_network_fails R t HR ltac:(lia) key data bins K i g Ht FT L); [|exact Hg|exact Hno].
  unfold num_chunks. apply Nat.lt_le_trans with (S i); [lia|]. apply Nat.div_le_lower_bound; lia.
Qed.
Print Assumptions C113_groupby_bfv_networked_refuted.

Definition gb_data : list Z := [5; -3; 7; 1; 2]%Z.
Definition gb_bins : list Z := [0; 2; 1; 0; 1]%Z.
Example C17_bfv_examples :
  fits 97 gb_data /\ snd (groupby_bfv 2 97 false 0 gb_data gb_bins 3) = Some [6; 9; -3]%Z /\
  snd (groupby_bfv 2 97 true 0 gb_data gb_bins 3) = None /\
  snd (groupby_bfv 2 97 true 0 [5; -3; 7; 1]%Z [0; 1; 1; 0]%Z 2) = Some [6; 4]%Z.
Proof.
  split; [|vm_compute; auto]. intros v Hv. cbn in Hv. intuition (subst; lia).
Qed.

(** The shuffle version returns every group sum modulo 2^64, as int64, for every mask. *)
Theorem C17_groupby_shuffle :
  forall (X : cenv) (CT : Type) (enc : list N -> list N -> Z -> CT) (dec : list N -> CT -> option Z),
  env_ok X -> (forall key nonce m, dec key (enc key nonce m) = Some m) ->
  forall (R : switch_rand) (mask data bins : list Z) (K : nat) (r : groupby_run),
  length mask = length data -> length bins = length data ->
  groupby_shuffle X CT enc dec R mask data bins K = Some r ->
  length (result r) = K /\
  forall g : nat, g < K -> (- 2 ^ 63 <= nth g (result r) 0 < 2 ^ 63)%Z /\
    (nth g (result r) 0 mod 2 ^ 64 = group_sum data bins (Z.of_nat g) mod 2 ^ 64)%Z.
Proof.
  intros X CT enc dec OKX SYM R mask data bins K r L1 L2 H. rewrite (run_result X CT enc dec OKX SYM R mask data bins K r L1 L2 H).
  split; [rewrite map_length, seq_length; reflexivity|]. intros g Hg. change (map _ (seq 0 K)) with (segment_sum data bins K).
  rewrite segment_nth by exact Hg. split; [apply wrap_int64|apply wrap_mod].
Qed.
Print Assumptions C17_groupby_shuffle.

(** and it does return, except for the degenerate draws at which the underlying transfer fails *)
Theorem C17_groupby_shuffle_completes :
  forall (X : cenv) (CT : Type) (enc : list N -> list N -> Z -> CT) (dec : list N -> CT -> option Z),
  env_ok X -> gen_exact (grp X) -> (forall key nonce m, dec key (enc key nonce m) = Some m) ->
  forall (R : switch_rand) (mask data bins : list Z) (K : nat),
  length mask = length data -> length bins = length data ->
  (forall i, i < 2 * Nat.max (length data) 1 -> generic_draw X (rC0 R) (rnd0 R i) /\ generic_draw X (rC1 R) (rnd1 R i)) ->
  exists r, groupby_shuffle X CT enc dec R mask data bins K = Some r.
Proof.
  intros X CT enc dec OKX EX SYM R mask data bins K L1 L2 HR.
  exact (run_completes X CT enc dec OKX SYM R mask data bins K EX L1 L2 HR).
Qed.
Print Assumptions C17_groupby_shuffle_completes.

Definition zenc (k n : list N) (m : Z) : list N * Z := (k, m).
Definition zdec (k : list N) (c : list N * Z) : option Z := Some (snd c).
Example C17_shuffle_example :
  option_map result (groupby_shuffle env11 (list N * Z) zenc zdec ex_R [100; 2 ^ 62; -7; 9223372036854775807; 3]%Z gb_data gb_bins 3)
  = Some [6; 9; -3]%Z.
Proof. vm_compute. reflexivity. Qed.

(* ---------------------------------------------------------------- C62 *)

Definition mask_for (n : nat) (m : list Z) : Prop := length m = n /\ Forall int64 m.

(** Whatever the sender's data, the receiver sees the same thing for as many masks: for two data
    vectors with the same group sums there is a bijection of the masks under which the shares
    the receiver obtains and the helper's sums are identical. *)
Theorem C62_receiver_learns_only_sums :
  forall (X : cenv) (CT : Type) (enc : list N -> list N -> Z -> CT) (dec : list N -> CT -> option Z),
  env_ok X -> (forall key nonce m, dec key (enc key nonce m) = Some m) ->
  forall (data data' bins : list Z) (K : nat),
  length data' = length data -> length bins = length data ->
  (forall g : nat, g < K -> (group_sum data bins (Z.of_nat g) mod 2 ^ 64 = group_sum data' bins (Z.of_nat g) mod 2 ^ 64)%Z) ->
  exists to from : list Z -> list Z,
    (forall m, mask_for (length data) m -> mask_for (length data) (to m) /\ from (to m) = m) /\
    (forall m, mask_for (length data) m -> mask_for (length data) (from m) /\ to (from m) = m) /\
    forall (R : switch_rand) (m : list Z) (r r' : groupby_run), mask_for (length data) m ->
      groupby_shuffle X CT enc dec R m data bins K = Some r ->
      groupby_shuffle X CT enc dec R (to m) data' bins K = Some r' ->
      receiver_sees r' = receiver_sees r.
Proof.
  intros X CT enc dec OKX SYM data data' bins K L1 L2 HG.
  exists (shift_mask data data'), (shift_mask data' data). split; [|split].
  - intros m [Lm Fm]. split; [split; [apply shift_length; [exact L1|exact Lm]|apply shift_int64]|].
    apply shift_invol; [exact L1|exact Lm|exact Fm].
  - intros m [Lm Fm]. split; [split; [rewrite shift_length by congruence; congruence|apply shift_int64]|].
    apply shift_invol; [congruence|congruence|exact Fm].
  - intros R m r r' [Lm Fm] H H'.
    apply (same_view X CT enc dec OKX SYM R m data data' bins K r L1 Lm L2) with (r' := r'); [|exact H|exact H'].
    intros g Hg. apply wrap_cong. apply HG, Hg.
Qed.
Print Assumptions C62_receiver_learns_only_sums.

(** The helper sees nothing of the data, *)
Theorem C62_helper_sees_no_data :
  forall (X : cenv) (CT : Type) (enc : list N -> list N -> Z -> CT) (dec : list N -> CT -> option Z),
  env_ok X -> (forall key nonce m, dec key (enc key nonce m) = Some m) ->
  forall (R : switch_rand) (mask data data' bins : list Z) (K : nat) (r r' : groupby_run),
  length mask = length data -> length data' = length data -> length bins = length data ->
  groupby_shuffle X CT enc dec R mask data bins K = Some r ->
  groupby_shuffle X CT enc dec R mask data' bins K = Some r' ->
  helper_sees r = helper_sees r'.
Proof.
  intros X CT enc dec OKX SYM R mask data data' bins K r r' L1 L2 L3 H H'.
  rewrite (run_shape X CT enc dec OKX SYM R mask data bins K r L1 L3 H).
  rewrite (run_shape X CT enc dec OKX SYM R mask data' bins K r' ltac:(congruence) ltac:(congruence) H'). reflexivity.
Qed.
Print Assumptions C62_helper_sees_no_data.

(** but it is sent the bin of every sample, not just the bin sizes. *)
Theorem C127_helper_gets_bins_refuted :
  forall (X : cenv) (CT : Type) (enc : list N -> list N -> Z -> CT) (dec : list N -> CT -> option Z),
  env_ok X -> (forall key nonce m, dec key (enc key nonce m) = Some m) ->
  forall (R : switch_rand) (mask data bins : list Z) (K : nat) (r : groupby_run),
  length mask = length data -> length bins = length data ->
  groupby_shuffle X CT enc dec R mask data bins K = Some r ->
  snd (helper_sees r) = bins.
Proof.
  intros X CT enc dec OKX SYM R mask data bins K r L1 L2 H.
  rewrite (run_shape X CT enc dec OKX SYM R mask data bins K r L1 L2 H). reflexivity.
Qed.
Print Assumptions C127_helper_gets_bins_refuted.

Example C62_example :
  let data' := [4; -3; 9; 2; 0]%Z in
  (forall g : nat, g < 3 -> (group_sum gb_data gb_bins (Z.of_nat g) mod 2 ^ 64 = group_sum data' gb_bins (Z.of_nat g) mod 2 ^ 64)%Z) /\
  mask_for 5 [100; 2 ^ 62; -7; 9223372036854775807; 3]%Z /\
  option_map receiver_sees (groupby_shuffle env11 (list N * Z) zenc zdec ex_R [100; 2 ^ 62; -7; 9223372036854775807; 3]%Z gb_data gb_bins 3) =
  option_map receiver_sees (groupby_shuffle env11 (list N * Z) zenc zdec ex_R [99; 2 ^ 62; -5; -9223372036854775808; 1]%Z data' gb_bins 3).
Proof.
  split; [|split; [split; [reflexivity|]|vm_compute; reflexivity]].
  - intros g Hg. destruct g as [|[|[|g]]]; [reflexivity..|lia].
  - repeat constructor; vm_compute; discriminate.
Qed.

(* ---------------------------------------------------------------- C61 *)

(** The receiver is sent the "Galois keys" and with them reads every entry of the sender's
    data. *)
Theorem C61_galois_keys_decrypt_refuted :
  forall (R : nat) (t : Z) (networked : bool) (key : nat) (data bins : list Z) (K : nat),
  0 < R -> (1 < t)%Z -> Z.odd t = true -> fits t data ->
  exists view : receiver_view, fst (groupby_bfv R t networked key data bins K) = Some view /\
    forall j : nat, j < length data ->
    exists (ct : cipher) (slots : list Z),
      nth_error (v_chunks view) (j / R) = Some ct /\ decrypt ct (v_gk view) = Some slots /\
      nth (j mod R) (decode t slots) 0%Z = nth j data 0%Z.
Proof.
  intros R t networked key data bins K HR Ht Hodd FT. unfold groupby_bfv. cbv zeta.
  replace (2 * R / 2) with R by (rewrite Nat.mul_comm, Nat.div_mul; lia).
  destruct (chunks_ok R t HR ltac:(lia) data key FT) as (chunks & Ec & Fc). cbv zeta in Ec, Fc. rewrite Ec. cbn [fst].
  eexists. split; [reflexivity|]. intros j Hj. cbn [v_chunks v_gk].
  assert (j / R < num_chunks R (length data)) as Hc.
  { pose proof (chunk_cover R HR R (length data) HR) as C. apply Nat.div_lt_upper_bound; lia. }
  assert (exists ct, nth_error chunks (j / R) = Some ct /\ exists si, has ct key si /\ forall p, cong t (nth p si 0%Z) (nth p (data_chunk R data (j / R)) 0%Z)) as (ct & Ect & si & Hs & Ns).
  { clear Ec. assert (nth_error (seq 0 (num_chunks R (length data))) (j / R) = Some (j / R)) as Es.
    { rewrite (nth_error_nth' _ 0) by (rewrite seq_length; exact Hc). rewrite seq_nth by exact Hc. reflexivity. }
    revert Es Fc. generalize (seq 0 (num_chunks R (length data))) as l. generalize (j / R) at 1 3 as q.
    intros q l Es F. revert q Es. induction F as [|i ct l l' (_ & si & Hi & Ni) F IH]; intros q Es; [destruct q; discriminate Es|].
    destruct q as [|q]; [|exact (IH q Es)]. cbn [nth_error] in Es. injection Es as ->. exists ct. split; [reflexivity|]. exists si. auto. }
  exists (move networked ct), si. split; [rewrite nth_error_map, Ect; reflexivity|]. split.
  - assert (payload (move networked ct) = Some (key, si)) as Hm by (destruct networked; exact Hs).
    unfold send_context, make_galois_keys, decrypt. cbn [secret_part]. rewrite Hm, Nat.eqb_refl. reflexivity.
  - assert (nth (j mod R) (map (centred t) si) 0%Z = centred t (nth (j mod R) si 0%Z)) as E1.
    { destruct (lt_dec (j mod R) (length si)) as [L|L].
      - rewrite (nth_indep _ 0%Z (centred t 0)) by (rewrite map_length; exact L). apply map_nth.
      - rewrite !nth_overflow by (rewrite ?map_length; lia). unfold centred. rewrite Z.mod_0_l by lia.
        destruct (Z.ltb_spec (t / 2) 0); [pose proof (Z.div_pos t 2); lia|reflexivity]. }
    unfold decode. rewrite E1. rewrite (centred_cong t _ _ (Ns (j mod R))).
    rewrite (chunk_nth R HR) by (apply Nat.mod_upper_bound; lia).
    replace (j / R * R + j mod R) with j by (pose proof (Nat.div_mod j R); lia).
    assert (2 * Z.abs (nth j data 0) <= t)%Z as B by (apply FT, nth_In, Hj).
    apply Z.odd_spec in Hodd. destruct Hodd as (h & Eh). assert (t / 2 = h)%Z as Eh2 by (rewrite Eh, Z.mul_comm, Z.div_add_l by lia; cbn; lia).
    unfold centred. rewrite Eh2. destruct (Z_lt_le_dec (nth j data 0%Z) 0) as [Neg|Pos].
    + assert (nth j data 0 mod t = nth j data 0 + t)%Z as ->.
      { rewrite <- (Z_mod_plus_full _ 1 t), Z.mul_1_l, Z.mod_small by lia. reflexivity. }
      destruct (Z.ltb_spec h (nth j data 0%Z + t)%Z); lia.
    + rewrite Z.mod_small by lia. destruct (Z.ltb_spec h (nth j data 0%Z)); lia.
Qed.
Print Assumptions C61_galois_keys_decrypt_refuted.

(** The same holds outside the group-by: anything encrypted for a key pair can be decrypted with
    the evaluation keys made from it. *)
Theorem C61_evaluation_keys_refuted :
  forall (c : cipher) (sk : context), decrypt c (make_galois_keys sk) = decrypt c sk /\ decrypt c (make_relin_keys sk) = decrypt c sk.
Proof. intros c sk. split; reflexivity. Qed.
Print Assumptions C61_evaluation_keys_refuted.
Example C61_example : Z.odd 97 = true /\ fits 97 gb_data /\
  match fst (groupby_bfv 2 97 true 0 gb_data gb_bins 3) with
  | Some v => map (fun c => option_map (fun s => firstn 2 (decode 97 s)) (decrypt c (v_gk v))) (v_chunks v) = [Some [5; -3]; Some [7; 1]; Some [2; 0]]%Z
  | None => False
  end.
Proof. split; [reflexivity|]. split; [intros v Hv; cbn in Hv; intuition (subst; lia)|vm_compute; reflexivity]. Qed.

(* ---------------------------------------------------------------- C63 *)

(** Sparse aggregation delivers every requested sum when no (target, source) pair is requested
    twice and no source lies in the other row than its target; other slots become zero. *)
Theorem C184_sparse_aggregation :
  forall (R : nat) (t : Z) (c : cipher) (key : nat) (slots : list Z) (gk : context) (V : nat) (aggs : list (nat * list nat)),
  0 < R -> (1 < t)%Z -> payload c = Some (key, slots) -> public_part gk = Some key -> V <= 2 * R ->
  pairs aggs <> [] -> NoDup (pairs aggs) ->
  (forall tgt src : nat, In (tgt, src) (pairs aggs) -> tgt < V /\ tgt / R = src / R) ->
  exists (c' : cipher) (slots' : list Z), aggregate_sparse R t c aggs gk V = Some (Some c') /\ payload c' = Some (key, slots') /\
    forall p : nat, p < 2 * R -> (nth p slots' 0 mod t = wanted aggs slots p mod t)%Z.
Proof.
  intros R t c key slots gk V aggs HR Ht Hp Hg HV Hn ND Hr.
  exact (aggregate_sparse_ok R t HR Ht c key slots gk V aggs Hp Hg HV Hn ND Hr).
Qed.
Print Assumptions C184_sparse_aggregation.

(** A source listed twice is counted once; *)
Theorem C63_duplicate_source_refuted :
  exists (aggs : list (nat * list nat)) (c' : cipher) (slots' : list Z),
  (forall tgt src : nat, In (tgt, src) (pairs aggs) -> tgt < 8 /\ tgt / 4 = src / 4) /\
  aggregate_sparse 4 97 ex_ct aggs (PublicCtx 0) 8 = Some (Some c') /\ payload c' = Some (0, slots') /\
  exists p : nat, p < 8 /\ (nth p slots' 0 mod 97 <> wanted aggs [1; 2; 3; 4; 5; 6; 7; 8] p mod 97)%Z.
Proof.
  exists [(0, [1; 1])]. eexists _, _. split; [|split; [vm_compute; reflexivity|split; [reflexivity|]]].
  - intros tgt src Hin. cbn in Hin. destruct Hin as [E|[E|[]]]; injection E as <- <-; (split; [lia|reflexivity]).
  - exists 0. split; [lia|]. vm_compute. discriminate.
Qed.
Print Assumptions C63_duplicate_source_refuted.

(** a source in the other row is replaced by another slot, *)
Theorem C63_cross_row_refuted :
  exists (aggs : list (nat * list nat)) (c' : cipher) (slots' : list Z),
  NoDup (pairs aggs) /\ (forall tgt src : nat, In (tgt, src) (pairs aggs) -> tgt < 8 /\ src < 8) /\
  aggregate_sparse 4 97 ex_ct aggs (PublicCtx 0) 8 = Some (Some c') /\ payload c' = Some (0, slots') /\
  exists p : nat, p < 8 /\ (nth p slots' 0 mod 97 <> wanted aggs [1; 2; 3; 4; 5; 6; 7; 8] p mod 97)%Z.
Proof.
  exists [(3, [4])]. eexists _, _. split; [|split; [|split; [vm_compute; reflexivity|split; [reflexivity|]]]].
  - repeat constructor. intros [].
  - intros tgt src Hin. cbn in Hin. destruct Hin as [E|[]]. injection E as <- <-. lia.
  - exists 3. split; [lia|]. vm_compute. discriminate.
Qed.
Print Assumptions C63_cross_row_refuted.
(** and an empty request gives Python's None instead of a ciphertext of zeros. *)
Theorem C63_empty_refuted :
  forall (R : nat) (t : Z) (c : cipher) (gk : context) (V : nat), aggregate_sparse R t c [] gk V = Some None.
Proof. reflexivity. Qed.
Print Assumptions C63_empty_refuted.
Example C63_example :
  let aggs := [(0, [0; 3]); (1, [2]); (5, [4; 7])] in
  NoDup (pairs aggs) /\ (forall tgt src : nat, In (tgt, src) (pairs aggs) -> tgt < 8 /\ tgt / 4 = src / 4) /\
  option_map (option_map payload) (aggregate_sparse 4 97 ex_ct aggs (PublicCtx 0) 8) = Some (Some (Some (0, [5; 3; 0; 0; 0; 13; 0; 0]%Z))).
Proof.
  cbv zeta. split; [|split; [|vm_compute; reflexivity]].
  - repeat constructor; cbn; intuition discriminate.
  - intros tgt src Hin. cbn in Hin. decompose [or] Hin; try contradiction; match goal with H : (_, _) = _ |- _ => injection H as <- <- end; split; try lia; reflexivity.
Qed.

(* ---------------------------------------------------------------- C64 *)

(** Bucket aggregation: with 2, 4, 8, ... buckets whose unused slots are zero, the extracted
    results are the bucket sums. *)
Theorem C185_bucket_sums :
  forall (R e j : nat) (t : Z) (c : cipher) (key : nat) (slots : list Z) (gk sk : context) (samples : nat),
  R = 2 ^ e -> j <= e -> (1 < t)%Z -> payload c = Some (key, slots) -> public_part gk = Some key -> secret_part sk = Some key ->
  let n_buckets := 2 ^ S j in let stride := 2 * R / n_buckets in
  0 < samples <= stride ->
  (forall b m : nat, b < n_buckets -> samples <= m < stride -> nth (b * stride + m) slots 0%Z = 0%Z) ->
  exists (c' : cipher) (slots' : list Z),
    batch_bucket_aggregate R t c n_buckets samples gk (2 * R) = Some c' /\ decrypt c' sk = Some slots' /\
    length (extract_bucket_results slots' n_buckets (2 * R)) = n_buckets /\
    forall b : nat, b < n_buckets ->
      (nth b (extract_bucket_results slots' n_buckets (2 * R)) 0 mod t = bucket_sum slots stride samples b mod t)%Z.
Proof.
  intros R e j t c key slots gk sk samples He Hj Ht Hp Hg Hsk n_buckets stride Hs Hz.
  assert (0 < R) as HR by (pose proof (Nat.pow_nonzero 2 e); lia).
  destruct (bucket_ok R t HR Ht c key slots gk e j samples He Hj Hp Hg (proj1 Hs) (proj2 Hs) Hz) as (c' & s' & E & H' & N').
  exists c', s'. split; [exact E|]. split; [unfold decrypt; rewrite Hsk; unfold has in H'; rewrite H', Nat.eqb_refl; reflexivity|].
  unfold extract_bucket_results. split; [rewrite map_length, seq_length; reflexivity|]. intros b Hb.
  set (f := fun b : nat => nth (b * (2 * R / n_buckets)) s' 0%Z).
  rewrite (nth_indep _ 0%Z (f 0)) by (rewrite map_length, seq_length; exact Hb). rewrite map_nth, seq_nth by exact Hb.
  apply (N' b Hb).
Qed.
Print Assumptions C185_bucket_sums.

(** With another number of buckets samples of the neighbouring bucket are added in, although the
    layout asked for in the docstring is respected. *)
Theorem C64_bucket_spill_refuted :
  exists (R e n_buckets samples : nat) (t : Z) (c c' : cipher) (key : nat) (slots slots' : list Z),
  let stride := 2 * R / n_buckets in
  R = 2 ^ e /\ (1 < t)%Z /\ length slots = 2 * R /\ payload c = Some (key, slots) /\ 0 < samples <= stride /\
  (forall b m : nat, b < n_buckets -> samples <= m < stride -> nth (b * stride + m) slots 0%Z = 0%Z) /\
  batch_bucket_aggregate R t c n_buckets samples (PublicCtx key) (2 * R) = Some c' /\ payload c' = Some (key, slots') /\
  exists b : nat, b < n_buckets /\ (nth b (extract_bucket_results slots' n_buckets (2 * R)) 0 mod t <> bucket_sum slots stride samples b mod t)%Z.
Proof.
  exists 8, 3, 5, 3, 97%Z, (Cipher (Some (0, [1; 2; 3; 4; 5; 6; 7; 8; 9; 10; 11; 12; 13; 14; 15; 0]%Z)) (PublicCtx 0)).
  eexists _, 0, [1; 2; 3; 4; 5; 6; 7; 8; 9; 10; 11; 12; 13; 14; 15; 0]%Z, _. cbv zeta.
  split; [reflexivity|]. split; [lia|]. split; [reflexivity|]. split; [reflexivity|]. split; [vm_compute; lia|].
  split; [intros b m _ Hm; change (2 * 8 / 5) with 3 in Hm; lia|]. split; [vm_compute; reflexivity|]. split; [reflexivity|].
  exists 0. split; [lia|]. vm_compute. discriminate.
Qed.
Print Assumptions C64_bucket_spill_refuted.
(** One single bucket filling both rows is not handled either: twice the first row comes out and
    the second row is ignored (at the default sizes, R = 2048). *)
Theorem C64_one_bucket_refuted :
  forall (R e : nat) (t : Z) (c : cipher) (key : nat) (slots : list Z) (gk : context),
  R = 2 ^ e -> 1024 < R -> (1 < t)%Z -> payload c = Some (key, slots) -> public_part gk = Some key ->
  exists (c' : cipher) (slots' : list Z),
    batch_bucket_aggregate R t c 1 (2 * R) gk (2 * R) = Some c' /\ payload c' = Some (key, slots') /\
    (nth 0 slots' 0 mod t = (2 * zsum R (fun m : nat => nth m slots 0)) mod t)%Z.
Proof.
  intros R e t c key slots gk He Hb Ht Hp Hg. exact (one_bucket_has R t ltac:(lia) Ht c key slots gk e He Hb Hp Hg).
Qed.
Print Assumptions C64_one_bucket_refuted.
Example C64_examples :
  let slots := [1; 2; 3; 0; 5; 0; 7; 0]%Z in
  option_map (fun c => option_map (fun s => extract_bucket_results s 2 8) (decrypt c (SecretCtx 0)))
    (batch_bucket_aggregate 4 97 (Cipher (Some (0, slots)) (PublicCtx 0)) 2 3 (PublicCtx 0) 8) = Some (Some [6; 12]%Z) /\
  (forall b m : nat, b < 2 -> 3 <= m < 4 -> nth (b * 4 + m) slots 0%Z = 0%Z) /\ 2048 = 2 ^ 11.
Proof.
  split; [vm_compute; reflexivity|]. split; [|reflexivity]. intros b m Hb Hm. assert (m = 3) as -> by lia. destruct b as [|[|b]]; [reflexivity..|lia].
Qed.

(* ---------------------------------------------------------------- C65 *)

(** The encrypted histogram of gradient boosting differs from the plaintext one: the mask is laid
    out by bucket but the samples are not moved there. *)
Theorem C65_encrypted_histogram_refuted :
  exists (R : nat) (t : Z) (g : list Z) (node : list bool) (bins : list nat) (n_buckets key : nat) (h : list Z),
  (forall b : nat, In b bins -> b < n_buckets) /\ length node = length g /\ length bins = length g /\ fits t g /\
  (forall b : nat, b < n_buckets -> (2 * Z.abs (nth b (plain_histogram g node bins n_buckets) 0) < t)%Z) /\
  histogram R t g node bins n_buckets key = Some h /\ h <> plain_histogram g node bins n_buckets.
Proof.
  exists 4, 97%Z, [1; 2; 3; 4; 5; 6; 7; 8]%Z, (repeat true 8), [1; 1; 1; 1; 0; 0; 0; 0], 2, 0. eexists.
  split; [intros b Hb; cbn in Hb; intuition lia|]. split; [reflexivity|]. split; [reflexivity|].
  split; [intros v Hv; cbn in Hv; intuition (subst; lia)|].
  split; [intros b Hb; destruct b as [|[|b]]; [vm_compute; reflexivity..|lia]|].
  split; [vm_compute; reflexivity|]. vm_compute. discriminate.
Qed.
Print Assumptions C65_encrypted_histogram_refuted.

(* ---------------------------------------------------------------- C54 *)

(** Two keygen calls of a process return the same key pair exactly when they ask for the same
    parameters with no clear_keygen_cache in between, so they are not independent. *)
Theorem C54_keygen_cache_refuted :
  forall (ops : list key_op) (i j : nat) (d t d' t' : Z), i < j ->
  nth_error ops i = Some (Keygen d t) -> nth_error ops j = Some (Keygen d' t') ->
  let keys := key_run (KS [] 0) ops in
  (nth_error keys i = nth_error keys j <->
   (d, t) = (d', t') /\ forall m : nat, i < m < j -> nth_error ops m <> Some ClearCache).
Proof.
  intros ops i j d t d' t' Hij Hi Hj keys. apply same_key_iff; try assumption.
  split; [intros q k []|intros q q' k []].
Qed.
Print Assumptions C54_keygen_cache_refuted.
(** In particular a second party's data encrypted under "its own" key is readable by the first. *)
Theorem C54_second_party_readable_refuted :
  forall (st : keystate) (d t : Z) (R : nat) (vec : list Z) (c : cipher),
  let '((_, sk1), st1) := keygen d t st in
  let '((pk2, sk2), _) := keygen d t st1 in
  encrypt R t vec pk2 = Some c -> decrypt c sk1 = decrypt c sk2 /\ exists slots, decrypt c sk1 = Some slots.
Proof.
  intros st d t R vec c. destruct (keygen_remembers st d t) as (k & Ek & Fk). destruct (keygen d t st) as [[pk1 sk1] st1].
  cbn [fst snd] in *. injection Ek as -> ->.
  destruct (keygen_cases st1 d t) as [(k' & F' & ->)|(N & _)]; [|rewrite Fk in N; discriminate N].
  rewrite Fk in F'. injection F' as <-. intros E. split; [reflexivity|]. unfold encrypt in E. cbn [public_part] in E.
  destruct (encode R t vec) as [s|]; [|discriminate E]. injection E as <-. exists s. unfold decrypt. cbn [secret_part payload]. rewrite Nat.eqb_refl. reflexivity.
Qed.
Print Assumptions C54_second_party_readable_refuted.
Example C54_example : key_run (KS [] 0) [Keygen 4096 97; Keygen 8192 97; Keygen 4096 97; ClearCache; Keygen 4096 97]
  = [Some (PublicCtx 0, SecretCtx 0); Some (PublicCtx 1, SecretCtx 1); Some (PublicCtx 0, SecretCtx 0); None; Some (PublicCtx 2, SecretCtx 2)].
Proof. reflexivity. Qed.
