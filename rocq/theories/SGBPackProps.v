(** C214: histograms of many features packed into one ciphertext. *)
From Coq Require Import List ZArith Bool Arith Lia.
From Verif Require Import MPCBase BFVModel BFVSpec BFVProofs SGBModel SGBHistSpec SGBHistProofs SGBPackModel SGBPackSpec SGBPackProofs SGBPackProofs2.
Import ListNotations.
Local Open Scope nat_scope.

(** For every ring size, bucket count, gradients, nodes and features (any number of batches): if each
    node and feature alone has the histogram [h node bins], and no bucket's packed features reach over
    the middle of the slots, then packing, decrypting and unpacking all of them together gives exactly
    these histograms, in order: no feature's sums land in another's.  Missing: bucket counts whose
    regions do reach over the middle, where it is false (C214_middle_refuted). *)
Theorem C214_features_do_not_mix_partial :
  forall (R : nat) (t : Z) (key n_buckets : nat) (g : list Z) (nodes : list (list bool)) (features : list (list nat))
         (h : list bool -> list nat -> list Z),
  0 < R -> (1 < t)%Z -> 2 <= n_buckets <= 2 * R ->
  let stride := 2 * R / n_buckets in
  rows_respected R n_buckets stride (Nat.min stride (length features)) ->
  (forall (node : list bool) (bins : list nat), In node nodes -> In bins features ->
     histogram R t g node bins n_buckets key = Some (h node bins)) ->
  histograms R t g nodes features n_buckets key = Some (map (fun node => map (h node) features) nodes).
Proof. intros R t key nb g nodes features h HR Ht Hnb stride RR H. eapply unpack_ok; eauto. Qed.
Print Assumptions C214_features_do_not_mix_partial.

(** With a power-of-two number of buckets nothing reaches over the middle, however many features. *)
Theorem C214_power_of_two :
  forall (e j : nat) (t : Z) (key : nat) (g : list Z) (nodes : list (list bool)) (features : list (list nat))
         (h : list bool -> list nat -> list Z),
  j <= e -> (1 < t)%Z ->
  (forall (node : list bool) (bins : list nat), In node nodes -> In bins features ->
     histogram (2 ^ e) t g node bins (2 ^ S j) key = Some (h node bins)) ->
  histograms (2 ^ e) t g nodes features (2 ^ S j) key = Some (map (fun node => map (h node) features) nodes).
Proof.
  intros e j t key g nodes features h Hj Ht H. pose proof (Nat.pow_nonzero 2 e). pose proof (Nat.pow_nonzero 2 j).
  assert (2 ^ e = 2 ^ (e - j) * 2 ^ j) as E by (rewrite <- Nat.pow_add_r; f_equal; lia). pose proof (Nat.pow_nonzero 2 (e - j)).
  assert (2 * 2 ^ e / 2 ^ S j = 2 ^ (e - j)) as Es by (rewrite Nat.pow_succ_r', E; replace (2 * (2 ^ (e - j) * 2 ^ j)) with (2 ^ (e - j) * (2 * 2 ^ j)) by lia; apply Nat.div_mul; lia).
  apply C214_features_do_not_mix_partial; [lia|exact Ht|rewrite Nat.pow_succ_r'; nia| |exact H]. rewrite Es. apply rows_pow2; [exact Hj|lia].
Qed.
Print Assumptions C214_power_of_two.

(** With C65: what all of gradient boosting's encrypted histograms return at once, for every number of
    nodes and features.  Entry b of node ni and feature fi is, modulo t, the sum over the blocks of the
    first entries of region b, as many as the node has members of bucket b there; nothing of any other
    node or feature enters.  Missing: C65's, that these are the members' own entries. *)
Theorem C214_what_is_returned_partial :
  forall (e j : nat) (t : Z) (key : nat) (g : list Z) (nodes : list (list bool)) (features : list (list nat)),
  j <= e -> (1 < t)%Z -> fits t g ->
  let n_buckets := 2 ^ S j in let slots := 2 * 2 ^ e in let stride := slots / n_buckets in
  let blocks := (length g + slots - 1) / slots in
  let samples := Nat.min stride (Nat.max ((length g + blocks - 1) / blocks / n_buckets * 2) 64) in
  (forall node : list bool, In node nodes -> length node = length g /\ exists i : nat, nth_error node i = Some true) ->
  (forall bins : list nat, In bins features -> length bins = length g /\ forall b : nat, In b bins -> b < n_buckets) ->
  (forall (node : list bool) (bins : list nat) (c b : nat), In node nodes -> In bins features -> c < blocks -> b < n_buckets ->
     members node bins b (c * slots) slots <= samples) ->
  exists hs : list (list (list Z)), histograms (2 ^ e) t g nodes features n_buckets key = Some hs /\ length hs = length nodes /\
    forall (ni fi b : nat) (node : list bool) (bins : list nat), nth_error nodes ni = Some node -> nth_error features fi = Some bins -> b < n_buckets ->
      is_centred t (block_starts_sum g node bins slots blocks stride b) (nth b (nth fi (nth ni hs []) []) 0%Z).
Proof.
  intros e j t key g nodes features Hj Ht FT nb slots stride blocks samples Hn Hf Hm.
  assert (K : forall node bins, In node nodes -> In bins features -> exists h, histogram (2 ^ e) t g node bins nb key = Some h /\
     forall b, b < nb -> is_centred t (block_starts_sum g node bins slots blocks stride b) (nth b h 0%Z)).
  { intros node bins I1 I2. destruct (Hn node I1) as [L1 X]. destruct (Hf bins I2) as [L2 B].
    destruct (histogram_ok (2 ^ e) e j t eq_refl Hj Ht g node bins key FT L1 L2 B X (fun c b => Hm node bins c b I1 I2)) as (h & E & _ & N). exists h. split; [exact E|exact N]. }
  set (hh := fun node bins => match histogram (2 ^ e) t g node bins nb key with Some h => h | None => [] end).
  exists (map (fun node => map (hh node) features) nodes). split; [|split; [apply map_length|]].
  - apply C214_power_of_two; [exact Hj|exact Ht|]. intros node bins I1 I2. destruct (K node bins I1 I2) as (h & E & _). unfold hh. fold nb. rewrite E. reflexivity.
  - intros ni fi b node bins En Ef Hb. destruct (K node bins (nth_error_In _ _ En) (nth_error_In _ _ Ef)) as (h & E & N).
    rewrite (nth_map_in _ nodes ni _ node) by (apply nth_error_Some; congruence). rewrite (nth_error_nth _ _ node En).
    rewrite (nth_map_in _ features fi _ bins) by (apply nth_error_Some; congruence). rewrite (nth_error_nth _ _ bins Ef).
    unfold hh. rewrite E. apply N, Hb.
Qed.
Print Assumptions C214_what_is_returned_partial.

(** What the active party decrypts carries nothing but the sums: two passive feature tables whose
    features have, one by one, the same histograms in every node give it the same vectors, slot for
    slot, whatever the bins of the individual samples and wherever the regions lie. *)
Theorem C214_only_sums_leave :
  forall (R : nat) (t : Z) (key n_buckets : nat) (g : list Z) (nodes : list (list bool)) (features features' : list (list nat)),
  0 < R -> (1 < t)%Z -> 2 <= n_buckets <= 2 * R ->
  Forall2 (fun bins bins' : list nat => forall node : list bool, In node nodes ->
     exists h : list Z, histogram R t g node bins n_buckets key = Some h /\ histogram R t g node bins' n_buckets key = Some h) features features' ->
  decrypted R t g nodes features n_buckets key = decrypted R t g nodes features' n_buckets key.
Proof. intros R t key nb g nodes f f' HR Ht Hnb F. eapply total_none_slot; eauto. Qed.
Print Assumptions C214_only_sums_leave.

(** When a bucket's region reaches over the middle, its later features wrap into the first slots of
    the other end of their row: here feature 2's bucket 2 (sum 18) is added to feature 0's bucket 0
    (10, read back as 28) and reads 0 itself, though each feature alone has the right histogram. *)
Theorem C214_middle_refuted :
  exists (R : nat) (t : Z) (key n_buckets : nat) (g h : list Z) (node : list bool) (bins : list nat),
    0 < R /\ (1 < t)%Z /\ 2 <= n_buckets <= 2 * R /\
    histogram R t g node bins n_buckets key = Some h /\ nth 0 h 0%Z = 10%Z /\ nth 2 h 0%Z = 18%Z /\
    exists h0 h1 h2 : list Z, histograms R t g [node] [bins; bins; bins] n_buckets key = Some [[h0; h1; h2]] /\
      h1 = h /\ nth 0 h0 0%Z = 28%Z /\ nth 2 h2 0%Z = 0%Z.
Proof.
  exists 8, 997%Z, 0, 5, [1; 2; 3; 4; 5; 6; 7; 8; 9; 10; 11; 12; 13; 14; 15; 16]%Z, [10; 22; 18; 46; 58]%Z,
    (repeat true 16), [0; 0; 0; 1; 1; 1; 2; 2; 2; 3; 3; 3; 4; 4; 4; 4].
  split; [lia|]. split; [lia|]. split; [lia|]. split; [vm_compute; reflexivity|]. split; [reflexivity|]. split; [reflexivity|].
  exists [28; 22; 18; 46; 58]%Z, [10; 22; 18; 46; 58]%Z, [10; 22; 0; 46; 58]%Z.
  split; [vm_compute; reflexivity|]. repeat split.
Qed.
Print Assumptions C214_middle_refuted.

(** the default ring (8192 slots): nine candidate splits per feature give ten buckets of 819 slots,
    and already the second feature's bucket 5 is over the middle; two, eight or sixteen buckets never are *)
Example C214_default_ring_ex : ~ rows_respected 4096 10 819 2 /\ (4096 <=? 5 * 819 + 1) = true /\ (5 * 819 <? 4096) = true /\
  rows_respected (2 ^ 12) (2 ^ 4) (2 ^ 9) 512.
Proof.
  split; [|split; [vm_compute; reflexivity|split; [vm_compute; reflexivity|]]].
  - intros H. specialize (H 5 1 ltac:(lia) ltac:(lia)). apply (f_equal Z.of_nat) in H. rewrite !Nat2Z.inj_div in H.
    replace (Z.of_nat (5 * 819 + 1)) with 4096%Z in H by (rewrite Nat2Z.inj_add, Nat2Z.inj_mul; reflexivity).
    replace (Z.of_nat (5 * 819)) with 4095%Z in H by (rewrite Nat2Z.inj_mul; reflexivity). vm_compute in H. discriminate H.
  - apply (rows_pow2 12 3 512); [lia|vm_compute; lia].
Qed.
(** two nodes, five features in two batches (stride 4), different bins for the same samples *)
Example C214_ex :
  let g := [1; 2; 3; 4; 5; 6; 7; 8; 9; 10; 11; 12; 13; 14; 15; 16]%Z in
  let all := repeat true 16 in let some := [true; false; false; true; true; true; false; false; true; true; true; false; true; true; true; true] in
  let a := [0; 0; 0; 0; 1; 1; 1; 1; 2; 2; 2; 2; 3; 3; 3; 3] in let b := [3; 3; 3; 3; 1; 1; 1; 1; 2; 2; 2; 2; 0; 0; 0; 0] in
  let c := [0; 0; 0; 0; 0; 1; 1; 1; 1; 1; 2; 2; 2; 2; 3; 3] in
  histogram 8 997 g some a 4 0 = Some [3; 11; 30; 58]%Z /\ histogram 8 997 g some b 4 0 = Some [10; 11; 30; 27]%Z /\
  histograms 8 997 g [all; some] [a; b; c; a; b] 4 0 =
    Some [[[10; 26; 42; 58]; [10; 26; 42; 58]; [10; 31; 51; 27]; [10; 26; 42; 58]; [10; 26; 42; 58]];
          [[3; 11; 30; 58]; [10; 11; 30; 27]; [6; 18; 30; 27]; [3; 11; 30; 58]; [10; 11; 30; 27]]]%Z /\
  a <> b /\ histogram 8 997 g all a 4 0 = histogram 8 997 g all b 4 0 /\
  decrypted 8 997 g [all] [a; c] 4 0 = decrypted 8 997 g [all] [b; c] 4 0.
Proof. cbv zeta. repeat split; try (vm_compute; reflexivity). discriminate. Qed.
(** hypotheses of C214_what_is_returned_partial for these nodes and the features a and b *)
Example C214_returned_ex :
  let all := repeat true 16 in let some := [true; false; false; true; true; true; false; false; true; true; true; false; true; true; true; true] in
  let a := [0; 0; 0; 0; 1; 1; 1; 1; 2; 2; 2; 2; 3; 3; 3; 3] in let b := [3; 3; 3; 3; 1; 1; 1; 1; 2; 2; 2; 2; 0; 0; 0; 0] in
  (forall node bins c k, In node [all; some] -> In bins [a; b] -> c < 1 -> k < 2 ^ 2 -> members node bins k (c * 16) 16 <= Nat.min 4 (Nat.max (16 / 4 * 2) 64)) /\
  block_starts_sum [1; 2; 3; 4; 5; 6; 7; 8; 9; 10; 11; 12; 13; 14; 15; 16]%Z some b 16 1 4 0 = 10%Z.
Proof.
  cbv zeta. split; [|vm_compute; reflexivity]. intros node bins c k [<-|[<-|[]]] [<-|[<-|[]]] Hc Hk; assert (c = 0) as -> by lia; change (2 ^ 2) with 4 in Hk;
    destruct k as [|[|[|[|k]]]]; try lia; vm_compute; lia.
Qed.
