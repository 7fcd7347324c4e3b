(** C169, C170: field.aes_expand with the native library. *)
From Coq Require Import NArith List Arith Lia.
From Verif Require Import AESRound SeedExpandModel SeedExpandSpec SeedExpandProofs.
Import ListNotations.
Local Open Scope N_scope.

(** C169: the row of a seed depends on that seed only; it consists of [len] 128-bit blocks, all different;
    a longer expansion begins with the shorter one; different seeds differ in every block. *)
Theorem C169_rows_are_streams :
  forall seeds len, Forall (fun s => s < 2 ^ 128) seeds -> N.of_nat len <= 2 ^ 64 ->
  length (aes_expand seeds len) = length seeds /\
  forall i, (i < length seeds)%nat ->
    let row := nth i (aes_expand seeds len) [] in
    length row = len /\ Forall (fun b => b < 2 ^ 128) row /\ NoDup row /\
    aes_expand [nth i seeds 0] len = [row] /\
    (forall more, firstn len (nth i (aes_expand seeds (len + more)) []) = row) /\
    (forall k j, (k < length seeds)%nat -> (j < len)%nat -> nth i seeds 0 <> nth k seeds 0 -> nth j row 0 <> nth j (nth k (aes_expand seeds len) []) 0).
Proof.
  intros seeds len Hs Hlen. unfold aes_expand. rewrite map_length. split; [reflexivity|]. intros i Hi.
  assert (Hn : forall l k, (k < length seeds)%nat -> nth k (map (fun s => expand_seed s l) seeds) [] = expand_seed (nth k seeds 0) l).
  { intros l k Hk. rewrite nth_indep with (d' := (fun s => expand_seed s l) 0) by (rewrite map_length; exact Hk). apply (map_nth (fun s => expand_seed s l)). }
  rewrite Hn by exact Hi. cbv zeta.
  assert (Hb : forall k, (k < length seeds)%nat -> nth k seeds 0 < 2 ^ 128) by (intros k Hk; rewrite Forall_forall in Hs; apply Hs, nth_In, Hk).
  split; [unfold expand_seed; rewrite map_length, seq_length; reflexivity|].
  split; [rewrite Forall_forall; apply expand_bound|].
  split; [apply blocks_distinct; [apply Hb, Hi|exact Hlen]|].
  split; [reflexivity|].
  split; [intros more; rewrite Hn by exact Hi; apply expand_prefix|].
  intros k j Hk Hj Hne E. rewrite Hn in E by exact Hk. apply Hne.
  rewrite <- (recover (nth i seeds 0) len j), <- (recover (nth k seeds 0) len j), E; auto.
Qed.
Print Assumptions C169_rows_are_streams.
Example C169_example : aes_expand [1; 7] 2 <> aes_expand [1; 8] 2 /\ nth 0 (aes_expand [1; 7] 2) [] = nth 0 (aes_expand [1; 8] 2) [].
Proof. vm_compute. split; [discriminate|reflexivity]. Qed.

(** C170 (refuted): any block of the expansion reveals the seed: the cipher's key is a constant of the
    library and the seed is its plaintext. *)
Theorem C170_block_reveals_seed_refuted :
  forall seed len j, seed < 2 ^ 128 -> (j < len)%nat -> N.of_nat len <= 2 ^ 64 ->
  recover_seed j (nth j (expand_seed seed len) 0) = seed.
Proof. exact recover. Qed.
Print Assumptions C170_block_reveals_seed_refuted.

(** C170 (refuted): so when a secret is masked with the expansion (as the choice bits of IKNP are), one
    known block of the secret reveals all others. *)
Theorem C170_known_block_reveals_all_refuted :
  exists attack : nat -> N -> list N -> list N,
  forall seed secret j, seed < 2 ^ 128 -> (j < length secret)%nat -> N.of_nat (length secret) <= 2 ^ 64 ->
  let masked := map (fun p => N.lxor (fst p) (snd p)) (combine secret (expand_seed seed (length secret))) in
  attack j (nth j secret 0) masked = secret.
Proof.
  exists (fun j known masked =>
    map (fun p => N.lxor (fst p) (snd p)) (combine masked (expand_seed (recover_seed j (N.lxor (nth j masked 0) known)) (length masked)))).
  intros seed secret j Hs Hj Hlen masked.
  assert (Hl : length (expand_seed seed (length secret)) = length secret) by (unfold expand_seed; rewrite map_length, seq_length; reflexivity).
  assert (Hm : length masked = length secret) by (unfold masked; rewrite map_length, combine_length, Hl; lia).
  assert (Hj' : N.lxor (nth j masked 0) (nth j secret 0) = nth j (expand_seed seed (length secret)) 0).
  { unfold masked. rewrite nth_indep with (d' := (fun p => N.lxor (fst p) (snd p)) (0, 0)) by (rewrite map_length, combine_length, Hl; lia).
    rewrite (map_nth (fun p => N.lxor (fst p) (snd p))). rewrite combine_nth by (symmetry; exact Hl). cbn [fst snd].
    rewrite (N.lxor_comm (nth j secret 0)). apply xor_twice. }
  rewrite Hj', Hm, recover by assumption. unfold masked. clear Hj' Hm masked.
  revert Hl. generalize (expand_seed seed (length secret)). clear. induction secret as [|x secret IH]; intros l Hl; [reflexivity|].
  destruct l as [|y l]; [discriminate|]. cbn [combine map fst snd]. rewrite xor_twice. f_equal. apply IH. cbn in Hl. lia.
Qed.
Print Assumptions C170_known_block_reveals_all_refuted.

(** C170 (refuted): it is not AES-CTR keyed by the seeds, as documented. *)
Theorem C170_is_aes_ctr_refuted : exists seed, seed < 2 ^ 128 /\ expand_seed seed 1 <> aes_ctr seed 1.
Proof. exists 1. split; [reflexivity|]. vm_compute. discriminate. Qed.
Print Assumptions C170_is_aes_ctr_refuted.

(** C170 (refuted): seeds that differ by a counter share their blocks. *)
Theorem C170_related_seeds_share_blocks_refuted :
  forall seed len j d, (j < len)%nat -> (d < len)%nat -> N.lxor (N.of_nat j) (N.of_nat d) < N.of_nat len ->
  nth j (expand_seed (N.lxor seed (N.of_nat d)) len) 0 = nth (N.to_nat (N.lxor (N.of_nat j) (N.of_nat d))) (expand_seed seed len) 0.
Proof.
  intros seed len j d Hj Hd Hx. rewrite !nth_expand by lia. f_equal. rewrite N2Nat.id, N.lxor_assoc. f_equal. apply N.lxor_comm.
Qed.
Print Assumptions C170_related_seeds_share_blocks_refuted.
Example C170_example :
  recover_seed 3 (nth 3 (expand_seed 123456789 5) 0) = 123456789 /\ nth 0 (expand_seed 1 2) 0 = nth 1 (expand_seed 0 2) 0.
Proof. vm_compute. split; reflexivity. Qed.
