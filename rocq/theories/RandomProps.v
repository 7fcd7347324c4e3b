(** C178, C179: random bits, tensors and scalars. *)
From Coq Require Import NArith ZArith List Arith Bool Lia.
From Verif Require Import RandomModel RandomSpec RandomProofs.
Import ListNotations.
Open Scope N_scope.

(** C178.  random_bits(n) is n zeros and ones, and every string of n bits comes from the same number of
    outcomes of os.urandom. *)
Theorem C178_bits_shape : forall n s, length s = random_bits_len n ->
  length (random_bits n (once (random_bits_len n) s)) = n /\ Forall (fun b => b = 0 \/ b = 1) (random_bits n (once (random_bits_len n) s)).
Proof. intros. apply bits_shape. assumption. Qed.
Print Assumptions C178_bits_shape.
Theorem C178_bits_uniform : forall n v v', length v = n -> length v' = n ->
  Forall (fun b => b = 0 \/ b = 1) v -> Forall (fun b => b = 0 \/ b = 1) v' ->
  ways list_N_dec (random_bits_len n) (random_bits n) v = ways list_N_dec (random_bits_len n) (random_bits n) v' /\
  0 < ways list_N_dec (random_bits_len n) (random_bits n) v.
Proof.
  intros n v v' Hl Hl' Hv Hv'. pose proof (bits_ways v Hv) as E. pose proof (bits_ways v' Hv') as E'. rewrite Hl in E. rewrite Hl' in E'. rewrite E, E'.
  split; [reflexivity|]. apply N.neq_0_lt_0, N.pow_nonzero. lia.
Qed.
Print Assumptions C178_bits_uniform.

(** C178.  random_tensor of an unsigned (signed) type of w bytes has the elements asked for, and every tensor of
    that type comes from exactly one outcome. *)
Theorem C178_tensor_uniform : forall w n v, length v = n -> Forall (fun x => x < 2 ^ (8 * N.of_nat w)) v ->
  ways list_N_dec (n * w) (random_tensor w n) v = 1.
Proof. intros w n v <- Hv. apply tensor_ways. rewrite pow256. exact Hv. Qed.
Print Assumptions C178_tensor_uniform.
Theorem C178_tensor_shape : forall w n s, length s = (n * w)%nat -> Forall (fun b => b < 256) s ->
  length (random_tensor w n (once (n * w) s)) = n /\ Forall (fun x => x < 2 ^ (8 * N.of_nat w)) (random_tensor w n (once (n * w) s)).
Proof. intros w n s Hl Hs. rewrite <- pow256. apply tensor_range; assumption. Qed.
Print Assumptions C178_tensor_shape.
Theorem C178_signed_tensor_uniform : forall (w : nat) n v, (0 < w)%nat -> length v = n ->
  Forall (fun z => (- 2 ^ (8 * Z.of_nat w - 1) <= z < 2 ^ (8 * Z.of_nat w - 1))%Z) v ->
  ways list_Z_dec (n * w) (random_tensor_signed w n) v = 1.
Proof. intros w n v Hw <- Hv. apply signed_ways; assumption. Qed.
Print Assumptions C178_signed_tensor_uniform.

Example C178_example :
  ways list_N_dec 1 (random_bits 3) [1; 0; 1] = 32 /\
  random_tensor 2 2 (once 4 [1; 2; 255; 255]) = [513; 65535] /\ random_tensor_signed 2 2 (once 4 [1; 2; 255; 255]) = [513; -1]%Z /\
  random_bits 9 (once 2 [5; 255]) = [1; 0; 1; 0; 0; 0; 0; 0; 1].
Proof. vm_compute. repeat split. Qed.

(** C179 (partial).  ec_random_scalar is a scalar below the group order, each comes from one or two of the
    2^256 outcomes: the probabilities of two scalars differ by at most 2^-256. *)
Theorem C179_scalar_range_partial : forall s, Forall (fun b => b < 256) s -> random_scalar (once 32 s) < order.
Proof. intros s _. apply N.mod_lt. discriminate. Qed.
Print Assumptions C179_scalar_range_partial.
Theorem C179_scalar_almost_uniform_partial : forall k, k < order ->
  ways N.eq_dec 32 random_scalar k = 1 \/ ways N.eq_dec 32 random_scalar k = 2.
Proof. intros k Hk. rewrite scalar_ways by exact Hk. destruct (k <? 2 ^ 256 - order); [right|left]; reflexivity. Qed.
Print Assumptions C179_scalar_almost_uniform_partial.
(** C179 (refuted): exactly the scalars below 2^256 - order are twice as likely as the others, *)
Theorem C179_scalar_not_uniform_refuted : forall k, k < order -> (ways N.eq_dec 32 random_scalar k = 2 <-> k < 2 ^ 256 - order).
Proof.
  intros k Hk. rewrite scalar_ways by exact Hk. destruct (N.ltb_spec k (2 ^ 256 - order)) as [H|H]; [tauto|].
  split; [discriminate|]. intros H'. exfalso. apply N.le_ngt in H. exact (H H').
Qed.
Print Assumptions C179_scalar_not_uniform_refuted.
(** and the scalar 0, with which a key pair is not valid, is among them. *)
Theorem C179_scalar_zero_refuted : ways N.eq_dec 32 random_scalar 0 = 2.
Proof. rewrite scalar_ways by reflexivity. reflexivity. Qed.
Print Assumptions C179_scalar_zero_refuted.
Example C179_example : random_scalar (once 32 (repeat 0 32)) = 0 /\ ways N.eq_dec 32 random_scalar (order - 1) = 1.
Proof. split; [vm_compute; reflexivity|]. rewrite scalar_ways by reflexivity. reflexivity. Qed.
