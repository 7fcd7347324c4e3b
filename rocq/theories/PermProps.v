(** C15: apply_permutation delivers data[perm[i]] at position i. *)
From Coq Require Import List NArith ZArith Bool Arith Lia Permutation.
From Verif Require Import MPCBase OTModel OTSpec OTProofs OTExample MPCProps PermModel PermProofs.
Import ListNotations.
Local Open Scope nat_scope.

Lemma perm_is_perm n perm : Permutation perm (seq 0 n) -> is_perm n perm.
Proof.
  intros H. split; [|split].
  - rewrite (Permutation_length H). apply seq_length.
  - apply (Permutation_NoDup (Permutation_sym H)), seq_NoDup.
  - intros p. split; intros K.
    + apply (Permutation_in _ (Permutation_sym H)). apply in_seq. lia.
    + apply (Permutation_in _ H) in K. apply in_seq in K. lia.
Qed.

(** secure_switch: the receiver's outputs are (x0, x1) where the bit is 0 and (x1, x0) where it
    is 1, for every batch and all randomness. *)
Theorem C15_secure_switch :
  forall (X : cenv) (M CT : Type) (enc : list N -> list N -> M -> CT) (dec : list N -> CT -> option M) (d : M),
  env_ok X -> (forall key nonce m, dec key (enc key nonce m) = Some m) ->
  forall R x0 x1 ctrl y0 y1,
  secure_switch X M CT enc dec d R x0 x1 ctrl = Some (y0, y1) ->
  length y0 = length ctrl /\ length y1 = length ctrl /\
  forall i, i < length ctrl ->
    (nth i y0 d, nth i y1 d) = if nth i ctrl false then (nth i x1 d, nth i x0 d) else (nth i x0 d, nth i x1 d).
Proof.
  intros X M CT enc dec d OKX SYM R x0 x1 ctrl y0 y1 H.
  destruct (switch_correct X M CT enc dec d OKX SYM R x0 x1 ctrl y0 y1 H) as ((L0 & L1) & H0 & H1).
  split; [exact L0|]. split; [exact L1|]. intros i Hi. rewrite H0, H1 by exact Hi. destruct (nth i ctrl false); reflexivity.
Qed.
Print Assumptions C15_secure_switch.

(** the permutation: every length (padding included), every permutation, all data, all
    randomness of the transfers *)
Theorem C15_permutation_applied :
  forall (X : cenv) (M CT : Type) (enc : list N -> list N -> M -> CT) (dec : list N -> CT -> option M) (zero : M),
  env_ok X -> (forall key nonce m, dec key (enc key nonce m) = Some m) ->
  forall R data perm out,
  Permutation perm (seq 0 (length data)) ->
  apply_permutation X M CT enc dec zero R data perm = Some out ->
  out = map (fun i => nth i data zero) perm.
Proof.
  intros X M CT enc dec d OKX SYM R data perm out HP H.
  exact (apply_permutation_correct X M CT enc dec d OKX SYM R data perm out (perm_is_perm _ _ HP) H).
Qed.
Print Assumptions C15_permutation_applied.

(** and the run completes unless a draw of the first layer's transfers hits an exceptional residue *)
Theorem C15_permutation_completes :
  forall (X : cenv) (M CT : Type) (enc : list N -> list N -> M -> CT) (dec : list N -> CT -> option M) (zero : M),
  env_ok X -> gen_exact (grp X) -> (forall key nonce m, dec key (enc key nonce m) = Some m) ->
  forall R data perm,
  Permutation perm (seq 0 (length data)) ->
  (forall i, i < 2 * Nat.max (length data) 1 -> generic_draw X (rC0 R) (rnd0 R i) /\ generic_draw X (rC1 R) (rnd1 R i)) ->
  apply_permutation X M CT enc dec zero R data perm = Some (map (fun i => nth i data zero) perm).
Proof.
  intros X M CT enc dec d OKX EX SYM R data perm HP HR.
  destruct (apply_permutation_completes X M CT enc dec d OKX SYM R data perm EX (perm_is_perm _ _ HP) HR) as (out & E).
  rewrite E. f_equal. exact (C15_permutation_applied X M CT enc dec d OKX SYM R data perm out HP E).
Qed.
Print Assumptions C15_permutation_completes.

(** Five elements (padded to eight), a permutation without fixed points. *)
Definition ex_R : switch_rand :=
  SwitchRand 5 (fun i => OTRand 1 3 4 [] []) 5 (fun i => OTRand 1 3 4 [] []).
Example C15_hypotheses_met :
  Permutation [3; 0; 4; 1; 2] (seq 0 5) /\
  (forall i, i < 2 * Nat.max 5 1 -> generic_draw env11 (rC0 ex_R) (rnd0 ex_R i) /\ generic_draw env11 (rC1 ex_R) (rnd1 ex_R i)).
Proof.
  split.
  - apply NoDup_Permutation; [|apply seq_NoDup|].
    + repeat constructor; cbn; intuition discriminate.
    + intros x. cbn. intuition.
  - intros i _. unfold generic_draw. vm_compute. repeat split; discriminate.
Qed.
Example C15_run :
  apply_permutation env11 N (list N * N) ex_enc ex_dec 0%N ex_R [10; 11; 12; 13; 14]%N [3; 0; 4; 1; 2]
  = Some [13; 10; 14; 11; 12]%N.
Proof. vm_compute. reflexivity. Qed.
