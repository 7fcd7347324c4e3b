(** A small concrete instance of the external primitives, used to show that the hypotheses
    of the protocol theorems can be met: the cyclic group of order 11. *)
From Coq Require Import List NArith ZArith Bool Lia Eqdep_dec.
From Verif Require Import MPCBase OTModel OTSpec.
Import ListNotations.

Definition in11 (z : Z) : bool := Z.leb 0 z && Z.ltb z 11.
Definition Z11 : Type := { z : Z | in11 z = true }.
Lemma in11_mod z : in11 (z mod 11) = true.
Proof.
  unfold in11. pose proof (Z.mod_pos_bound z 11 eq_refl). apply andb_true_iff.
  split; [apply Z.leb_le|apply Z.ltb_lt]; lia.
Qed.
Definition mk (z : Z) : Z11 := exist _ (z mod 11)%Z (in11_mod z).
Lemma Z11_eq (a b : Z11) : proj1_sig a = proj1_sig b -> a = b.
Proof.
  destruct a as [a Ha], b as [b Hb]. cbn. intros ->. f_equal. apply UIP_dec, bool_dec.
Qed.
Lemma Z11_range (a : Z11) : (0 <= proj1_sig a < 11)%Z.
Proof. destruct a as [a Ha]. cbn. unfold in11 in Ha. apply andb_true_iff in Ha. destruct Ha as [H1 H2].
  apply Z.leb_le in H1. apply Z.ltb_lt in H2. lia. Qed.

Definition grp11 : ecgroup :=
  ECGroup Z11 (mk 0) (fun a b => mk (proj1_sig a + proj1_sig b)) (fun a => mk (- proj1_sig a)) (mk 1)
          (fun a => Z.eqb (proj1_sig a) 0) 11.

Lemma mk_proj a : mk (proj1_sig a) = a.
Proof. apply Z11_eq. cbn. apply Z.mod_small, Z11_range. Qed.
Lemma mk_mod z : mk z = mk (z mod 11).
Proof. apply Z11_eq. cbn. rewrite Z.mod_mod by discriminate. reflexivity. Qed.

Lemma nmul11 n a : nmul grp11 n a = mk (Z.of_nat n * proj1_sig a).
Proof.
  induction n as [|n IH]; [reflexivity|].
  change (nmul grp11 (S n) a) with (padd grp11 a (nmul grp11 n a)). rewrite IH. apply Z11_eq. cbn [grp11 padd mk proj1_sig].
  rewrite Zplus_mod_idemp_r. f_equal. lia.
Qed.

Lemma grp11_ok : group_ok grp11.
Proof.
  split; cbn [grp11 padd pzero popp pis0 ord pt].
  - intros p q r. apply Z11_eq. cbn. rewrite Zplus_mod_idemp_r, Zplus_mod_idemp_l. f_equal. lia.
  - intros p q. f_equal. lia.
  - intros p. apply Z11_eq. cbn. apply Z.mod_small, Z11_range.
  - intros p. apply Z11_eq. cbn. rewrite Zplus_mod_idemp_r. replace (proj1_sig p + - proj1_sig p)%Z with 0%Z by lia. reflexivity.
  - intros p. rewrite Z.eqb_eq. split; intros H; [apply Z11_eq; exact H|subst p; reflexivity].
  - lia.
  - intros p. rewrite nmul11. apply Z11_eq. cbn [mk proj1_sig]. rewrite Z2Nat.id by lia.
    rewrite Z.mul_comm. apply Z.mod_mul. discriminate.
Qed.

Lemma grp11_exact : gen_exact grp11.
Proof.
  intros a H. unfold ec_mul in H. rewrite nmul11 in H. apply (f_equal (@proj1_sig _ _)) in H.
  cbn [grp11 pgen pzero ord mk proj1_sig] in H. rewrite Z2Nat.id in H by (apply Z.mod_pos_bound; reflexivity).
  change (1 mod 11)%Z with 1%Z in H. rewrite Z.mul_1_r, Z.mod_mod in H by discriminate. exact H.
Qed.

Definition toy_sha (m : list N) : list N :=
  tab 32 (fun i => ((fold_left (fun acc b => 31 * acc + b + 7) m 5 + N.of_nat i * 13) mod 256)%N).
Definition toy_prg (s : N * N) (n : nat) : list (N * N) :=
  tab n (fun i => let x := (fst s * 6364136223846793005 + snd s * 1442695040888963407 + N.of_nat i * 2862933555777941757 + 3037000493)%N in
                  (x mod 2 ^ 64, (x / 7) mod 2 ^ 64)%N).
Definition env11 : cenv :=
  CEnv grp11 (fun p => [4%N; Z.to_N (proj1_sig p)])
       (fun b => match b with [t; v] => if N.eqb t 4 then Some (mk (Z.of_N v)) else None | _ => None end)
       toy_sha toy_prg.

Lemma env11_ok : env_ok env11.
Proof.
  split.
  - apply grp11_ok.
  - intros p _. cbn. rewrite Z2N.id by apply Z11_range. rewrite mk_proj. reflexivity.
  - reflexivity.
  - intros m. split; [apply tab_length|]. apply Forall_forall. intros x Hx.
    unfold env11, sha, toy_sha, tab in Hx. apply in_map_iff in Hx. destruct Hx as (i & <- & _). apply N.mod_lt. discriminate.
  - intros s n. split; [apply tab_length|]. apply Forall_forall. intros x Hx. unfold env11, prg, toy_prg, tab in Hx.
    apply in_map_iff in Hx. destruct Hx as (i & <- & _). cbn [fst snd]. split; apply N.mod_lt; discriminate.
Qed.

(** Draws for iknp_core: alternating choice bits, fixed seeds, generic scalars. *)
Definition rand11 : iknp_rand :=
  IKNPRand (tab 128 (fun i => N.of_nat (Nat.modulo i 2)))
           (tab 128 (fun i => tab 32 (fun k => N.of_nat (Nat.modulo (i + 3 * k) 256))))
           (tab 128 (fun i => tab 32 (fun k => N.of_nat (Nat.modulo (2 * i + 5 * k + 1) 256))))
           7%Z (fun i => Z.of_nat (1 + Nat.modulo i 5))%Z (fun i => Z.of_nat (1 + Nat.modulo i 9))%Z.

Lemma rand11_ok : iknp_rand_ok rand11.
Proof.
  unfold iknp_rand_ok, rand11. cbn [ik_s ik_k0 ik_k1]. rewrite !tab_length.
  assert (forall n m (f : nat -> nat -> N), Forall (fun r => length r = m) (tab n (fun i => tab m (f i)))) as F.
  { intros n m f. apply Forall_forall. intros r Hr. unfold tab in Hr at 1. apply in_map_iff in Hr.
    destruct Hr as (i & <- & _). apply tab_length. }
  split; [reflexivity|]. split.
  { apply Forall_forall. intros r Hr. unfold tab in Hr. apply in_map_iff in Hr. destruct Hr as (i & <- & _).
    pose proof (Nat.mod_upper_bound i 2 ltac:(lia)). unfold bit. lia. }
  split; [reflexivity|]. split; [apply F|]. split; [reflexivity|]. apply F.
Qed.
Lemma rand11_generic : iknp_rand_generic env11 rand11.
Proof.
  intros i _. cbn [env11 grp grp11 ord rand11 ik_kp ik_r ik_rC].
  pose proof (Nat.mod_upper_bound i 5 ltac:(lia)). pose proof (Nat.mod_upper_bound i 9 ltac:(lia)).
  rewrite !Z.mod_small by lia. lia.
Qed.
