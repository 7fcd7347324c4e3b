(** Proofs about the batch hash table and the bit helpers. *)
From Coq Require Import List NArith Bool Arith Lia.
From Verif Require Import MPCBase OTModel CuckooModel.
Import ListNotations.
Local Open Scope nat_scope.

Section Insert.
Variables (N_ : nat) (pos win : nat -> nat -> nat).
Notation valid := (valid pos). Notation writers := (writers N_ pos). Notation scattered := (scattered N_ pos win).
Notation round := (round N_ pos win). Notation success_round := (success_round N_ pos win).

Lemma in_writers k st p i : In i (writers k st p) <-> i < N_ /\ valid k st i = Some p.
Proof.
  unfold CuckooModel.writers. rewrite filter_In, in_seq. split.
  - intros [H E]. split; [lia|]. destruct (valid k st i) as [q|]; [|discriminate]. apply Nat.eqb_eq in E. congruence.
  - intros [H E]. split; [lia|]. rewrite E. apply Nat.eqb_refl.
Qed.
Lemma valid_Some k st i p : valid k st i = Some p <-> active st i = true /\ p = pos i k /\ slots st p = None.
Proof.
  unfold CuckooModel.valid. destruct (active st i); [|split; [discriminate|intros [? _]; discriminate]].
  destruct (slots st (pos i k)) eqn:E.
  - split; [discriminate|]. intros (_ & -> & F). congruence.
  - split; [intros H; injection H as <-; auto|intros (_ & -> & _); reflexivity].
Qed.
Lemma scattered_old k st p i : slots st p = Some i -> scattered k st p = Some i.
Proof.
  intros H. unfold CuckooModel.scattered. destruct (writers k st p) as [|w ws] eqn:E; [exact H|].
  assert (In w (writers k st p)) as Hw by (rewrite E; left; reflexivity).
  apply in_writers in Hw. destruct Hw as [_ Hv]. apply valid_Some in Hv. destruct Hv as (_ & _ & F). congruence.
Qed.
Lemma scattered_new k st p i : slots st p = None -> scattered k st p = Some i -> i < N_ /\ valid k st i = Some p.
Proof.
  intros H0 H. unfold CuckooModel.scattered in H. destruct (writers k st p) as [|w ws] eqn:E; [congruence|].
  rewrite <- in_writers, E.
  assert (forall x : nat, Some x = Some i -> In x (w :: ws) -> In i (w :: ws)) as K by (intros x Hx; congruence).
  apply (K _ H). apply nth_In. cbn [length]. apply Nat.mod_upper_bound. discriminate.
Qed.
Lemma scattered_taken k st p i : i < N_ -> valid k st i = Some p -> scattered k st p <> None.
Proof.
  intros Hi H. unfold CuckooModel.scattered. destruct (writers k st p) as [|w ws] eqn:E; [|discriminate].
  assert (In i (writers k st p)) as F by (apply in_writers; auto). rewrite E in F. destruct F.
Qed.

Definition inv (k : nat) (st : cstate) : Prop :=
  (forall p i, slots st p = Some i -> i < N_ /\ item_to_pos st i = Some p /\ active st i = false /\ exists c, c < 3 /\ p = pos i c) /\
  (forall i p, item_to_pos st i = Some p -> slots st p = Some i) /\
  (forall i, active st i = true -> i < N_ /\ item_to_pos st i = None) /\
  (forall i, i < N_ -> active st i = false -> item_to_pos st i <> None) /\
  (forall i c, active st i = true -> c < k -> slots st (pos i c) <> None).

Lemma init_inv : inv 0 (init N_).
Proof.
  unfold init, inv. cbn. repeat split; try discriminate; try (intros; lia).
  - apply Nat.ltb_lt. exact H.
  - intros i Hi E. apply Nat.ltb_ge in E. lia.
Qed.

Lemma round_inv k st : k < 3 -> inv k st -> inv (S k) (round st k).
Proof.
  intros Hk (I1 & I2 & I3 & I4 & I5).
  assert (forall i p, success_round k st i = true -> valid k st i = Some p -> scattered k st p = Some i) as SR.
  { intros i p H Hv. unfold CuckooModel.success_round in H. rewrite Hv in H.
    destruct (scattered k st p) as [j|]; [|discriminate]. apply Nat.eqb_eq in H. congruence. }
  assert (forall i p, valid k st i = Some p -> scattered k st p = Some i -> success_round k st i = true) as RS.
  { intros i p Hv H. unfold CuckooModel.success_round. rewrite Hv, H. apply Nat.eqb_refl. }
  assert (forall i, success_round k st i = true -> exists p, valid k st i = Some p) as SV.
  { intros i H. unfold CuckooModel.success_round in H. destruct (valid k st i); [eauto|discriminate]. }
  unfold inv. cbn [CuckooModel.round slots item_to_pos active].
  split; [|split; [|split; [|split]]].
  - intros p i H. destruct (slots st p) as [j|] eqn:E.
    + rewrite (scattered_old k st p j E) in H. injection H as ->.
      destruct (I1 p i E) as (A & B & C & D). split; [exact A|].
      assert (success_round k st i = false) as F.
      { destruct (success_round k st i) eqn:F; [|reflexivity]. destruct (SV i F) as (q & Hq). apply valid_Some in Hq.
        destruct Hq as (Ha & _). congruence. }
      rewrite F, C. auto.
    + destruct (scattered_new k st p i E H) as [Hi Hv]. split; [exact Hi|]. rewrite (RS i p Hv H).
      split; [exact Hv|]. split; [apply andb_false_r|]. apply valid_Some in Hv. exists k. split; [exact Hk|]. apply Hv.
  - intros i p H. destruct (success_round k st i) eqn:F.
    + exact (SR i p F H).
    + apply scattered_old, I2, H.
  - intros i H. apply andb_true_iff in H. destruct H as [Ha Hs]. apply negb_true_iff in Hs. rewrite Hs. apply I3, Ha.
  - intros i Hi H. destruct (success_round k st i) eqn:F.
    + destruct (SV i F) as (q & Hq). rewrite Hq. discriminate.
    + rewrite andb_true_r in H. apply I4; assumption.
  - intros i c H Hc. apply andb_true_iff in H. destruct H as [Ha Hs]. apply negb_true_iff in Hs.
    destruct (Nat.eq_dec c k) as [->|Ne].
    + destruct (slots st (pos i k)) as [j|] eqn:E; [rewrite (scattered_old k st _ j E); discriminate|].
      apply (scattered_taken k st _ i); [apply I3, Ha|]. apply valid_Some. auto.
    + assert (slots st (pos i c) <> None) as F by (apply I5; [exact Ha|lia]).
      destruct (slots st (pos i c)) as [j|] eqn:E; [|congruence]. rewrite (scattered_old k st _ j E). discriminate.
Qed.

Lemma insert_inv : inv 3 (insert N_ pos win).
Proof.
  unfold insert. cbn [seq fold_left].
  apply (round_inv 2); [lia|]. apply (round_inv 1); [lia|]. apply (round_inv 0); [lia|]. apply init_inv.
Qed.
End Insert.

Lemma position_lt seed T x k : 0 < T -> position seed T x k < T.
Proof.
  intros H. unfold position. assert (N.of_nat T <> 0%N) as H0 by lia.
  match goal with |- N.to_nat (?a mod _) < T => pose proof (N.mod_lt a (N.of_nat T) H0) end. lia.
Qed.

(* ---------------------------------------------------------------- bits *)

(** bit reversal of a byte *)
Definition rev8 (w : N) : N :=
  fold_left N.add (map (fun i => if N.testbit w (N.of_nat i) then 2 ^ N.of_nat (7 - i) else 0)%N (seq 0 8)) 0%N.

Lemma byte_cases (P : N -> bool) : forallb P (map N.of_nat (seq 0 256)) = true -> forall w, (w < 256)%N -> P w = true.
Proof.
  intros H w Hw. apply (proj1 (forallb_forall P _) H). apply in_map_iff. exists (N.to_nat w). split; [lia|].
  apply in_seq. lia.
Qed.
Lemma unpack1_length w : length (rev (unpackbits [w])) = 8.
Proof. rewrite rev_length. reflexivity. Qed.

Lemma pack_chunks l : forall f : N -> list N, (forall w, length (f w) = 8) ->
  packbits (flat_map f l) = map (fun w => pack8 (f w)) l.
Proof.
  intros f Hf. unfold packbits. assert (length (flat_map f l) = 8 * length l) as L.
  { induction l as [|a l IH]; [reflexivity|]. cbn [flat_map length]. rewrite app_length, IH, Hf. lia. }
  rewrite L. replace ((8 * length l + 7) / 8) with (length l).
  2: { apply (Nat.div_unique _ 8 _ 7); lia. }
  clear L. induction l as [|a l IH]; [reflexivity|]. unfold tab in *. cbn [length seq map flat_map].
  f_equal.
  - rewrite Nat.mul_0_r. change (skipn 0 (f a ++ flat_map f l)) with (f a ++ flat_map f l).
    rewrite firstn_app, Hf, Nat.sub_diag, firstn_O, app_nil_r, firstn_all2; [reflexivity|rewrite Hf; lia].
  - rewrite <- IH, <- seq_shift, map_map. apply map_ext. intros i. f_equal. f_equal.
    replace (8 * S i) with (length (f a) + 8 * i) by (rewrite Hf; lia).
    rewrite skipn_app, (skipn_all2 (f a)) by lia. rewrite app_nil_l. f_equal. lia.
Qed.

Lemma round_trip data : Forall (fun w => w < 256)%N data ->
  bits_to_bytes (bytes_to_bits data) = map rev8 data.
Proof.
  intros H. unfold bits_to_bytes, bytes_to_bits. rewrite pack_chunks by apply unpack1_length.
  apply map_ext_in. intros w Hw. apply N.eqb_eq.
  apply (byte_cases (fun w => N.eqb (pack8 (rev (unpackbits [w]))) (rev8 w))); [vm_compute; reflexivity|].
  exact (proj1 (Forall_forall _ _) H w Hw).
Qed.
