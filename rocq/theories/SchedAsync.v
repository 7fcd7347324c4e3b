(** The asynchronous scheduler: termination, invariant, results for every schedule. *)
From Coq Require Import List Arith ZArith Bool Lia Permutation.
From Verif Require Import SchedSpec SchedModel SchedProofs SchedSync.
Import ListNotations.

Lemma trigger_fold {E} (L : list nat) : forall (pend : nat -> Z) (q : list (@item E)),
  exists Q, snd (fold_left trigger L (pend, q)) = q ++ map IOp Q /\ NoDup Q /\
    (forall c, In c Q <-> (0 < pend c <= Z.of_nat (cnt L c))%Z) /\
    (forall c, fst (fold_left trigger L (pend, q)) c = (pend c - Z.of_nat (cnt L c))%Z).
Proof.
  induction L as [|a L IH]; intros pend q.
  - exists []. cbn. rewrite app_nil_r. repeat split; try constructor; try (intros []); try lia.
  - cbn [fold_left trigger]. set (pend1 := fun j => if j =? a then (pend a - 1)%Z else pend j).
    destruct (Z.eqb_spec (pend a - 1) 0) as [E0|E0].
    + destruct (IH pend1 (q ++ [IOp a])) as [Q [H1 [H2 [H3 H4]]]]. exists (a :: Q).
      split; [rewrite H1, <- app_assoc; reflexivity|]. split; [|split].
      * constructor; [|exact H2]. rewrite H3. unfold pend1. rewrite Nat.eqb_refl. lia.
      * intros c. cbn [In]. rewrite H3, cnt_cons. unfold pend1. destruct (Nat.eqb_spec c a) as [->|Hne].
        -- split; [lia|]. intros _. now left.
        -- split; [intros [->|H]; [congruence|lia]|]. intros H. right. lia.
      * intros c. rewrite H4, cnt_cons. unfold pend1. destruct (Nat.eqb_spec c a) as [->|Hne]; lia.
    + destruct (IH pend1 q) as [Q [H1 [H2 [H3 H4]]]]. exists Q.
      split; [exact H1|]. split; [exact H2|]. split.
      * intros c. rewrite H3, cnt_cons. unfold pend1. destruct (Nat.eqb_spec c a) as [->|Hne]; lia.
      * intros c. rewrite H4, cnt_cons. unfold pend1. destruct (Nat.eqb_spec c a) as [->|Hne]; lia.
Qed.

Lemma gc_async_fold {V} ks : forall (env : @venv V) (rc : counter) k,
  (forall z, rc k = Some z -> (Z.of_nat (cnt ks k) <= z)%Z) ->
  let s := fold_left gc_async ks (env, rc) in
  match rc k with
  | None => snd s k = None /\ fst s k = env k
  | Some z => snd s k = Some (z - Z.of_nat (cnt ks k))%Z /\
      ((0 < z - Z.of_nat (cnt ks k))%Z -> fst s k = env k) /\ (cnt ks k = 0 -> fst s k = env k)
  end.
Proof.
  induction ks as [|a ks IH]; intros env rc k Hz.
  - cbn. destruct (rc k) as [z|]; [|auto]. split; [f_equal; lia|auto].
  - cbn [fold_left]. destruct (gc_async (env, rc) a) as [env1 rc1] eqn:E1.
    rewrite cnt_cons in *.
    assert (K : rc1 k = (if k =? a then option_map (fun z => z - 1)%Z (rc k) else rc k) /\
                (k <> a -> env1 k = env k) /\ (rc k = None -> env1 k = env k) /\
                (forall z, rc k = Some z -> (1 < z)%Z -> env1 k = env k)).
    { unfold gc_async in E1. destruct (rc a) as [z|] eqn:Ea; injection E1 as <- <-; unfold vdel, cset.
      - destruct (Nat.eqb_spec k a) as [Heq|Hne].
        + subst k. rewrite Ea. cbn. split; [reflexivity|]. split; [congruence|]. split; [discriminate|].
          intros z' Hz' Hlt. injection Hz' as <-. destruct (Z.eqb_spec (z - 1) 0); [lia|reflexivity].
        + split; [reflexivity|]. destruct (Z.eqb (z - 1) 0); [|auto].
          destruct (Nat.eqb_spec k a) as [Hx|Hx]; [contradiction|]. auto.
      - destruct (Nat.eqb_spec k a) as [Heq|Hne]; [subst k; rewrite Ea|]; cbn; auto. }
    destruct K as [K1 [K2 [K3 K4]]].
    specialize (IH env1 rc1 k). cbv zeta in *. rewrite K1 in IH.
    destruct (rc k) as [z|] eqn:Ek.
    + destruct (Nat.eqb_spec k a) as [->|Hne]; cbn [option_map] in IH.
      * destruct IH as [I1 [I2 I3]]; [intros z' Hz'; injection Hz' as <-; specialize (Hz z eq_refl); lia|].
        specialize (Hz z eq_refl). split; [rewrite I1; f_equal; lia|]. split; [|lia].
        intros Hp. rewrite I2 by lia. apply (K4 z eq_refl). lia.
      * destruct IH as [I1 [I2 I3]]; [intros z' Hz'; injection Hz' as <-; specialize (Hz z eq_refl); lia|].
        cbn [Nat.add]. split; [exact I1|]. split.
        -- intros Hp. rewrite I2 by exact Hp. apply K2, Hne.
        -- intros Hp. rewrite I3 by exact Hp. apply K2, Hne.
    + destruct (Nat.eqb_spec k a) as [->|Hne]; cbn [option_map] in IH; destruct IH as [I1 I2]; try discriminate;
        split; try exact I1; rewrite I2; auto.
Qed.

(** ** Termination: every step decreases a measure, from any state *)
Section Term.
  Context {V E : Type}.
  Variable sem : nat -> option (list V -> V + E).
  Variable unpack : V -> option (list V).
  Variable g : graph.
  Variable cons : nat -> list nat.
  Hypothesis cons_lt : forall k c, In c (cons k) -> c < length (gops g).

  Definition waiting (pend : nat -> Z) : nat :=
    length (filter (fun i => (0 <? pend i)%Z) (seq 0 (length (gops g)))).
  Definition qweight (q : list (@item E)) : nat :=
    fold_right (fun it acc => match it with IOp _ => 4 | _ => 1 end + acc) 0 q.
  Definition mu (s : @astate V E) : nat :=
    5 * waiting (apend s) + qweight (aq s) + 3 * length (ainflight s) + 2 * length (areport s)
    + (match amain s with Running => 1 | _ => 0 end).

  Lemma qweight_app q1 q2 : qweight (q1 ++ q2) = qweight q1 + qweight q2.
  Proof. induction q1 as [|it q1 IH]; [reflexivity|]. unfold qweight in *. cbn [app fold_right]. rewrite IH. lia. Qed.

  Lemma filter_drop (p1 p2 : nat -> Z) c l : (forall j, j <> c -> p2 j = p1 j) -> (p2 c <= p1 c)%Z ->
    NoDup l ->
    length (filter (fun i => (0 <? p2 i)%Z) l) + (if in_dec Nat.eq_dec c l then (if (0 <? p1 c)%Z && negb (0 <? p2 c)%Z then 1 else 0) else 0)
    = length (filter (fun i => (0 <? p1 i)%Z) l).
  Proof.
    intros H1 H2. induction l as [|a l IH]; intros Hnd; [reflexivity|].
    inversion Hnd as [|? ? Ha Hl]; subst. specialize (IH Hl). cbn [filter].
    destruct (Nat.eq_dec a c) as [->|Hne].
    - assert (Hf : filter (fun i => (0 <? p2 i)%Z) l = filter (fun i => (0 <? p1 i)%Z) l).
      { apply filter_ext_in. intros j Hj. rewrite H1; [reflexivity|]. intros ->. exact (Ha Hj). }
      destruct (in_dec Nat.eq_dec c (c :: l)) as [_|Hn]; [|destruct Hn; now left].
      rewrite Hf. destruct (Z.ltb_spec 0 (p1 c)), (Z.ltb_spec 0 (p2 c)); cbn; lia.
    - rewrite (H1 a Hne). destruct (in_dec Nat.eq_dec c (a :: l)) as [Hi|Hi], (in_dec Nat.eq_dec c l) as [Hj|Hj];
        try (destruct Hi as [Hi|Hi]; congruence); try (destruct Hi; now right);
        destruct (Z.ltb 0 (p1 a)); cbn [length] in *; lia.
  Qed.

  Lemma trigger_mu L : (forall c, In c L -> c < length (gops g)) -> forall pend q,
    5 * waiting (fst (fold_left trigger L (pend, q))) + qweight (snd (fold_left (@trigger E) L (pend, q)))
    <= 5 * waiting pend + qweight q.
  Proof.
    induction L as [|a L IH]; intros HL pend q; [reflexivity|]. cbn [fold_left trigger].
    etransitivity; [apply IH; intros; apply HL; now right|].
    set (p2 := fun j => if j =? a then (pend a - 1)%Z else pend j).
    pose proof (filter_drop pend p2 a (seq 0 (length (gops g)))) as K.
    unfold waiting. rewrite <- K; clear K.
    - destruct (in_dec Nat.eq_dec a (seq 0 (length (gops g)))) as [Hi|Hi].
      2:{ destruct Hi. apply in_seq. specialize (HL a (or_introl eq_refl)). lia. }
      assert (Ep : p2 a = (pend a - 1)%Z) by (unfold p2; rewrite Nat.eqb_refl; reflexivity). rewrite Ep.
      destruct (Z.eqb_spec (pend a - 1) 0) as [E0|E0].
      + rewrite qweight_app. destruct (Z.ltb_spec 0 (pend a)), (Z.ltb_spec 0 (pend a - 1)); cbn; lia.
      + lia.
    - intros j Hj. unfold p2. destruct (Nat.eqb_spec j a); congruence.
    - unfold p2. rewrite Nat.eqb_refl. lia.
    - apply seq_NoDup.
  Qed.

  Lemma on_op_done_mu o rs s : mu (on_op_done cons o rs s) <= mu s + 1.
  Proof.
    unfold on_op_done. destruct (aerr s); [lia|].
    pose proof (trigger_mu (concat (map cons (oout o)))) as K.
    assert (HL : forall c, In c (concat (map cons (oout o))) -> c < length (gops g)).
    { intros c Hc. apply in_concat in Hc. destruct Hc as [l [Hl Hc]]. apply in_map_iff in Hl.
      destruct Hl as [k [<- _]]. eapply cons_lt, Hc. }
    specialize (K HL (apend s) (aq s)).
    destruct (fold_left trigger _ (apend s, aq s)) as [pend q].
    destruct (fold_left gc_async _ _) as [env' rc]. unfold mu. cbn [fst snd apend aq ainflight areport amain] in *.
    destruct (Z.eqb _ 0); [rewrite qweight_app; cbn [qweight fold_right]|]; lia.
  Qed.

  Lemma finish_mu i args s : mu (finish sem unpack g cons i args s) <= mu s + 2.
  Proof.
    unfold finish. destruct (nth_error (gops g) i) as [o|]; [|lia].
    destruct (run_op sem unpack i o args) as [rs|e].
    - pose proof (on_op_done_mu o rs s). lia.
    - unfold mu. cbn [apend aq ainflight areport amain length]. lia.
  Qed.

  Lemma step_mu s1 s2 : step sem unpack g cons s1 s2 -> mu s2 < mu s1.
  Proof.
    intros H. destruct H as [s q Hm Hq|s e q Hm Hq|s i o q Hm Hq Ho Hl|s i o q args Hm Hq Ho Hl Hs
      |s i o q args h Hm Hq Ho Hl Hs Ha|s i o q args h Hm Hq Ho Hl Hs Ha|s i args l1 l2 Hi|s e l1 l2 Hi].
    - unfold mu, set_main. cbn [apend aq ainflight areport amain]. rewrite Hm, Hq. cbn [qweight fold_right].
      destruct (lookups (aenv s) (gout g)); fold (qweight q); lia.
    - unfold mu, set_main. cbn [apend aq ainflight areport amain]. rewrite Hm, Hq. cbn [qweight fold_right]. fold (qweight q). lia.
    - unfold mu, set_main. cbn [apend aq ainflight areport amain]. rewrite Hm, Hq. cbn [qweight fold_right]. fold (qweight q). lia.
    - unfold mu, set_main. cbn [apend aq ainflight areport amain]. rewrite Hm, Hq. cbn [qweight fold_right]. fold (qweight q). lia.
    - unfold mu. cbn [apend aq ainflight areport amain length]. rewrite Hm, Hq. cbn [qweight fold_right]. fold (qweight q). lia.
    - eapply Nat.le_lt_trans; [apply finish_mu|].
      unfold mu. cbn [apend aq ainflight areport amain length]. rewrite Hm, Hq. cbn [qweight fold_right]. fold (qweight q). lia.
    - eapply Nat.le_lt_trans; [apply finish_mu|].
      unfold mu. cbn [apend aq ainflight areport amain]. rewrite Hi, !app_length. cbn [length]. lia.
    - unfold report_error. cbn [aerr]. destruct (aerr s); unfold mu; cbn [apend aq ainflight areport amain];
        rewrite Hi, ?qweight_app, !app_length; cbn [length qweight fold_right]; lia.
  Qed.

  Lemma step_acc s : Acc (fun b a => step sem unpack g cons a b) s.
  Proof.
    remember (mu s) as m eqn:Em. revert s Em. induction m as [m IH] using lt_wf_ind. intros s ->.
    constructor. intros y Hy. apply (IH (mu y)); [apply step_mu, Hy|reflexivity].
  Qed.
End Term.

Lemma consumers_lt {V} (env : @venv V) ops : forall i k c, In c (consumers_from env i ops k) -> i <= c < i + length ops.
Proof.
  induction ops as [|o ops IH]; intros i k c H; cbn in H; [tauto|]. apply in_app_or in H. cbn [length].
  destruct H as [H|H]; [|apply IH in H; lia]. apply in_map_iff in H. destruct H as [x [<- _]]. lia.
Qed.
