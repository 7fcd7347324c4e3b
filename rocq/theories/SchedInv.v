(** Invariant of the asynchronous scheduler. *)
From Coq Require Import List Arith ZArith Bool Lia Permutation.
From Verif Require Import SchedSpec SchedModel SchedProofs SchedSync SchedAsync.
Import ListNotations.

Inductive status : Type := Wait | Que | Run | Fail | Drop | Done.
Definition isdone (x : status) : bool := match x with Done => true | _ => false end.
Lemma isdone_iff x : isdone x = true <-> x = Done.
Proof. destruct x; cbn; split; congruence. Qed.
Definition sset (st : nat -> status) (i : nat) (v : status) : nat -> status := fun j => if j =? i then v else st j.
Lemma sset_same st i v : sset st i v i = v.
Proof. unfold sset. now rewrite Nat.eqb_refl. Qed.
Lemma sset_other st i j v : j <> i -> sset st i v j = st j.
Proof. unfold sset. intros H. destruct (Nat.eqb_spec j i); congruence. Qed.

Definition memb (l : list nat) (k : nat) : bool := existsb (Nat.eqb k) l.
Lemma memb_iff l k : memb l k = true <-> In k l.
Proof.
  unfold memb. rewrite existsb_exists. split; [intros [x [H1 H2]]; apply Nat.eqb_eq in H2; congruence|].
  intros H. exists k. split; [exact H|apply Nat.eqb_refl].
Qed.

Fixpoint done_outs (st : nat -> status) (i : nat) (ops : list op) : list nat :=
  match ops with
  | [] => []
  | o :: ops' => (if isdone (st i) then oout o else []) ++ done_outs st (S i) ops'
  end.
Lemma in_done_outs st ops : forall i k, In k (done_outs st i ops) <->
  exists j o, nth_error ops j = Some o /\ st (i + j) = Done /\ In k (oout o).
Proof.
  induction ops as [|o ops IH]; intros i k; cbn [done_outs].
  - split; [intros []|]. intros [j [o [H _]]]. destruct j; discriminate.
  - rewrite in_app_iff, IH. split.
    + intros [H|[j [o' [H1 [H2 H3]]]]].
      * exists 0, o. rewrite Nat.add_0_r. destruct (isdone (st i)) eqn:Ed; [|destruct H]. apply isdone_iff in Ed. auto.
      * exists (S j), o'. rewrite <- plus_n_Sm. auto.
    + intros [[|j] [o' [H1 [H2 H3]]]].
      * left. cbn in H1. injection H1 as <-. rewrite Nat.add_0_r in H2. rewrite H2. exact H3.
      * right. exists j, o'. rewrite <- plus_n_Sm in H2. auto.
Qed.

Fixpoint uses_from (st : nat -> status) (i : nat) (ops : list op) (k : nat) : nat :=
  match ops with
  | [] => 0
  | o :: ops' => (if isdone (st i) then 0 else cnt (oin o) k) + uses_from st (S i) ops' k
  end.
Lemma uses_ext st st' ops : forall i k, (forall j, i <= j -> st' j = st j) -> uses_from st' i ops k = uses_from st i ops k.
Proof.
  induction ops as [|o ops IH]; intros i k H; [reflexivity|]. cbn. rewrite H by lia. rewrite (IH (S i)); [reflexivity|].
  intros j Hj. apply H. lia.
Qed.
Lemma uses_ge st ops : forall i j o k, nth_error ops j = Some o -> st (i + j) <> Done -> cnt (oin o) k <= uses_from st i ops k.
Proof.
  induction ops as [|a ops IH]; intros i j o k H1 H2; [destruct j; discriminate|]. cbn [uses_from]. destruct j as [|j].
  - cbn in H1. injection H1 as <-. rewrite Nat.add_0_r in H2. destruct (isdone (st i)) eqn:Ed; [apply isdone_iff in Ed; congruence|lia].
  - rewrite <- plus_n_Sm in H2. specialize (IH (S i) j o k H1 H2). lia.
Qed.
Lemma uses_done st ops : forall i j o k, nth_error ops j = Some o -> st (i + j) <> Done ->
  uses_from (sset st (i + j) Done) i ops k + cnt (oin o) k = uses_from st i ops k.
Proof.
  induction ops as [|a ops IH]; intros i j o k H1 H2; [destruct j; discriminate|]. cbn [uses_from]. destruct j as [|j].
  - cbn in H1. injection H1 as <-. rewrite Nat.add_0_r in *. rewrite sset_same. cbn [isdone].
    destruct (isdone (st i)) eqn:Ed; [apply isdone_iff in Ed; congruence|].
    rewrite (uses_ext st); [lia|]. intros j Hj. apply sset_other. lia.
  - rewrite <- plus_n_Sm in *. rewrite sset_other by lia. specialize (IH (S i) j o k H1 H2). cbn [Nat.add] in IH. lia.
Qed.
Lemma uses_nodone st ops : forall i k, (forall j, i <= j -> st j <> Done) -> uses_from st i ops k = cnt (concat (map oin ops)) k.
Proof.
  induction ops as [|o ops IH]; intros i k H; [reflexivity|]. cbn [uses_from map concat]. rewrite cnt_app.
  rewrite IH by (intros j Hj; apply H; lia). destruct (isdone (st i)) eqn:Ed; [|reflexivity].
  apply isdone_iff in Ed. destruct (H i); [lia|exact Ed].
Qed.
Lemma uses_same st st' ops : forall i k, (forall j, isdone (st' j) = isdone (st j)) -> uses_from st' i ops k = uses_from st i ops k.
Proof.
  induction ops as [|o ops IH]; intros i k H; [reflexivity|]. cbn. rewrite H, (IH (S i)) by exact H. reflexivity.
Qed.
Lemma done_outs_same st st' ops : forall i, (forall j, isdone (st' j) = isdone (st j)) -> done_outs st' i ops = done_outs st i ops.
Proof.
  induction ops as [|o ops IH]; intros i H; [reflexivity|]. cbn. rewrite H, (IH (S i)) by exact H. reflexivity.
Qed.

Definition notdone (st : nat -> status) (n : nat) : nat := length (filter (fun i => negb (isdone (st i))) (seq 0 n)).
Lemma notdone_zero st n : notdone st n = 0 <-> forall i, i < n -> st i = Done.
Proof.
  unfold notdone. split.
  - intros H i Hi. destruct (filter _ (seq 0 n)) as [|a l] eqn:Ef; [|discriminate].
    destruct (isdone (st i)) eqn:Ed; [now apply isdone_iff|]. exfalso.
    assert (G : In i (filter (fun i => negb (isdone (st i))) (seq 0 n))).
    { apply filter_In. split; [apply in_seq; lia|]. now rewrite Ed. }
    rewrite Ef in G. destruct G.
  - intros H. destruct (filter (fun i => negb (isdone (st i))) (seq 0 n)) as [|a l] eqn:Ef; [reflexivity|]. exfalso.
    assert (G : In a (filter (fun i => negb (isdone (st i))) (seq 0 n))) by (rewrite Ef; now left).
    apply filter_In in G. destruct G as [G1 G2]. apply in_seq in G1. rewrite H in G2 by lia. discriminate.
Qed.
Lemma notdone_same st st' n : (forall j, isdone (st' j) = isdone (st j)) -> notdone st' n = notdone st n.
Proof. intros H. unfold notdone. f_equal. apply filter_ext. intros i. now rewrite H. Qed.
Lemma notdone_done st n i : i < n -> st i <> Done -> notdone st n = S (notdone (sset st i Done) n).
Proof.
  intros Hi Hd. unfold notdone.
  assert (G : forall l, NoDup l -> In i l -> length (filter (fun j => negb (isdone (st j))) l) =
    S (length (filter (fun j => negb (isdone (sset st i Done j))) l))).
  { induction l as [|a l IH]; intros Hnd Hin; [destruct Hin|]. inversion Hnd as [|? ? Ha Hl]; subst. cbn [filter].
    destruct (Nat.eq_dec a i) as [->|Hne].
    - rewrite sset_same. cbn [isdone negb]. destruct (isdone (st i)) eqn:Ed; [apply isdone_iff in Ed; congruence|].
      cbn [negb length]. f_equal. f_equal. apply filter_ext_in. intros j Hj. rewrite sset_other; [reflexivity|].
      intros ->. exact (Ha Hj).
    - rewrite sset_other by exact Hne. destruct Hin as [Hin|Hin]; [congruence|]. specialize (IH Hl Hin).
      destruct (isdone (st a)); cbn [negb length]; lia. }
  apply G; [apply seq_NoDup|apply in_seq; lia].
Qed.

Definition qops {E} (q : list (@item E)) : list nat :=
  flat_map (fun it => match it with IOp i => [i] | _ => [] end) q.
Lemma in_qops {E} (q : list (@item E)) i : In i (qops q) <-> In (IOp i) q.
Proof.
  unfold qops. rewrite in_flat_map. split.
  - intros [it [H1 H2]]. destruct it; cbn in H2; try tauto. destruct H2 as [->|[]]. exact H1.
  - intros H. exists (IOp i). split; [exact H|now left].
Qed.
Lemma qops_app {E} (q1 q2 : list (@item E)) : qops (q1 ++ q2) = qops q1 ++ qops q2.
Proof. unfold qops. apply flat_map_app. Qed.
Lemma qops_map {E} (Q : list nat) : qops (map (@IOp E) Q) = Q.
Proof. induction Q as [|a Q IH]; [reflexivity|]. unfold qops in *. cbn [map flat_map]. rewrite IH. reflexivity. Qed.

Lemma NoDup_app_intro {A} (l1 l2 : list A) : NoDup l1 -> NoDup l2 -> (forall x, In x l1 -> ~ In x l2) -> NoDup (l1 ++ l2).
Proof.
  induction l1 as [|a l1 IH]; intros H1 H2 H3; [exact H2|]. inversion H1 as [|? ? G1 G2]; subst. cbn. constructor.
  - rewrite in_app_iff. intros [H|H]; [tauto|]. apply (H3 a); [now left|exact H].
  - apply IH; auto. intros x Hx. apply H3. now right.
Qed.

Section Inv.
  Context {V E : Type}.
  Variable sem : nat -> option (list V -> V + E).
  Variable unpack : V -> option (list V).
  Variable g : graph.
  Variable inputs : list V.
  Hypothesis wf : wf_graph g.
  Hypothesis wfi : length inputs = length (gin g).

  Let n := length (gops g).
  Let F := final_env sem unpack g inputs.
  Let errs := failures sem unpack g inputs.
  Let env0 := input_env g inputs.
  Let cons := async_consumers g inputs.

  Definition resolved (st : nat -> status) (k : nat) : bool := memb (gin g ++ done_outs st 0 (gops g)) k.
  Definition uses st k := uses_from st 0 (gops g) k.
  Definition unres (st : nat -> status) (o : op) : nat := length (filter (fun k => negb (resolved st k)) (oin o)).
  Definition started (x : status) : Prop := x = Run \/ x = Fail \/ x = Drop \/ x = Done.

  Record inv (cur : option nat) (st : nat -> status) (s : @astate V E) : Prop := {
    i_pend : forall i o, nth_error (gops g) i = Some o -> apend s i = Z.of_nat (unres st o);
    i_wait : forall i o, nth_error (gops g) i = Some o -> (st i = Wait <-> (0 < apend s i)%Z);
    i_rc : forall k, arc s k = if total_uses g k =? 0 then None else Some (Z.of_nat (uses st k + cnt (gout g) k));
    i_env : forall k, resolved st k = true -> total_uses g k = 0 \/ 0 < uses st k + cnt (gout g) k -> aenv s k = F k;
    i_done : forall i o, nth_error (gops g) i = Some o -> st i = Done ->
       exists args rs, lookups F (oin o) = Some args /\ run_op sem unpack i o args = Good rs;
    i_qnd : NoDup (qops (aq s));
    i_q : forall i, In (IOp i) (aq s) <-> i < n /\ st i = Que;
    i_flnd : NoDup (map fst (ainflight s));
    i_fl : forall i, In i (map fst (ainflight s)) <-> i < n /\ st i = Run /\ cur <> Some i;
    i_flargs : forall i args, In (i, args) (ainflight s) ->
       exists o, nth_error (gops g) i = Some o /\ lookups F (oin o) = Some args;
    i_calls : forall i args, In (i, args) (acalls s) ->
       exists o, nth_error (gops g) i = Some o /\ lookups F (oin o) = Some args /\ started (st i);
    i_called : forall i, i < n -> started (st i) -> In i (map fst (acalls s));
    i_callnd : NoDup (map fst (acalls s));
    i_rep : forall e, In e (areport s) -> exists i, i < n /\ st i = Fail /\ In (i, e) errs;
    i_fail : aerr s = false -> forall i, i < n -> st i = Fail -> exists e, In e (areport s);
    i_nodrop : aerr s = false -> forall i, i < n -> st i <> Drop;
    i_err : aerr s = true -> (exists i, i < n /\ st i = Fail) /\ exists e, In (IErr e) (aq s);
    i_qerr : forall e, In (IErr e) (aq s) -> exists i, In (i, e) errs;
    i_sent : In ISentinel (aq s) <-> (forall i, i < n -> st i = Done);
    i_rem : aremaining s = Z.of_nat (notdone st n)
  }.

  Lemma nth_lt i o : nth_error (gops g) i = Some o -> i < n.
  Proof. intros H. apply nth_error_Some. congruence. Qed.

  (** each value has one defining operation *)
  Lemma def_unique i j oi oj k : nth_error (gops g) i = Some oi -> nth_error (gops g) j = Some oj ->
    In k (oout oi) -> In k (oout oj) -> i = j.
  Proof.
    destruct wf as [W _]. unfold all_values in W. apply NoDup_app_inv in W. destruct W as [_ [W _]].
    clear - W. revert i j. induction (gops g) as [|o ops IH]; intros i j Hi Hj Ki Kj; [destruct i; discriminate|].
    cbn in W. apply NoDup_app_inv in W. destruct W as [W1 [W2 W3]].
    assert (X : forall i' o', nth_error ops i' = Some o' -> In k (oout o') -> In k (concat (map oout ops))).
    { intros i' o' H1 H2. apply in_concat. exists (oout o'). split; [|exact H2]. apply in_map. eapply nth_error_In, H1. }
    destruct i as [|i], j as [|j]; cbn in Hi, Hj.
    - reflexivity.
    - exfalso. injection Hi as <-. apply (W3 k Ki). eapply X; eassumption.
    - exfalso. injection Hj as <-. apply (W3 k Kj). eapply X; eassumption.
    - f_equal. eapply IH; eassumption.
  Qed.
  Lemma oout_nodup i o : nth_error (gops g) i = Some o -> NoDup (oout o).
  Proof.
    destruct wf as [W _]. unfold all_values in W. apply NoDup_app_inv in W. destruct W as [_ [W _]].
    clear - W. revert i. induction (gops g) as [|a ops IH]; intros i Hi; [destruct i; discriminate|].
    cbn in W. apply NoDup_app_inv in W. destruct W as [W1 [W2 W3]].
    destruct i as [|i]; cbn in Hi; [injection Hi as <-; exact W1|eapply IH; eassumption].
  Qed.
  Lemma out_env0 i o k : nth_error (gops g) i = Some o -> In k (oout o) -> env0 k = None /\ ~ In k (gin g).
  Proof.
    intros H1 H2. assert (G : ~ In k (gin g)).
    { apply (outs_not_inputs g wf). eapply out_in_values; eassumption. }
    split; [|exact G]. apply (env0_other g inputs), G.
  Qed.

  Lemma resolved_iff st k : resolved st k = true <->
    In k (gin g) \/ exists j o, nth_error (gops g) j = Some o /\ st j = Done /\ In k (oout o).
  Proof. unfold resolved. rewrite memb_iff, in_app_iff, in_done_outs. reflexivity. Qed.

  Lemma resolved_done st i o k : nth_error (gops g) i = Some o ->
    resolved (sset st i Done) k = resolved st k || memb (oout o) k.
  Proof.
    intros Ho. apply eq_true_iff_eq. rewrite orb_true_iff, !resolved_iff, memb_iff. split.
    - intros [H|[j [o' [H1 [H2 H3]]]]]; [auto|]. destruct (Nat.eq_dec j i) as [->|Hne].
      + right. congruence.
      + rewrite sset_other in H2 by exact Hne. left. right. eauto.
    - intros [[H|[j [o' [H1 [H2 H3]]]]]|H]; [auto| |].
      + right. exists j, o'. split; [exact H1|]. split; [|exact H3].
        destruct (Nat.eq_dec j i) as [->|Hne]; [apply sset_same|now rewrite sset_other].
      + right. exists i, o. split; [exact Ho|]. split; [apply sset_same|exact H].
  Qed.
  Lemma resolved_own st i o k : nth_error (gops g) i = Some o -> st i <> Done -> In k (oout o) -> resolved st k = false.
  Proof.
    intros Ho Hd Hk. destruct (resolved st k) eqn:Er; [|reflexivity]. exfalso. apply resolved_iff in Er.
    destruct Er as [H|[j [o' [H1 [H2 H3]]]]].
    - destruct (out_env0 i o k Ho Hk) as [_ G]. exact (G H).
    - assert (j = i) by (eapply def_unique; eassumption). subst j. congruence.
  Qed.

  Lemma resolved_some cur st s k : inv cur st s -> resolved st k = true -> F k <> None.
  Proof.
    intros HI Hr. apply resolved_iff in Hr. destruct Hr as [H|[j [o [H1 [H2 H3]]]]].
    - unfold F. rewrite (final_input sem unpack g inputs wf k H). apply (env0_input g inputs wf wfi), H.
    - destruct (i_done _ _ _ HI j o H1 H2) as [args [rs [A1 A2]]].
      pose proof (final_op sem unpack g inputs wf j o H1) as K. unfold op_eq in K. fold F in K. rewrite A1, A2 in K.
      destruct K as [K _]. eapply lookups_some; eassumption.
  Qed.

  (** the arguments read by the main loop *)
  Lemma que_args cur st s i o : inv cur st s -> nth_error (gops g) i = Some o -> st i = Que ->
    exists args, lookups (aenv s) (oin o) = Some args /\ lookups F (oin o) = Some args.
  Proof.
    intros HI Ho Hq.
    assert (Hp : unres st o = 0).
    { pose proof (i_wait _ _ _ HI i o Ho) as W. pose proof (i_pend _ _ _ HI i o Ho) as P.
      destruct (Nat.eq_dec (unres st o) 0) as [|Hne]; [assumption|]. assert (st i = Wait) by (apply W; lia). congruence. }
    assert (Hr : forall k, In k (oin o) -> resolved st k = true).
    { intros k Hk. destruct (resolved st k) eqn:Er; [reflexivity|]. unfold unres in Hp.
      assert (G : In k (filter (fun k => negb (resolved st k)) (oin o))) by (apply filter_In; rewrite Er; auto).
      destruct (filter _ (oin o)); [destruct G|discriminate]. }
    assert (Hu : forall k, In k (oin o) -> 0 < uses st k + cnt (gout g) k).
    { intros k Hk. assert (cnt (oin o) k <= uses st k) by (apply (uses_ge st (gops g) 0 i); [exact Ho|cbn; congruence]).
      assert (0 < cnt (oin o) k) by (apply cnt_in; exact Hk). lia. }
    destruct (lookups_all F (oin o)) as [args Ha].
    { intros k Hk. eapply resolved_some; eauto. }
    exists args. split; [|exact Ha]. rewrite <- Ha. apply lookups_ext. intros k Hk. apply (i_env _ _ _ HI); auto.
  Qed.

  (** counting consumers *)
  Lemma cnt_filter_eqb l k : cnt l k = length (filter (Nat.eqb k) l).
  Proof.
    induction l as [|a l IH]; [reflexivity|]. rewrite cnt_cons. cbn [filter]. destruct (Nat.eqb k a); cbn [length]; lia.
  Qed.
  Lemma cnt_filter f l k : cnt (filter f l) k = if f k then cnt l k else 0.
  Proof.
    induction l as [|a l IH]; [destruct (f k); reflexivity|]. cbn [filter]. rewrite cnt_cons.
    destruct (f a) eqn:Fa; rewrite ?cnt_cons, ?IH; destruct (Nat.eqb_spec k a) as [Hx|Hx];
      [subst a; rewrite Fa; lia|destruct (f k); lia|subst a; rewrite Fa; lia|destruct (f k); lia].
  Qed.
  Lemma cnt_const {A} (l : list A) (i c : nat) : cnt (map (fun _ => i) l) c = if c =? i then length l else 0.
  Proof.
    induction l as [|a l IH]; [destruct (c =? i); reflexivity|]. cbn [map]. rewrite cnt_cons, IH. destruct (c =? i); cbn [length]; lia.
  Qed.
  Lemma cnt_consumers (env : @venv V) ops : forall i k c, cnt (consumers_from env i ops k) c =
    match nth_error ops (c - i) with
    | Some o => if i <=? c then cnt (unresolved env o) k else 0
    | None => 0 end.
  Proof.
    induction ops as [|o ops IH]; intros i k c; cbn [consumers_from]; [destruct (c - i); reflexivity|].
    rewrite cnt_app, cnt_const, IH, <- cnt_filter_eqb. destruct (Nat.eqb_spec c i) as [->|Hne].
    - rewrite Nat.sub_diag. cbn [nth_error]. destruct (i <=? i) eqn:El; [|apply Nat.leb_gt in El; lia].
      replace (i - S i) with 0 by lia. destruct (S i <=? i) eqn:E2; [apply Nat.leb_le in E2; lia|].
      destruct (nth_error ops 0); lia.
    - destruct (Nat.leb_spec i c) as [Hl|Hl].
      + replace (c - i) with (S (c - S i)) by lia. cbn [nth_error]. destruct (Nat.leb_spec (S i) c); [|lia]. reflexivity.
      + destruct (Nat.leb_spec (S i) c); [lia|]. destruct (nth_error ops (c - S i)), (nth_error (o :: ops) (c - i)); reflexivity.
  Qed.
  Lemma cnt_concat_map (f : nat -> list nat) l c : cnt (concat (map f l)) c = fold_right (fun k acc => cnt (f k) c + acc) 0 l.
  Proof. induction l as [|a l IH]; [reflexivity|]. cbn [map concat fold_right]. now rewrite cnt_app, IH. Qed.
  Lemma sum_cnt_mem outs l : NoDup outs ->
    fold_right (fun k acc => cnt l k + acc) 0 outs = length (filter (memb outs) l).
  Proof.
    intros Hnd. induction l as [|a l IH].
    - cbn. clear. induction outs as [|k outs IH]; [reflexivity|]. cbn. exact IH.
    - cbn [filter]. assert (S1 : fold_right (fun k acc => cnt (a :: l) k + acc) 0 outs =
        (if memb outs a then 1 else 0) + fold_right (fun k acc => cnt l k + acc) 0 outs).
      { clear IH. induction outs as [|k outs IHo]; [reflexivity|]. inversion Hnd as [|? ? N1 N2]; subst.
        cbn [fold_right]. rewrite (IHo N2), cnt_cons.
        assert (Em : memb (k :: outs) a = (k =? a) || memb outs a) by (unfold memb; cbn [existsb]; now rewrite (Nat.eqb_sym a k)).
        rewrite Em. destruct (Nat.eqb_spec k a) as [Hx|Hx]; cbn [orb]; [subst k|lia].
        destruct (memb outs a) eqn:Eo; [apply memb_iff in Eo; tauto|]. lia. }
      rewrite S1, IH. destruct (memb outs a); cbn [length]; lia.
  Qed.
  Lemma trigger_count i o c oc : nth_error (gops g) i = Some o -> nth_error (gops g) c = Some oc ->
    cnt (concat (map cons (oout o))) c = length (filter (memb (oout o)) (oin oc)).
  Proof.
    intros Ho Hc. rewrite cnt_concat_map, <- (sum_cnt_mem _ _ (oout_nodup i o Ho)).
    assert (G : forall l, incl l (oout o) -> fold_right (fun k acc => cnt (cons k) c + acc) 0 l = fold_right (fun k acc => cnt (oin oc) k + acc) 0 l).
    { induction l as [|k l IH]; intros Hi; [reflexivity|]. cbn [fold_right]. rewrite IH by (intros x Hx; apply Hi; now right).
      f_equal. unfold cons, async_consumers. rewrite cnt_consumers, Nat.sub_0_r, Hc. cbn [Nat.leb].
      unfold unresolved. rewrite cnt_filter.
      destruct (out_env0 i o k Ho (Hi k (or_introl eq_refl))) as [G _]. unfold env0 in G. rewrite G. reflexivity. }
    apply G. apply incl_refl.
  Qed.
  Lemma unres_done st i o oc : nth_error (gops g) i = Some o -> st i <> Done ->
    unres st oc = unres (sset st i Done) oc + length (filter (memb (oout o)) (oin oc)).
  Proof.
    intros Ho Hd. unfold unres. induction (oin oc) as [|k l IH]; [reflexivity|]. cbn [filter].
    rewrite (resolved_done st i o k Ho). destruct (memb (oout o) k) eqn:Em.
    - apply memb_iff in Em. rewrite (resolved_own st i o k Ho Hd Em). cbn [orb negb length]. lia.
    - rewrite orb_false_r. destruct (resolved st k); cbn [negb length]; lia.
  Qed.
  Lemma resolved_same st st' k : (forall j, isdone (st' j) = isdone (st j)) -> resolved st' k = resolved st k.
  Proof. intros H. unfold resolved. now rewrite (done_outs_same st st'). Qed.
  Lemma unres_same st st' o : (forall j, isdone (st' j) = isdone (st j)) -> unres st' o = unres st o.
  Proof. intros H. unfold unres. f_equal. apply filter_ext. intros k. now rewrite (resolved_same st st'). Qed.
  Lemma usesg_same st st' k : (forall j, isdone (st' j) = isdone (st j)) -> uses st' k = uses st k.
  Proof. intros H. unfold uses. now apply uses_same. Qed.

  Lemma partial_env_notin (env : @venv V) i o args k : ~ In k (oout o) -> partial_env sem unpack env i o args k = env k.
  Proof.
    intros H. unfold partial_env. destruct (sem i) as [h|]; [|reflexivity]. destruct (h args) as [r|e]; [|reflexivity].
    destruct (oout o) as [|a [|b l]] eqn:Eo; try reflexivity. destruct (unpack r) as [rs|]; [|reflexivity].
    apply vset_all_combine_notin, H.
  Qed.

  (** A status change of the current op that does not touch "done". *)
  Lemma sset_isdone st i v : st i <> Done -> v <> Done -> forall j, isdone (sset st i v j) = isdone (st j).
  Proof.
    intros H1 H2 j. destruct (Nat.eq_dec j i) as [->|Hne]; [|now rewrite sset_other].
    rewrite sset_same. destruct (isdone v) eqn:E1; [apply isdone_iff in E1; congruence|].
    destruct (isdone (st i)) eqn:E2; [apply isdone_iff in E2; congruence|reflexivity].
  Qed.

  Lemma bad_inv st s i o args e : inv (Some i) st s -> nth_error (gops g) i = Some o -> st i = Run ->
    lookups F (oin o) = Some args -> run_op sem unpack i o args = Bad e ->
    inv None (sset st i Fail)
      (AState (if aerr s then aenv s else partial_env sem unpack (aenv s) i o args)
              (apend s) (arc s) (aq s) (aremaining s) (aerr s)
              (ainflight s) (e :: areport s) (amain s) (acalls s)).
  Proof.
    intros HI Ho Hr Ha Hb. pose proof (nth_lt i o Ho) as Hi.
    assert (Hs : forall j, isdone (sset st i Fail j) = isdone (st j)) by (apply sset_isdone; congruence).
    assert (Hne : forall j x, x <> Run -> x <> Fail -> (sset st i Fail j = x <-> st j = x)).
    { intros j x X1 X2. destruct (Nat.eq_dec j i) as [->|N]; [rewrite sset_same; split; congruence|now rewrite sset_other]. }
    constructor; cbn [aenv apend arc aq aremaining aerr ainflight areport amain acalls].
    - intros j oj Hj. rewrite (unres_same st); [apply (i_pend _ _ _ HI j oj Hj)|exact Hs].
    - intros j oj Hj. rewrite Hne by discriminate. apply (i_wait _ _ _ HI j oj Hj).
    - intros k. rewrite (usesg_same st) by exact Hs. apply (i_rc _ _ _ HI).
    - intros k Hk Hu. rewrite (resolved_same st) in Hk by exact Hs. rewrite (usesg_same st) in Hu by exact Hs.
      destruct (aerr s); [apply (i_env _ _ _ HI); auto|]. rewrite partial_env_notin; [apply (i_env _ _ _ HI); auto|].
      intros G. rewrite (resolved_own st i o k Ho) in Hk; [discriminate|congruence|exact G].
    - intros j oj Hj Hd. apply (i_done _ _ _ HI j oj Hj). rewrite Hne in Hd by discriminate. exact Hd.
    - apply (i_qnd _ _ _ HI).
    - intros j. rewrite Hne by discriminate. apply (i_q _ _ _ HI).
    - apply (i_flnd _ _ _ HI).
    - intros j. rewrite (i_fl _ _ _ HI). split.
      + intros [H1 [H2 H3]]. assert (j <> i) by congruence. rewrite sset_other by assumption. repeat split; auto. discriminate.
      + intros [H1 [H2 _]]. destruct (Nat.eq_dec j i) as [->|N]; [rewrite sset_same in H2; discriminate|].
        rewrite sset_other in H2 by exact N. repeat split; auto. congruence.
    - apply (i_flargs _ _ _ HI).
    - intros j a Hj. destruct (i_calls _ _ _ HI j a Hj) as [o' [C1 [C2 C3]]]. exists o'. split; [exact C1|]. split; [exact C2|].
      destruct (Nat.eq_dec j i) as [->|N]; [rewrite sset_same; unfold started; auto|now rewrite sset_other].
    - intros j Hj Hst. apply (i_called _ _ _ HI j Hj). destruct (Nat.eq_dec j i) as [->|N].
      + unfold started. auto.
      + rewrite sset_other in Hst by exact N. exact Hst.
    - apply (i_callnd _ _ _ HI).
    - intros e' [<-|He].
      + exists i. split; [exact Hi|]. split; [apply sset_same|]. refine (proj2 (errs_iff sem unpack g inputs wf wfi i e) _). exists o, args. auto.
      + destruct (i_rep _ _ _ HI e' He) as [j [J1 [J2 J3]]]. exists j. split; [exact J1|]. split; [|exact J3].
        destruct (Nat.eq_dec j i) as [->|N]; [apply sset_same|now rewrite sset_other].
    - intros _ j _ _. exists e. now left.
    - intros H0 j Hj. intros Hd. rewrite Hne in Hd by discriminate. exact (i_nodrop _ _ _ HI H0 j Hj Hd).
    - intros H0. destruct (i_err _ _ _ HI H0) as [_ H2]. split; [|exact H2]. exists i. split; [exact Hi|apply sset_same].
    - apply (i_qerr _ _ _ HI).
    - rewrite (i_sent _ _ _ HI). split; intros H j Hj; specialize (H j Hj); apply Hne in H; auto; discriminate.
    - rewrite (notdone_same st) by exact Hs. apply (i_rem _ _ _ HI).
  Qed.

  Lemma drop_inv st s i o : inv (Some i) st s -> nth_error (gops g) i = Some o -> st i = Run -> aerr s = true ->
    inv None (sset st i Drop) s.
  Proof.
    intros HI Ho Hr He. pose proof (nth_lt i o Ho) as Hi.
    assert (Hs : forall j, isdone (sset st i Drop j) = isdone (st j)) by (apply sset_isdone; congruence).
    assert (Hne : forall j x, x <> Run -> x <> Drop -> (sset st i Drop j = x <-> st j = x)).
    { intros j x X1 X2. destruct (Nat.eq_dec j i) as [->|N]; [rewrite sset_same; split; congruence|now rewrite sset_other]. }
    constructor.
    - intros j oj Hj. rewrite (unres_same st); [apply (i_pend _ _ _ HI j oj Hj)|exact Hs].
    - intros j oj Hj. rewrite Hne by discriminate. apply (i_wait _ _ _ HI j oj Hj).
    - intros k. rewrite (usesg_same st) by exact Hs. apply (i_rc _ _ _ HI).
    - intros k Hk Hu. rewrite (resolved_same st) in Hk by exact Hs. rewrite (usesg_same st) in Hu by exact Hs.
      apply (i_env _ _ _ HI); auto.
    - intros j oj Hj Hd. apply (i_done _ _ _ HI j oj Hj). rewrite Hne in Hd by discriminate. exact Hd.
    - apply (i_qnd _ _ _ HI).
    - intros j. rewrite Hne by discriminate. apply (i_q _ _ _ HI).
    - apply (i_flnd _ _ _ HI).
    - intros j. rewrite (i_fl _ _ _ HI). split.
      + intros [H1 [H2 H3]]. assert (j <> i) by congruence. rewrite sset_other by assumption. repeat split; auto. discriminate.
      + intros [H1 [H2 _]]. destruct (Nat.eq_dec j i) as [->|N]; [rewrite sset_same in H2; discriminate|].
        rewrite sset_other in H2 by exact N. repeat split; auto. congruence.
    - apply (i_flargs _ _ _ HI).
    - intros j a Hj. destruct (i_calls _ _ _ HI j a Hj) as [o' [C1 [C2 C3]]]. exists o'. split; [exact C1|]. split; [exact C2|].
      destruct (Nat.eq_dec j i) as [->|N]; [rewrite sset_same; unfold started; auto|now rewrite sset_other].
    - intros j Hj Hst. apply (i_called _ _ _ HI j Hj). destruct (Nat.eq_dec j i) as [->|N].
      + unfold started. auto.
      + rewrite sset_other in Hst by exact N. exact Hst.
    - apply (i_callnd _ _ _ HI).
    - intros e' He'. destruct (i_rep _ _ _ HI e' He') as [j [J1 [J2 J3]]]. exists j. split; [exact J1|]. split; [|exact J3].
      rewrite sset_other; [exact J2|congruence].
    - congruence.
    - congruence.
    - intros _. destruct (i_err _ _ _ HI He) as [[j [J1 J2]] H2]. split; [|exact H2]. exists j. split; [exact J1|].
      rewrite sset_other; [exact J2|congruence].
    - apply (i_qerr _ _ _ HI).
    - rewrite (i_sent _ _ _ HI). split; intros H j Hj; specialize (H j Hj); apply Hne in H; auto; discriminate.
    - rewrite (notdone_same st) by exact Hs. apply (i_rem _ _ _ HI).
  Qed.

  Lemma good_inv st s i o args rs : inv (Some i) st s -> nth_error (gops g) i = Some o -> st i = Run ->
    lookups F (oin o) = Some args -> run_op sem unpack i o args = Good rs -> aerr s = false ->
    exists st', inv None st' (on_op_done cons o rs s).
  Proof.
    intros HI Ho Hr Ha Hb He. pose proof (nth_lt i o Ho) as Hi.
    unfold on_op_done. rewrite He.
    set (L := concat (map cons (oout o))).
    destruct (@trigger_fold E L (apend s) (aq s)) as [Q [Q1 [Q2 [Q3 Q4]]]].
    destruct (fold_left trigger L (apend s, aq s)) as [pend q]. cbn [fst snd] in Q1, Q4. subst q.
    pose proof (gc_async_fold (oin o) (vset_all (aenv s) (combine (oout o) rs)) (arc s)) as GC.
    destruct (fold_left gc_async (oin o) (vset_all (aenv s) (combine (oout o) rs), arc s)) as [env' rc].
    cbn [fst snd] in GC.
    assert (QL : forall c, In c Q -> c < n).
    { intros c Hc. apply Q3 in Hc. assert (G : In c L) by (apply cnt_in; lia).
      unfold L in G. apply in_concat in G. destruct G as [l [G1 G2]]. apply in_map_iff in G1.
      destruct G1 as [k [<- _]]. unfold cons, async_consumers in G2. apply consumers_lt in G2. exact (proj2 G2). }
    assert (QW : forall c, In c Q -> st c = Wait).
    { intros c Hc. pose proof (QL c Hc) as Hlt. apply Q3 in Hc.
      destruct (nth_error (gops g) c) as [oc|] eqn:Ec; [|apply nth_error_None in Ec; unfold n in Hlt; lia].
      apply (i_wait _ _ _ HI c oc Ec). lia. }
    set (st' := fun j => if memb Q j then Que else sset st i Done j).
    assert (Hin : forall j, In j Q -> st' j = Que) by (intros j Hj; unfold st'; apply memb_iff in Hj; now rewrite Hj).
    assert (Hout : forall j, ~ In j Q -> st' j = sset st i Done j).
    { intros j Hj. unfold st'. destruct (memb Q j) eqn:Em; [apply memb_iff in Em; tauto|reflexivity]. }
    assert (HiQ : ~ In i Q) by (intros H; apply QW in H; congruence).
    assert (Hsd : forall j, isdone (st' j) = isdone (sset st i Done j)).
    { intros j. destruct (in_dec Nat.eq_dec j Q) as [Hj|Hj].
      - rewrite Hin by exact Hj. rewrite sset_other by (intros ->; tauto). rewrite (QW j Hj). reflexivity.
      - now rewrite Hout. }
    assert (Hnd : st i <> Done) by congruence.
    assert (Hold : forall j, j <> i -> ~ In j Q -> st' j = st j) by (intros j J1 J2; rewrite Hout, sset_other by assumption; reflexivity).
    assert (Hi' : st' i = Done) by (rewrite Hout by exact HiQ; apply sset_same).
    assert (Cases : forall j, (j = i /\ st' j = Done) \/ (j <> i /\ In j Q /\ st' j = Que /\ st j = Wait) \/ (j <> i /\ ~ In j Q /\ st' j = st j)).
    { intros j. destruct (Nat.eq_dec j i) as [->|N]; [auto|]. destruct (in_dec Nat.eq_dec j Q) as [Hj|Hj]; [right; left|right; right]; auto. }
    assert (Hpend : forall c oc, nth_error (gops g) c = Some oc -> pend c = Z.of_nat (unres st' oc)).
    { intros c oc Hc. rewrite (unres_same (sset st i Done)) by exact Hsd.
      rewrite Q4, (i_pend _ _ _ HI c oc Hc). unfold L. rewrite (trigger_count i o c oc Ho Hc).
      rewrite (unres_done st i o oc Ho Hnd). lia. }
    assert (Huse : forall k, uses st' k + cnt (oin o) k = uses st k).
    { intros k. rewrite (usesg_same (sset st i Done)) by exact Hsd. apply (uses_done st (gops g) 0 i o k Ho Hnd). }
    assert (Hres : forall k, resolved st' k = resolved st k || memb (oout o) k).
    { intros k. rewrite (resolved_same (sset st i Done)) by exact Hsd. now apply resolved_done. }
    assert (Hrem : notdone st n = S (notdone st' n)).
    { rewrite (notdone_same (sset st i Done) st') by exact Hsd. now apply notdone_done. }
    assert (GCk : forall k, rc k = (if total_uses g k =? 0 then None else Some (Z.of_nat (uses st' k + cnt (gout g) k)))
       /\ ((total_uses g k = 0 \/ 0 < uses st' k + cnt (gout g) k) -> env' k = vset_all (aenv s) (combine (oout o) rs) k)).
    { intros k. specialize (GC k). pose proof (i_rc _ _ _ HI k) as R. pose proof (Huse k) as U. rewrite R in GC.
      destruct (Nat.eqb_spec (total_uses g k) 0) as [T|T].
      - destruct GC as [G1 G2]; [discriminate|]. auto.
      - destruct GC as [G1 [G2 _]]; [intros z Hz; injection Hz as <-; lia|].
        split; [rewrite G1; f_equal; lia|]. intros [X|X]; [lia|]. apply G2. lia. }
    exists st'. constructor; cbn [aenv apend arc aq aremaining aerr ainflight areport amain acalls].
    - exact Hpend.
    - intros c oc Hc. rewrite (Hpend c oc Hc). pose proof (i_wait _ _ _ HI c oc Hc) as W.
      pose proof (Q3 c) as Q3c. pose proof (Q4 c) as Q4c. pose proof (Hpend c oc Hc) as P.
      destruct (Cases c) as [[-> C]|[[N [C1 [C2 C3]]]|[N [C1 C2]]]].
      + rewrite C. split; [discriminate|]. intros Hp. exfalso.
        assert (~ (0 < apend s i)%Z) by (rewrite <- W; congruence). rewrite <- P, Q4c in Hp. lia.
      + rewrite C2. split; [discriminate|]. intros Hp. apply Q3c in C1. lia.
      + rewrite C2, W. assert (X : ~ (0 < apend s c <= Z.of_nat (cnt L c))%Z) by (rewrite <- Q3c; exact C1).
        split; [intros Y; lia|]. intros Y. lia.
    - intros k. apply GCk.
    - intros k Hk Hu. destruct (GCk k) as [_ G2]. rewrite (G2 Hu). rewrite Hres in Hk.
      destruct (memb (oout o) k) eqn:Em.
      + apply memb_iff in Em. apply (lookups_agree _ _ (oout o) rs); [| |exact Em].
        * apply lookups_vset_all; [eapply oout_nodup; eassumption|eapply run_op_length; eassumption].
        * pose proof (final_op sem unpack g inputs wf i o Ho) as K. unfold op_eq in K. fold F in K. rewrite Ha, Hb in K. apply K.
      + rewrite orb_false_r in Hk. rewrite vset_all_combine_notin by (intros G; apply memb_iff in G; congruence).
        apply (i_env _ _ _ HI k Hk). pose proof (Huse k). lia.
    - intros j oj Hj Hd. destruct (Cases j) as [[-> C]|[[N [C1 [C2 C3]]]|[N [C1 C2]]]].
      + rewrite Ho in Hj. injection Hj as <-. eauto.
      + congruence.
      + apply (i_done _ _ _ HI j oj Hj). congruence.
    - assert (G : NoDup (qops (aq s ++ map IOp Q))).
      { rewrite qops_app, qops_map. apply NoDup_app_intro; [apply (i_qnd _ _ _ HI)|exact Q2|].
        intros x Hx Hx'. apply in_qops in Hx. apply (i_q _ _ _ HI) in Hx. apply QW in Hx'. destruct Hx. congruence. }
      destruct (Z.eqb _ 0); [|exact G]. rewrite qops_app. cbn. rewrite app_nil_r. exact G.
    - intros j. assert (G : In (IOp j) (aq s ++ map IOp Q) <-> j < n /\ st' j = Que).
      { rewrite in_app_iff, (i_q _ _ _ HI). split.
        - intros [[H1 H2]|H].
          + split; [exact H1|]. destruct (Cases j) as [[-> C]|[[N [C1 [C2 C3]]]|[N [C1 C2]]]]; congruence.
          + apply in_map_iff in H. destruct H as [x [X1 X2]]. injection X1 as ->. auto.
        - intros [H1 H2]. destruct (Cases j) as [[-> C]|[[N [C1 [C2 C3]]]|[N [C1 C2]]]].
          + congruence.
          + right. apply in_map, C1.
          + left. split; [exact H1|congruence]. }
      destruct (Z.eqb _ 0); [|exact G]. rewrite in_app_iff, G. cbn. split; [intros [H|[H|[]]]; [exact H|discriminate]|auto].
    - apply (i_flnd _ _ _ HI).
    - intros j. rewrite (i_fl _ _ _ HI). split.
      + intros [H1 [H2 H3]]. split; [exact H1|]. split; [|discriminate].
        destruct (Cases j) as [[-> C]|[[N [C1 [C2 C3]]]|[N [C1 C2]]]]; congruence.
      + intros [H1 [H2 _]]. split; [exact H1|].
        destruct (Cases j) as [[-> C]|[[N [C1 [C2 C3]]]|[N [C1 C2]]]]; [congruence|congruence|].
        split; congruence.
    - apply (i_flargs _ _ _ HI).
    - intros j a Hj. destruct (i_calls _ _ _ HI j a Hj) as [o' [D1 [D2 D3]]]. exists o'. split; [exact D1|]. split; [exact D2|].
      destruct (Cases j) as [[-> C]|[[N [C1 [C2 C3]]]|[N [C1 C2]]]].
      + rewrite C. unfold started. auto.
      + rewrite C3 in D3. unfold started in D3. exfalso. intuition discriminate.
      + now rewrite C2.
    - intros j Hj Hst. apply (i_called _ _ _ HI j Hj). destruct (Cases j) as [[-> C]|[[N [C1 [C2 C3]]]|[N [C1 C2]]]].
      + unfold started. auto.
      + rewrite C2 in Hst. unfold started in Hst. exfalso. intuition discriminate.
      + now rewrite <- C2.
    - apply (i_callnd _ _ _ HI).
    - intros e' He'. destruct (i_rep _ _ _ HI e' He') as [j [J1 [J2 J3]]]. exists j. split; [exact J1|]. split; [|exact J3].
      destruct (Cases j) as [[-> C]|[[N [C1 [C2 C3]]]|[N [C1 C2]]]]; congruence.
    - intros _ j Hj Hf. apply (i_fail _ _ _ HI He j Hj).
      destruct (Cases j) as [[-> C]|[[N [C1 [C2 C3]]]|[N [C1 C2]]]]; congruence.
    - intros _ j Hj Hf. apply (i_nodrop _ _ _ HI He j Hj).
      destruct (Cases j) as [[-> C]|[[N [C1 [C2 C3]]]|[N [C1 C2]]]]; congruence.
    - discriminate.
    - intros e' H. apply (i_qerr _ _ _ HI). assert (G : In (IErr e') (aq s ++ map IOp Q)).
      { destruct (Z.eqb _ 0); [|exact H]. apply in_app_or in H. destruct H as [H|[H|[]]]; [exact H|discriminate]. }
      apply in_app_or in G. destruct G as [G|G]; [exact G|]. apply in_map_iff in G. destruct G as [x [X _]]. discriminate.
    - rewrite (i_rem _ _ _ HI), Hrem.
      assert (NS : ~ In ISentinel (aq s ++ map IOp Q)).
      { intros H. apply in_app_or in H. destruct H as [H|H].
        - pose proof (proj1 (i_sent _ _ _ HI) H) as H9. clear H. rename H9 into H. specialize (H i Hi). congruence.
        - apply in_map_iff in H. destruct H as [x [X _]]. discriminate. }
      destruct (Z.eqb_spec (Z.of_nat (S (notdone st' n)) - 1) 0) as [Z0|Z0].
      + split; [|intros _; apply in_or_app; right; now left]. intros _. apply notdone_zero. lia.
      + split; [intros H; destruct (NS H)|]. intros H. apply notdone_zero in H. lia.
    - rewrite (i_rem _ _ _ HI), Hrem. lia.
  Qed.

  Lemma finish_inv st s i o args : inv (Some i) st s -> nth_error (gops g) i = Some o -> st i = Run ->
    lookups F (oin o) = Some args -> exists st', inv None st' (finish sem unpack g cons i args s).
  Proof.
    intros HI Ho Hr Ha. unfold finish. rewrite Ho. destruct (run_op sem unpack i o args) as [rs|e] eqn:Er.
    - destruct (aerr s) eqn:Ee.
      + exists (sset st i Drop). unfold on_op_done. rewrite Ee. eapply drop_inv; eassumption.
      + eapply good_inv; eassumption.
    - eexists. eapply bad_inv; eassumption.
  Qed.

  (** Taking op i off the queue and starting it. *)
  Lemma start_inv st s i o q args : inv None st s -> aq s = IOp i :: q -> nth_error (gops g) i = Some o ->
    lookups F (oin o) = Some args ->
    st i = Que /\
    inv (Some i) (sset st i Run) (AState (aenv s) (apend s) (arc s) q (aremaining s) (aerr s)
        (ainflight s) (areport s) Running ((i, args) :: acalls s)).
  Proof.
    intros HI Hq Ho Ha. pose proof (nth_lt i o Ho) as Hi.
    assert (HQ : st i = Que) by (apply (i_q _ _ _ HI); rewrite Hq; now left). split; [exact HQ|].
    assert (Hs : forall j, isdone (sset st i Run j) = isdone (st j)) by (apply sset_isdone; congruence).
    assert (Hne : forall j x, x <> Que -> x <> Run -> (sset st i Run j = x <-> st j = x)).
    { intros j x X1 X2. destruct (Nat.eq_dec j i) as [->|N]; [rewrite sset_same; split; congruence|now rewrite sset_other]. }
    assert (Hnd : NoDup (i :: qops q)) by (pose proof (i_qnd _ _ _ HI) as H; rewrite Hq in H; exact H).
    inversion Hnd as [|? ? Hni Hnd']; subst.
    assert (Hcall : ~ In i (map fst (acalls s))).
    { intros H. apply in_map_iff in H. destruct H as [[j a] [J1 J2]]. cbn in J1. subst j.
      destruct (i_calls _ _ _ HI i a J2) as [_ [_ [_ D3]]]. rewrite HQ in D3. unfold started in D3. intuition discriminate. }
    constructor; cbn [aenv apend arc aq aremaining aerr ainflight areport amain acalls].
    - intros j oj Hj. rewrite (unres_same st); [apply (i_pend _ _ _ HI j oj Hj)|exact Hs].
    - intros j oj Hj. rewrite Hne by discriminate. apply (i_wait _ _ _ HI j oj Hj).
    - intros k. rewrite (usesg_same st) by exact Hs. apply (i_rc _ _ _ HI).
    - intros k Hk Hu. rewrite (resolved_same st) in Hk by exact Hs. rewrite (usesg_same st) in Hu by exact Hs.
      apply (i_env _ _ _ HI); auto.
    - intros j oj Hj Hd. apply (i_done _ _ _ HI j oj Hj). rewrite Hne in Hd by discriminate. exact Hd.
    - exact Hnd'.
    - intros j. destruct (Nat.eq_dec j i) as [->|N].
      + rewrite sset_same. split; [intros H; apply in_qops in H; tauto|intros [_ H]; discriminate].
      + rewrite sset_other by exact N. rewrite <- (i_q _ _ _ HI), Hq. cbn [In]. split; [auto|intros [H|H]; [congruence|exact H]].
    - apply (i_flnd _ _ _ HI).
    - intros j. rewrite (i_fl _ _ _ HI). destruct (Nat.eq_dec j i) as [->|N].
      + split; [intros [_ [H _]]; congruence|intros [_ [_ H]]; congruence].
      + rewrite sset_other by exact N. split; intros [H1 [H2 H3]]; repeat split; auto; congruence.
    - apply (i_flargs _ _ _ HI).
    - intros j a [Hj|Hj].
      + injection Hj as <- <-. exists o. split; [exact Ho|]. split; [exact Ha|]. rewrite sset_same. left. reflexivity.
      + destruct (i_calls _ _ _ HI j a Hj) as [o' [D1 [D2 D3]]]. exists o'. split; [exact D1|]. split; [exact D2|].
        destruct (Nat.eq_dec j i) as [->|N]; [rewrite sset_same; left; reflexivity|now rewrite sset_other].
    - intros j Hj Hst. cbn [map fst In]. destruct (Nat.eq_dec j i) as [->|N]; [now left|]. right.
      apply (i_called _ _ _ HI j Hj). rewrite sset_other in Hst by exact N. exact Hst.
    - cbn [map fst]. constructor; [exact Hcall|apply (i_callnd _ _ _ HI)].
    - intros e' He'. destruct (i_rep _ _ _ HI e' He') as [j [J1 [J2 J3]]]. exists j. split; [exact J1|]. split; [|exact J3].
      rewrite sset_other; [exact J2|congruence].
    - intros H0 j Hj Hf. apply (i_fail _ _ _ HI H0 j Hj). apply Hne in Hf; [exact Hf|discriminate|discriminate].
    - intros H0 j Hj Hf. apply (i_nodrop _ _ _ HI H0 j Hj). apply Hne in Hf; [exact Hf|discriminate|discriminate].
    - intros H0. destruct (i_err _ _ _ HI H0) as [[j [J1 J2]] [e He]]. split.
      + exists j. split; [exact J1|]. rewrite sset_other; [exact J2|congruence].
      + exists e. rewrite Hq in He. destruct He as [He|He]; [discriminate|exact He].
    - intros e' H. apply (i_qerr _ _ _ HI). rewrite Hq. now right.
    - assert (X : In ISentinel q <-> In ISentinel (aq s)).
      { rewrite Hq. cbn [In]. split; [auto|intros [H|H]; [discriminate|exact H]]. }
      rewrite X, (i_sent _ _ _ HI). split; intros H j Hj; specialize (H j Hj); apply Hne in H; auto; discriminate.
    - rewrite (notdone_same st) by exact Hs. apply (i_rem _ _ _ HI).
  Qed.
End Inv.
