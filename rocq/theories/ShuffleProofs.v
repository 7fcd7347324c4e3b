(** The worker shuffle over the network. *)
From stdpp Require Import gmap relations.
From Verif Require Import NetSpec NetModel NetProofs CollModel CollProofs.

Section Shuffle.
  Context {O : Type}.
  Notation msg := (val O).
  Notation prg := (prog msg cexn).
  Notation step := (@net_step msg cexn (option msg)).
  Variable routing : list (nat * nat).
  Hypothesis rnd : NoDup (map fst routing).
  Variable R : list nat.
  Hypothesis Rall : forall t s, assoc routing t = Some s -> In t R /\ In s R.
  Variable v : nat -> msg.

  Definition rcv (b a : nat) : bool := match assoc routing b with Some s => Nat.eqb s a && negb (Nat.eqb a b) | None => false end.
  Definition tail_of (r : nat) : prg (option msg) :=
    match assoc routing r with
    | Some src => if Nat.eqb src r then Ret (Some (v r)) else Recv src (fun m => Ret (Some m))
    | None => Ret None
    end.
  Definition res (r : nat) : option msg := match assoc routing r with Some s => Some (v s) | None => None end.

  Fixpoint targets (r : nat) (l : list (nat * nat)) : list nat :=
    match l with
    | [] => []
    | (t, s) :: l' => if Nat.eqb s r && negb (Nat.eqb t r) then t :: targets r l' else targets r l'
    end.
  Fixpoint send_all (l : list nat) (m : msg) (k : prg (option msg)) : prg (option msg) :=
    match l with [] => k | t :: l' => Send t m (send_all l' m k) end.
  Lemma shuffle_sends_eq r l m k : shuffle_sends r l m k = send_all (targets r l) m k.
  Proof. induction l as [|[t s] l IH]; cbn; [reflexivity|]. destruct (_ && _); cbn; congruence. Qed.
  Lemma shuffle_eq r : shuffle r routing (v r) = send_all (targets r routing) (v r) (tail_of r).
  Proof. unfold shuffle. rewrite shuffle_sends_eq. reflexivity. Qed.

  Lemma targets_sub r l t : In t (targets r l) -> In t (map fst l).
  Proof using. clear - l. induction l as [|[x s] l IH]; cbn; [tauto|]. destruct (_ && _); cbn; tauto. Qed.
  Lemma targets_nodup r l : NoDup (map fst l) -> NoDup (targets r l).
  Proof using.
    clear - l. induction l as [|[t s] l IH]; cbn; [intros; constructor|]. intros H. apply NoDup_cons in H. destruct H as [H1 H2].
    destruct (_ && _); [|auto]. apply NoDup_cons. split; [|auto]. rewrite elem_of_list_In in *. intros G. apply H1. eapply targets_sub, G.
  Qed.
  Lemma targets_in r l t : NoDup (map fst l) -> (In t (targets r l) <-> assoc l t = Some r /\ t <> r).
  Proof using.
    clear - l. induction l as [|[x s] l IH]; intros H; [unfold assoc; cbn; split; [tauto|intros [H1 _]; discriminate]|].
    cbn [map fst] in H. apply NoDup_cons in H. destruct H as [H1 H2]. specialize (IH H2). rewrite elem_of_list_In in H1.
    unfold assoc in *. cbn [targets List.find fst]. destruct (Nat.eqb_spec x t) as [->|N].
    - assert (F : ~ In t (targets r l)) by (intros G; apply H1; eapply targets_sub, G).
      destruct (Nat.eqb_spec s r) as [->|Ns]; cbn [andb].
      + destruct (Nat.eqb_spec t r) as [->|Nt]; cbn [negb]; [split; [tauto|intros [_ ?]; congruence]|].
        split; [intros _; split; [reflexivity|exact Nt]|intros _; now left].
      + split; [tauto|intros [E _]; congruence].
    - destruct (Nat.eqb s r && negb (Nat.eqb x r)); [|exact IH]. cbn [In]. rewrite <- IH. split; [intros [?|?]; [congruence|auto]|auto].
  Qed.
  Lemma targets_rcv r t : In t (targets r routing) <-> rcv t r = true.
  Proof.
    rewrite targets_in by exact rnd. unfold rcv. destruct (assoc routing t) as [s|]; [|split; [intros [? _]; discriminate|discriminate]].
    rewrite andb_true_iff, negb_true_iff, Nat.eqb_eq, Nat.eqb_neq. split; intros [H1 H2]; split; congruence.
  Qed.

  (** one party performs all its sends, each delivered at once *)
  Lemma send_phase r m k l : forall P c B, NoDup l -> P !! r = Some (send_all l m k) ->
    (forall t, In t l -> B !! (r, t, cget c (r, t)) = None) ->
    exists P' c' B', rtc step (Net P c ∅ B false) (Net P' c' ∅ B' false) /\
      P' !! r = Some k /\ (forall x, x <> r -> P' !! x = P !! x) /\
      (forall t, In t l -> cget c' (r, t) = S (cget c (r, t))) /\
      (forall x t, x <> r \/ ~ In t l -> cget c' (x, t) = cget c (x, t)) /\
      (forall t, In t l -> B' !! (r, t, cget c (r, t)) = Some m) /\
      (forall x t q, x <> r \/ ~ In t l \/ q <> cget c (r, t) -> B' !! (x, t, q) = B !! (x, t, q)).
  Proof.
    induction l as [|t l IH]; intros P c B Hnd HP HB.
    - exists P, c, B. split; [apply rtc_refl|]. repeat split; auto; intros ? [].
    - apply NoDup_cons in Hnd. destruct Hnd as [Ht Hnd]. rewrite elem_of_list_In in Ht.
      set (P1 := <[r := send_all l m k]> P). set (c1 := ctick c (r, t)). set (B1 := <[(r, t, cget c (r, t)) := m]> B).
      assert (ST : rtc step (Net P c ∅ B false) (Net P1 c1 ∅ B1 false)).
      { eapply rtc_l; [apply (net_send P c ∅ B false r t m (send_all l m k) HP)|].
        eapply rtc_l; [apply net_deliver; [apply lookup_insert|apply HB; now left]|].
        rewrite delete_insert by apply lookup_empty. apply rtc_refl. }
      destruct (IH P1 c1 B1 Hnd) as [P' [c' [B' [S1 [S2 [S3 [S4 [S5 [S6 S7]]]]]]]]].
      { apply lookup_insert. }
      { intros x Hx. unfold c1. assert (t <> x) by (intros ->; tauto). rewrite cget_tick_other by congruence.
        unfold B1. rewrite lookup_insert_ne by congruence. apply HB. now right. }
      exists P', c', B'. split; [eapply rtc_transitive; eassumption|]. split; [exact S2|]. split.
      { intros x Nx. rewrite S3 by exact Nx. unfold P1. by rewrite lookup_insert_ne by congruence. }
      split.
      { intros x [<-|Hx].
        - rewrite S5 by auto. unfold c1. apply cget_tick_same.
        - rewrite S4 by exact Hx. unfold c1. rewrite cget_tick_other; [reflexivity|]. intros E. injection E as ->. tauto. }
      split.
      { intros x y Hxy. rewrite S5 by (destruct Hxy as [?|?]; [auto|right; intros ?; apply H; now right]).
        unfold c1. apply cget_tick_other. intros E. injection E as -> ->. destruct Hxy as [?|?]; [congruence|]. apply H. now left. }
      split.
      { intros x [<-|Hx].
        - rewrite S7 by auto. unfold B1. apply lookup_insert.
        - assert (t <> x) by (intros ->; tauto). specialize (S6 x Hx). unfold c1 in S6. rewrite cget_tick_other in S6 by congruence. exact S6. }
      intros x y q Hxy. destruct (decide (x = r)) as [->|N].
      + destruct (decide (y = t)) as [->|Ny].
        * assert (q <> cget c (r, t)) by (destruct Hxy as [?|[H|?]]; [congruence|destruct H; now left|assumption]).
          rewrite S7 by auto. unfold B1. rewrite lookup_insert_ne by congruence. reflexivity.
        * rewrite S7.
          -- unfold B1. rewrite lookup_insert_ne by congruence. reflexivity.
          -- right. destruct Hxy as [?|[H|H]]; [congruence|left; intros G; apply H; now right|]. right. unfold c1. rewrite cget_tick_other by congruence. exact H.
      + rewrite S7 by auto. unfold B1. rewrite lookup_insert_ne by congruence. reflexivity.
  Qed.

  (** the global state when the parties in D1 have sent and those in D2 have finished *)
  Definition b2n (b : bool) : nat := if b then 1 else 0.
  Variable c : gmap (nat * nat) nat.
  Hypothesis HM : matched c.
  Definition phase (D1 D2 : nat -> bool) (s : net msg cexn (option msg)) : Prop :=
    exists P c' B, s = Net P c' ∅ B false /\
      (forall a, In a R -> P !! a = Some (if D2 a then Ret (res a) else if D1 a then tail_of a else shuffle a routing (v a))) /\
      (forall a, ~ In a R -> P !! a = None) /\
      (forall x y, cget c' (x, y) = cget c (x, y) + b2n (D1 x && rcv y x) + b2n (D2 x && rcv x y)) /\
      (forall a b q, B !! (a, b, q) = if D1 a && rcv b a && negb (D2 b) && Nat.eqb q (cget c (a, b)) then Some (v a) else None).

  Definition add (D : nat -> bool) (a : nat) : nat -> bool := fun x => Nat.eqb x a || D x.

  Lemma phase_send D1 s a : phase D1 (fun _ => false) s -> In a R -> D1 a = false ->
    exists s', rtc step s s' /\ phase (add D1 a) (fun _ => false) s'.
  Proof.
    intros [P [c' [B [-> [H1 [H2 [H3 H4]]]]]]] Ha Hd.
    pose proof (H1 a Ha) as HP. rewrite Hd in HP. rewrite shuffle_eq in HP.
    assert (Hc : forall t, cget c' (a, t) = cget c (a, t)).
    { intros t. rewrite H3, Hd. cbn. lia. }
    destruct (send_phase a (v a) (tail_of a) (targets a routing) P c' B) as [P' [c1 [B1 [S1 [S2 [S3 [S4 [S5 [S6 S7]]]]]]]]].
    - apply targets_nodup, rnd.
    - exact HP.
    - intros t Ht. rewrite H4, Hd. reflexivity.
    - eexists. split; [exact S1|]. exists P', c1, B1. split; [reflexivity|]. split; [|split; [|split]].
      + intros x Hx. unfold add. destruct (Nat.eqb_spec x a) as [->|N]; cbn [orb]; [exact S2|]. rewrite S3 by exact N. apply H1, Hx.
      + intros x Hx. rewrite S3; [auto|]. intros ->. tauto.
      + intros x y. unfold add. destruct (Nat.eqb_spec x a) as [->|N]; cbn [orb andb b2n].
        * destruct (rcv y a) eqn:E; cbn.
          -- rewrite S4 by (apply targets_rcv, E). rewrite Hc. lia.
          -- rewrite S5 by (right; rewrite targets_rcv; congruence). rewrite Hc. lia.
        * rewrite S5 by auto. rewrite H3. reflexivity.
      + intros x y q. unfold add. destruct (Nat.eqb_spec x a) as [->|N]; cbn [orb andb negb].
        * rewrite andb_true_r. destruct (rcv y a) eqn:E; cbn.
          -- destruct (Nat.eqb_spec q (cget c (a, y))) as [->|Nq].
             ++ rewrite <- Hc. apply S6, targets_rcv, E.
             ++ rewrite S7 by (right; right; rewrite Hc; exact Nq). rewrite H4, Hd. reflexivity.
          -- rewrite S7 by (right; left; rewrite targets_rcv; congruence). rewrite H4, Hd. reflexivity.
        * rewrite S7 by auto. rewrite H4. reflexivity.
  Qed.

  (** no pair of distinct parties sends to each other *)
  Hypothesis no_swap : forall a b, a <> b -> assoc routing a = Some b -> assoc routing b <> Some a.
  Lemma rcv_anti a b : rcv a b = true -> rcv b a = false.
  Proof.
    unfold rcv. destruct (assoc routing a) as [s|] eqn:E; [|discriminate]. rewrite andb_true_iff, negb_true_iff, Nat.eqb_eq, Nat.eqb_neq.
    intros [-> N]. destruct (assoc routing b) as [s'|] eqn:E'; [|reflexivity]. destruct (Nat.eqb_spec s' a) as [->|]; [|reflexivity].
    destruct (no_swap a b (not_eq_sym N) E E').
  Qed.

  Lemma phase_recv D2 s b : phase (fun _ => true) D2 s -> In b R -> D2 b = false ->
    exists s', rtc step s s' /\ phase (fun _ => true) (add D2 b) s'.
  Proof.
    intros [P [c' [B [-> [H1 [H2 [H3 H4]]]]]]] Hb Hd.
    pose proof (H1 b Hb) as HP. rewrite Hd in HP. unfold tail_of in HP.
    destruct (assoc routing b) as [src|] eqn:Es; [destruct (Nat.eqb_spec src b) as [->|N]|].
    - assert (Rb : forall y, rcv b y = false).
      { intros y. unfold rcv. rewrite Es. destruct (Nat.eqb_spec b y) as [->|]; [now rewrite Nat.eqb_refl|reflexivity]. }
      eexists. split; [apply rtc_refl|]. exists P, c', B. split; [reflexivity|]. split; [|split; [exact H2|split]].
      + intros a Ha. unfold add. destruct (Nat.eqb_spec a b) as [->|Na]; cbn [orb]; [unfold res; now rewrite Es|apply H1, Ha].
      + intros x y. rewrite H3. unfold add. destruct (Nat.eqb_spec x b) as [->|Nx]; cbn [orb]; [rewrite Rb, !andb_false_r; reflexivity|reflexivity].
      + intros a y q. rewrite H4. unfold add. destruct (Nat.eqb_spec y b) as [->|Ny]; cbn [orb negb]; [rewrite Rb; reflexivity|reflexivity].
    - assert (Rb : rcv b src = true) by (unfold rcv; rewrite Es, Nat.eqb_refl; destruct (Nat.eqb_spec src b); [congruence|reflexivity]).
      assert (Ru : forall y, rcv b y = true -> y = src).
      { intros y. unfold rcv. rewrite Es. rewrite andb_true_iff, Nat.eqb_eq. intros [? _]. congruence. }
      assert (Hk : cget c' (b, src) = cget c (src, b)).
      { rewrite H3, Hd. rewrite (rcv_anti b src Rb). cbn. rewrite (HM b src). lia. }
      assert (HB : B !! (src, b, cget c' (b, src)) = Some (v src)).
      { rewrite H4, Hk, Rb, Hd, Nat.eqb_refl. reflexivity. }
      eexists. split; [eapply rtc_l; [apply (net_recv P c' ∅ B false b src _ (v src) HP HB)|apply rtc_refl]|].
      eexists _, _, _. split; [reflexivity|]. split; [|split; [|split]].
      + intros a Ha. unfold add. destruct (Nat.eqb_spec a b) as [->|Na]; cbn [orb].
        * rewrite lookup_insert. unfold res. now rewrite Es.
        * rewrite lookup_insert_ne by congruence. apply H1, Ha.
      + intros a Ha. rewrite lookup_insert_ne by (intros ->; tauto). auto.
      + intros x y. unfold add. destruct (decide ((b, src) = (x, y))) as [E|E].
        * injection E as <- <-. rewrite cget_tick_same, H3, Hd, Nat.eqb_refl, Rb. cbn. lia.
        * rewrite cget_tick_other by exact E. rewrite H3. destruct (Nat.eqb_spec x b) as [->|Nx]; cbn [orb]; [|reflexivity].
          rewrite Hd. cbn. destruct (rcv b y) eqn:Ey; [apply Ru in Ey; congruence|reflexivity].
      + intros a y q. unfold add. destruct (decide ((src, b, cget c' (b, src)) = (a, y, q))) as [E|E].
        * injection E as <- <- <-. rewrite lookup_delete, Nat.eqb_refl. cbn. rewrite andb_false_r. reflexivity.
        * rewrite lookup_delete_ne by exact E. rewrite H4. destruct (Nat.eqb_spec y b) as [->|Ny]; cbn [orb negb]; [|reflexivity].
          rewrite Hd. cbn [negb andb]. rewrite andb_false_r, andb_true_r. cbn [andb].
          destruct (rcv b a) eqn:Ea; [|reflexivity]. apply Ru in Ea. subst a. cbn [andb].
          destruct (Nat.eqb_spec q (cget c (src, b))) as [->|]; [rewrite Hk in E; congruence|reflexivity].
    - assert (Rb : forall y, rcv b y = false) by (intros y; unfold rcv; now rewrite Es).
      eexists. split; [apply rtc_refl|]. exists P, c', B. split; [reflexivity|]. split; [|split; [exact H2|split]].
      + intros a Ha. unfold add. destruct (Nat.eqb_spec a b) as [->|Na]; cbn [orb]; [unfold res; now rewrite Es|apply H1, Ha].
      + intros x y. rewrite H3. unfold add. destruct (Nat.eqb_spec x b) as [->|Nx]; cbn [orb]; [rewrite Rb, !andb_false_r; reflexivity|reflexivity].
      + intros a y q. rewrite H4. unfold add. destruct (Nat.eqb_spec y b) as [->|Ny]; cbn [orb negb]; [rewrite Rb; reflexivity|reflexivity].
  Qed.

  Definition adds (l : list nat) (D : nat -> bool) : nat -> bool := fun x => existsb (Nat.eqb x) l || D x.
  Lemma phase_ext D1 D1' D2 D2' s : (forall x, In x R -> D1 x = D1' x) -> (forall x, In x R -> D2 x = D2' x) ->
    phase D1 D2 s -> phase D1' D2' s.
  Proof.
    intros E1 E2 [P [c' [B [-> [H1 [H2 [H3 H4]]]]]]].
    assert (Rr : forall b a, rcv b a = true -> In a R /\ In b R).
    { intros b a. unfold rcv. destruct (assoc routing b) as [s|] eqn:E; [|discriminate]. rewrite andb_true_iff, Nat.eqb_eq. intros [-> _].
      destruct (Rall b a E). auto. }
    exists P, c', B. split; [reflexivity|]. split; [|split; [exact H2|split]].
    - intros a Ha. rewrite <- E1, <- E2 by exact Ha. auto.
    - intros x y. rewrite H3. f_equal; [f_equal|].
      + destruct (rcv y x) eqn:E; [|now rewrite !andb_false_r]. rewrite E1; [reflexivity|]. apply Rr in E. tauto.
      + destruct (rcv x y) eqn:E; [|now rewrite !andb_false_r]. rewrite E2; [reflexivity|]. apply Rr in E. tauto.
    - intros a b q. rewrite H4. destruct (rcv b a) eqn:E; [|now rewrite !andb_false_r]. apply Rr in E. destruct E. now rewrite E1, E2.
  Qed.
  Lemma phase_send_all l : forall D1 s, (forall x, In x l -> In x R) -> phase D1 (fun _ => false) s ->
    exists s', rtc step s s' /\ phase (adds l D1) (fun _ => false) s'.
  Proof.
    induction l as [|a l IH]; intros D1 s Hl HP; [exists s; split; [apply rtc_refl|exact HP]|].
    destruct (IH D1 s) as [s1 [S1 H1]]; [intros x Hx; apply Hl; now right|exact HP|].
    destruct (adds l D1 a) eqn:Ea.
    - exists s1. split; [exact S1|]. eapply phase_ext; [| |exact H1]; [|reflexivity]. intros x _. unfold adds in *. cbn [existsb].
      destruct (Nat.eqb_spec x a) as [->|]; [rewrite Ea; reflexivity|reflexivity].
    - destruct (phase_send (adds l D1) s1 a H1) as [s2 [S2 H2]]; [apply Hl; now left|exact Ea|].
      exists s2. split; [eapply rtc_transitive; eassumption|]. eapply phase_ext; [| |exact H2]; [|reflexivity].
      intros x _. unfold adds, add. cbn [existsb]. now rewrite orb_assoc.
  Qed.
  Lemma phase_recv_all l : forall D2 s, (forall x, In x l -> In x R) -> phase (fun _ => true) D2 s ->
    exists s', rtc step s s' /\ phase (fun _ => true) (adds l D2) s'.
  Proof.
    induction l as [|a l IH]; intros D2 s Hl HP; [exists s; split; [apply rtc_refl|exact HP]|].
    destruct (IH D2 s) as [s1 [S1 H1]]; [intros x Hx; apply Hl; now right|exact HP|].
    destruct (adds l D2 a) eqn:Ea.
    - exists s1. split; [exact S1|]. eapply phase_ext; [| |exact H1]; [reflexivity|]. intros x _. unfold adds in *. cbn [existsb].
      destruct (Nat.eqb_spec x a) as [->|]; [rewrite Ea; reflexivity|reflexivity].
    - destruct (phase_recv (adds l D2) s1 a H1) as [s2 [S2 H2]]; [apply Hl; now left|exact Ea|].
      exists s2. split; [eapply rtc_transitive; eassumption|]. eapply phase_ext; [| |exact H2]; [reflexivity|].
      intros x _. unfold adds, add. cbn [existsb]. now rewrite orb_assoc.
  Qed.

  Lemma shuffle_ends : exists c', matched c' /\
    every_schedule_ends_in step (start (group R (fun r => shuffle r routing (v r))) c)
                                (start (group R (fun r => Ret (res r))) c').
  Proof.
    set (s0 := start (group R (fun r => shuffle r routing (v r))) c).
    assert (P0 : phase (fun _ => false) (fun _ => false) s0).
    { eexists _, _, _. split; [reflexivity|]. split; [|split; [|split]].
      - intros a Ha. apply (group_in R (fun r => shuffle r routing (v r))), Ha.
      - intros a Ha. apply group_out, Ha.
      - intros x y. cbn. lia.
      - intros a b q. reflexivity. }
    destruct (phase_send_all R _ s0 (fun x H => H) P0) as [s1 [S1 H1]].
    assert (In_ex : forall x, In x R -> existsb (Nat.eqb x) R = true).
    { intros x Hx. apply existsb_exists. exists x. split; [exact Hx|apply Nat.eqb_refl]. }
    assert (H1' : phase (fun _ => true) (fun _ => false) s1).
    { eapply phase_ext; [| |exact H1]; [|reflexivity]. intros x Hx. unfold adds. now rewrite In_ex. }
    destruct (phase_recv_all R _ s1 (fun x H => H) H1') as [s2 [S2 H2]].
    assert (H2' : phase (fun _ => true) (fun _ => true) s2).
    { eapply phase_ext; [| |exact H2]; [reflexivity|]. intros x Hx. unfold adds. now rewrite In_ex. }
    destruct H2' as [P [c' [B [-> [G1 [G2 [G3 G4]]]]]]].
    assert (EB : B = ∅).
    { apply map_eq. intros [[a b] q]. rewrite G4, lookup_empty. rewrite andb_false_r. reflexivity. }
    assert (EP : P = group R (fun r => Ret (res r))).
    { apply map_eq. intros a. destruct (in_dec Nat.eq_dec a R) as [Ha|Ha].
      - rewrite G1, group_in by exact Ha. reflexivity.
      - rewrite G2, group_out by exact Ha. reflexivity. }
    subst B P. exists c'. split.
    - intros a b. rewrite !G3. cbn [andb]. rewrite (HM a b). lia.
    - apply net_determinate; [apply wf_start|eapply rtc_transitive; eassumption|]. apply finished_nf.
      intros r p Hp. destruct (in_dec Nat.eq_dec r R) as [Hr|Hr].
      + rewrite group_in in Hp by exact Hr. injection Hp as <-. exact I.
      + rewrite group_out in Hp by exact Hr. discriminate.
  Qed.
End Shuffle.

Section Deadlock.
  Context {O : Type}.
  Notation msg := (val O).
  Notation step := (@net_step msg cexn (option msg)).
  Variable routing : list (nat * nat).
  Hypothesis rnd : NoDup (map fst routing).
  Variable R : list nat.
  Variable v : nat -> msg.
  Variable c : gmap (nat * nat) nat.
  Hypothesis HM : matched c.

  (** what x can be doing while it and y send to each other *)
  Definition stuckish (x y : nat) (s : net msg cexn (option msg)) : Prop :=
    (exists l k, NoDup l /\ ~ In x l /\ parties s !! x = Some (send_all l (v x) (Recv y k)) /\
       (In y l /\ cget (ctr s) (x, y) = cget c (x, y) \/ ~ In y l /\ cget (ctr s) (x, y) = S (cget c (x, y)))) /\
    (forall q m, infl s !! (x, y, q) = Some m -> q <= cget c (x, y)) /\
    (forall q m, mbox s !! (x, y, q) = Some m -> q <= cget c (x, y)).

  Lemma stuckish_step x y s t : x <> y -> stuckish x y s -> stuckish y x s -> step s t -> stuckish x y t.
  Proof.
    intros N [[l [k [L1 [L2 [L3 L4]]]]] [I1 B1]] [[l' [k' [L1' [L2' [L3' L4']]]]] [I2 B2]] H.
    destruct H as [P c0 I B o r to m kk HP|P c0 I B o key m HI HB|P c0 I B o key m m' HI HB|P c0 I B o r frm kk m HP HB];
      cbn [parties ctr infl mbox] in *.
    - unfold stuckish. cbn [parties ctr infl mbox]. destruct (decide (r = x)) as [->|Nr].
      + rewrite L3 in HP. injection HP as HP. destruct l as [|t0 l]; [discriminate|]. cbn [send_all] in HP. injection HP as -> <- <-.
        apply NoDup_cons in L1. destruct L1 as [L0 L1]. rewrite elem_of_list_In in L0. split; [|split; [|exact B1]].
        * exists l, k. split; [exact L1|]. split; [intros G; apply L2; now right|]. split; [apply lookup_insert|].
          destruct (decide (to = y)) as [->|Ny].
          -- right. split; [exact L0|]. rewrite cget_tick_same. destruct L4 as [[_ L4]|[L4 _]]; [congruence|destruct L4; now left].
          -- rewrite cget_tick_other by congruence. destruct L4 as [[L4 E]|[L4 E]]; [left|right]; (split; [|exact E]).
             ++ destruct L4 as [?|?]; [congruence|assumption].
             ++ intros G. apply L4. now right.
        * intros q m' Hq. destruct (decide ((x, to, cget c0 (x, to)) = (x, y, q))) as [E|E].
          -- injection E as -> <-. destruct L4 as [[_ L4]|[L4 _]]; [lia|destruct L4; now left].
          -- rewrite lookup_insert_ne in Hq by exact E. eauto.
      + split; [|split; [|exact B1]].
        * exists l, k. split; [exact L1|]. split; [exact L2|]. rewrite lookup_insert_ne by exact Nr. split; [exact L3|].
          rewrite cget_tick_other by congruence. exact L4.
        * intros q m' Hq. rewrite lookup_insert_ne in Hq by congruence. eauto.
    - unfold stuckish. cbn [parties ctr infl mbox]. split; [eauto 10|]. split.
      + intros q m' Hq. apply lookup_delete_Some in Hq. destruct Hq. eauto.
      + intros q m' Hq. destruct (decide (key = (x, y, q))) as [->|E]; [eauto|]. rewrite lookup_insert_ne in Hq by exact E. eauto.
    - unfold stuckish. cbn [parties ctr infl mbox]. split; [eauto 10|]. split; [|exact B1].
      intros q m'' Hq. apply lookup_delete_Some in Hq. destruct Hq. eauto.
    - unfold stuckish. cbn [parties ctr infl mbox]. destruct (decide (r = x)) as [->|Nr].
      + exfalso. rewrite L3 in HP. injection HP as HP. destruct l as [|t0 l]; [|discriminate]. cbn [send_all] in HP. injection HP as <- E.
        destruct L4 as [[[] _]|[_ L4]]. rewrite L4 in HB. apply B2 in HB. rewrite (HM y x) in HB. lia.
      + split; [|split; [exact I1|]].
        * exists l, k. split; [exact L1|]. split; [exact L2|]. rewrite lookup_insert_ne by exact Nr. split; [exact L3|].
          rewrite cget_tick_other by congruence. exact L4.
        * intros q m' Hq. apply lookup_delete_Some in Hq. destruct Hq. eauto.
  Qed.

  Lemma stuckish_start x y : x <> y -> In x R -> assoc routing x = Some y -> assoc routing y = Some x ->
    stuckish x y (start (group R (fun r => shuffle r routing (v r))) c).
  Proof.
    intros N Hx Ax Ay. unfold stuckish, start. cbn [parties ctr infl mbox]. split; [|split; intros ? ?; rewrite lookup_empty; discriminate].
    exists (targets x routing), (fun m => Ret (Some m)). split; [apply targets_nodup, rnd|]. split.
    { rewrite targets_in by exact rnd. intros [_ G]. congruence. }
    split.
    - rewrite group_in by exact Hx. f_equal. rewrite (shuffle_eq routing v x). f_equal. unfold tail_of. rewrite Ax.
      destruct (Nat.eqb_spec y x); [congruence|reflexivity].
    - left. split; [|reflexivity]. rewrite targets_in by exact rnd. split; [exact Ay|congruence].
  Qed.

  Lemma swap_never_returns x y s : x <> y -> In x R -> In y R -> assoc routing x = Some y -> assoc routing y = Some x ->
    rtc step (start (group R (fun r => shuffle r routing (v r))) c) s ->
    stuckish x y s /\ stuckish y x s.
  Proof.
    intros N Hx Hy Ax Ay H.
    assert (G : forall s0 s, rtc step s0 s -> stuckish x y s0 /\ stuckish y x s0 -> stuckish x y s /\ stuckish y x s).
    { intros a b Hr. induction Hr as [|a u b S _ IH]; [auto|]. intros [G1 G2]. apply IH. split; eapply stuckish_step; eauto. }
    eapply G; [exact H|]. split; apply stuckish_start; auto.
  Qed.
  Lemma stuckish_not_finished x y s : stuckish x y s -> exists p, parties s !! x = Some p /\ ~ finished p.
  Proof.
    intros [[l [k [_ [_ [H _]]]]] _]. eexists. split; [exact H|]. destruct l; cbn; tauto.
  Qed.
End Deadlock.
