(** Proofs about the collectives: every participant's canonical rendezvous run. *)
From stdpp Require Import gmap sorting relations.
From Verif Require Import NetSpec NetModel NetProofs CollModel.

(** The participants [part], each starting with its own program. *)
Definition group {M X A} (part : list nat) (f : nat -> prog M X A) : gmap nat (prog M X A) :=
  list_to_map (map (fun r => (r, f r)) part).
Lemma group_in {M X A} part (f : nat -> prog M X A) r : In r part -> group part f !! r = Some (f r).
Proof.
  unfold group. induction part as [|a l IH]; cbn; [tauto|]. intros [->|H]; [apply lookup_insert|].
  destruct (decide (a = r)) as [->|N]; [apply lookup_insert|]. rewrite lookup_insert_ne by exact N. auto.
Qed.
Lemma group_out {M X A} part (f : nat -> prog M X A) r : ~ In r part -> group part f !! r = None.
Proof.
  unfold group. induction part as [|a l IH]; cbn; [intros _; apply lookup_empty|]. intros H.
  rewrite lookup_insert_ne by tauto. tauto.
Qed.

Lemma sorted_set_in l x : In x (sorted_set l) <-> In x l.
Proof.
  unfold sorted_set. rewrite <- !elem_of_list_In. rewrite merge_sort_Permutation. apply elem_of_remove_dups.
Qed.
Lemma sorted_set_nodup l : NoDup (sorted_set l).
Proof. unfold sorted_set. rewrite merge_sort_Permutation. apply NoDup_remove_dups. Qed.
Lemma sorted_set_root l : l <> [] -> In (root_of (sorted_set l)) l.
Proof.
  intros H. rewrite <- sorted_set_in. destruct (sorted_set l) as [|a l'] eqn:E; [|now left].
  destruct l as [|a l']; [congruence|]. exfalso. assert (G : In a (sorted_set (a :: l'))) by (apply sorted_set_in; now left).
  rewrite E in G. destruct G.
Qed.
Lemma normalize_ok rank world part : (forall r, In r part -> r < world) -> In rank part ->
  normalize rank world part = inl (sorted_set part).
Proof.
  intros H1 H2. unfold normalize. pose proof (sorted_set_in part) as S.
  destruct (sorted_set part) as [|a l] eqn:E; [apply S in H2; destruct H2|]. rewrite <- E in *. clear E.
  replace (existsb (fun r => Nat.leb world r) (sorted_set part)) with false.
  - replace (existsb (Nat.eqb rank) (sorted_set part)) with true; [reflexivity|]. symmetry. apply existsb_exists.
    exists rank. split; [apply S, H2|apply Nat.eqb_refl].
  - symmetry. destruct (existsb _ _) eqn:Ex; [|reflexivity]. apply existsb_exists in Ex. destruct Ex as [x [X1 X2]].
    apply S, H1 in X1. apply Nat.leb_le in X2. lia.
Qed.

Section Runs.
  Context {O A B : Type}.
  Notation msg := (val O).
  Notation prgA := (prog msg cexn A).
  Notation prgB := (prog msg cexn B).
  Variable C : nat -> prgA -> prgB.
  Hypothesis C_recv : forall x r k, C x (Recv r k) = Recv r (fun m => C x (k m)).
  Hypothesis C_send : forall x r m k, C x (Send r m k) = Send r m (C x k).

  Lemma gather_run {S} (f : S -> nat -> msg -> S) root (k : S -> prgA) (v : nat -> msg) (kr : nat -> prgA) ps : forall s P,
    NoDup ps ->
    P !! root = Some (C root (for_recv f s root ps k)) ->
    (forall r, In r ps -> r <> root -> P !! r = Some (C r (Send root (v r) (kr r)))) ->
    exists P', rtc sync P P' /\
      P' !! root = Some (C root (k (fold_left (fun s r => if Nat.eqb r root then s else f s r (v r)) ps s))) /\
      (forall r, In r ps -> r <> root -> P' !! r = Some (C r (kr r))) /\
      (forall x, x <> root -> ~ In x ps -> P' !! x = P !! x).
  Proof.
    induction ps as [|r ps IH]; intros s P Hnd HR HS.
    - exists P. split; [apply rtc_refl|]. split; [exact HR|]. split; [intros r []|auto].
    - apply NoDup_cons in Hnd. destruct Hnd as [Hr Hnd]. rewrite elem_of_list_In in Hr. cbn [for_recv fold_left] in *.
      destruct (Nat.eqb_spec r root) as [->|N].
      + destruct (IH s P Hnd HR) as [P' [H1 [H2 [H3 H4]]]]; [intros x Hx; apply HS; now right|].
        exists P'. split; [exact H1|]. split; [exact H2|]. split.
        * intros x [<-|Hx] Nx; [congruence|auto].
        * intros x Nx Hx. apply H4; [exact Nx|]. intros G. apply Hx. now right.
      + rewrite C_recv in HR. pose proof (HS r (or_introl eq_refl) N) as Hs. rewrite C_send in Hs.
        set (P1 := <[root := C root (for_recv f (f s r (v r)) root ps k)]> (<[r := C r (kr r)]> P)).
        assert (ST : sync P P1).
        { unfold P1. pose proof (sync_step P r root (v r) (C r (kr r)) (fun m => C root (for_recv f (f s r m) root ps k)) N Hs HR) as G. exact G. }
        destruct (IH (f s r (v r)) P1 Hnd) as [P' [H1 [H2 [H3 H4]]]].
        * unfold P1. apply lookup_insert.
        * intros x Hx Nx. unfold P1. rewrite lookup_insert_ne by congruence. rewrite lookup_insert_ne by (intros ->; tauto).
          apply HS; [now right|exact Nx].
        * exists P'. split; [eapply rtc_l; eassumption|]. split; [exact H2|]. split.
          -- intros x [<-|Hx] Nx; [|auto]. rewrite H4 by assumption. unfold P1. rewrite lookup_insert_ne by congruence. apply lookup_insert.
          -- intros x Nx Hx. rewrite H4; [|exact Nx|intros G; apply Hx; now right]. unfold P1.
             rewrite !lookup_insert_ne; [reflexivity| |congruence]. intros ->. apply Hx. now left.
  Qed.

  Lemma scatter_run m root (k : prgA) (kr : nat -> msg -> prgA) ps : forall P,
    NoDup ps ->
    P !! root = Some (C root (for_send m root ps k)) ->
    (forall r, In r ps -> r <> root -> P !! r = Some (C r (Recv root (kr r)))) ->
    exists P', rtc sync P P' /\ P' !! root = Some (C root k) /\
      (forall r, In r ps -> r <> root -> P' !! r = Some (C r (kr r m))) /\
      (forall x, x <> root -> ~ In x ps -> P' !! x = P !! x).
  Proof.
    induction ps as [|r ps IH]; intros P Hnd HR HS.
    - exists P. split; [apply rtc_refl|]. split; [exact HR|]. split; [intros r []|auto].
    - apply NoDup_cons in Hnd. destruct Hnd as [Hr Hnd]. rewrite elem_of_list_In in Hr. cbn [for_send] in *.
      destruct (Nat.eqb_spec r root) as [->|N].
      + destruct (IH P Hnd HR) as [P' [H1 [H2 [H3 H4]]]]; [intros x Hx; apply HS; now right|].
        exists P'. split; [exact H1|]. split; [exact H2|]. split.
        * intros x [<-|Hx] Nx; [congruence|auto].
        * intros x Nx Hx. apply H4; [exact Nx|]. intros G. apply Hx. now right.
      + rewrite C_send in HR. pose proof (HS r (or_introl eq_refl) N) as Hs. rewrite C_recv in Hs.
        set (P1 := <[r := C r (kr r m)]> (<[root := C root (for_send m root ps k)]> P)).
        assert (ST : sync P P1).
        { unfold P1. pose proof (sync_step P root r m (C root (for_send m root ps k)) (fun m => C r (kr r m)) (not_eq_sym N) HR Hs) as G. exact G. }
        destruct (IH P1 Hnd) as [P' [H1 [H2 [H3 H4]]]].
        * unfold P1. rewrite lookup_insert_ne by congruence. apply lookup_insert.
        * intros x Hx Nx. unfold P1. rewrite lookup_insert_ne by (intros ->; tauto). rewrite lookup_insert_ne by congruence.
          apply HS; [now right|exact Nx].
        * exists P'. split; [eapply rtc_l; eassumption|]. split; [exact H2|]. split.
          -- intros x [<-|Hx] Nx; [|auto]. rewrite H4 by assumption. unfold P1. apply lookup_insert.
          -- intros x Nx Hx. rewrite H4; [|exact Nx|intros G; apply Hx; now right]. unfold P1.
             rewrite !lookup_insert_ne; [reflexivity|congruence|]. intros ->. apply Hx. now left.
  Qed.
End Runs.

Section Colls.
  Context {O B : Type}.
  Notation msg := (val O).
  Notation prg := (prog msg cexn).
  Variable world : nat.
  Variable part : list nat.
  Hypothesis part_ne : part <> [].
  Hypothesis part_lt : forall r, In r part -> r < world.

  Notation ps := (sorted_set part).
  Notation root := (root_of (sorted_set part)).

  Definition framing {A} (C : nat -> prg A -> prg B) : Prop :=
    (forall x r k, C x (Recv r k) = Recv r (fun m => C x (k m))) /\
    (forall x r m k, C x (Send r m k) = Send r m (C x k)).

  (** the participants run [p] and all arrive at [Ret (res r)] *)
  Definition ends {A} (C : nat -> prg A -> prg B) (p : nat -> prg A) (q : nat -> prg B) : Prop :=
    forall P, (forall r, In r part -> P !! r = Some (C r (p r))) ->
    exists P', rtc sync P P' /\ (forall r, In r part -> P' !! r = Some (q r)) /\
      (forall x, ~ In x part -> P' !! x = P !! x).

  Lemma root_in : In root part.
  Proof. apply sorted_set_root, part_ne. Qed.

  Lemma gather_scatter {A S} (C : nat -> prg A -> prg B) (f : S -> nat -> msg -> S) s0 (v : nat -> msg)
      (up : S -> prg A) (fin : msg) (kroot : prg A) (down : nat -> msg -> prg A) (p : nat -> prg A) :
    framing C ->
    p root = for_recv f s0 root ps up ->
    up (fold_left (fun s r => if Nat.eqb r root then s else f s r (v r)) ps s0) = for_send fin root ps kroot ->
    (forall r, In r part -> r <> root -> p r = Send root (v r) (Recv root (down r))) ->
    ends C p (fun r => if Nat.eqb r root then C root kroot else C r (down r fin)).
  Proof.
    intros [C1 C2] Hp Hup Hr P HP.
    destruct (gather_run C C1 C2 f root up v (fun r => Recv root (down r)) ps s0 P) as [P1 [H1 [H2 [H3 H4]]]].
    - apply sorted_set_nodup.
    - rewrite HP by apply root_in. now rewrite Hp.
    - intros r Hi N. apply (sorted_set_in part) in Hi. rewrite HP by exact Hi. now rewrite Hr.
    - rewrite Hup in H2.
      destruct (scatter_run C C1 C2 fin root kroot down ps P1) as [P2 [G1 [G2 [G3 G4]]]].
      + apply sorted_set_nodup.
      + exact H2.
      + exact H3.
      + exists P2. split; [eapply rtc_transitive; eassumption|]. split.
        * intros r Hi. destruct (Nat.eqb_spec r root) as [->|N]; [exact G2|]. apply G3; [apply sorted_set_in, Hi|exact N].
        * intros x Hx. assert (x <> root) by (intros ->; apply Hx, root_in).
          rewrite G4, H4; auto; rewrite sorted_set_in; exact Hx.
  Qed.

  Lemma with_ps_ok {A} r (f : list nat -> prg A) : In r part -> with_ps r world part f = f ps.
  Proof. intros H. unfold with_ps. now rewrite normalize_ok. Qed.

  Lemma ends_ext {A} (C : nat -> prg A -> prg B) p q q' : (forall r, In r part -> q r = q' r) -> ends C p q -> ends C p q'.
  Proof.
    intros H E P HP. destruct (E P HP) as [P' [H1 [H2 H3]]]. exists P'. split; [exact H1|]. split; [|exact H3].
    intros r Hr. rewrite H2, H by exact Hr. reflexivity.
  Qed.

  Lemma barrier_run (C : nat -> prg unit -> prg B) : framing C ->
    ends C (fun r => barrier r world part) (fun r => C r (Ret tt)).
  Proof.
    intros HC. eapply ends_ext; [|apply (gather_scatter C (fun s _ _ => s) tt (fun _ => VBool true)
      (fun _ => for_send (VBool true) root ps (Ret tt)) (VBool true) (Ret tt) (fun _ _ => Ret tt)); [exact HC| | |]].
    - intros r _. cbn. destruct (Nat.eqb_spec r root) as [->|]; reflexivity.
    - unfold barrier. rewrite with_ps_ok by apply root_in. now rewrite Nat.eqb_refl.
    - reflexivity.
    - intros r Hr N. unfold barrier. rewrite with_ps_ok by exact Hr. cbn zeta.
      destruct (Nat.eqb_spec r root); [congruence|reflexivity].
  Qed.

  Lemma broadcast_run (C : nat -> prg msg -> prg B) (v : nat -> msg) rt : framing C -> In rt part ->
    ends C (fun r => broadcast r world (v r) rt part) (fun r => C r (Ret (v rt))).
  Proof.
    intros [C1 C2] Hrt P HP.
    assert (E : existsb (Nat.eqb rt) ps = true).
    { apply existsb_exists. exists rt. split; [apply sorted_set_in, Hrt|apply Nat.eqb_refl]. }
    destruct (scatter_run C C1 C2 (v rt) rt (Ret (v rt)) (fun _ m => Ret m) ps P) as [P2 [G1 [G2 [G3 G4]]]].
    - apply sorted_set_nodup.
    - rewrite HP by exact Hrt. unfold broadcast. rewrite with_ps_ok by exact Hrt. now rewrite E, Nat.eqb_refl.
    - intros r Hi N. apply (sorted_set_in part) in Hi. rewrite HP by exact Hi. unfold broadcast. rewrite with_ps_ok by exact Hi.
      rewrite E. cbn [negb]. destruct (Nat.eqb_spec r rt); [congruence|reflexivity].
    - exists P2. split; [exact G1|]. split.
      + intros r Hi. destruct (decide (r = rt)) as [->|N]; [exact G2|]. apply G3; [apply sorted_set_in, Hi|exact N].
      + intros x Hx. apply G4; [intros ->; tauto|]. now rewrite sorted_set_in.
  Qed.

  Lemma mapM_lookup (d : gmap nat msg) (v : nat -> msg) l : (forall r, In r l -> d !! r = Some (v r)) -> mapM (fun r => d !! r) l = Some (map v l).
  Proof.
    induction l as [|a l IH]; intros H; [reflexivity|]. cbn. rewrite H by now left. cbn. rewrite IH; [reflexivity|].
    intros r Hr. apply H. now right.
  Qed.
  Lemma gathered_lookup (v : nat -> msg) rt l : forall (d : gmap nat msg) r,
    fold_left (fun (d : gmap nat msg) r => if Nat.eqb r rt then d else <[r := v r]> d) l d !! r =
    if existsb (fun x => Nat.eqb x r && negb (Nat.eqb x rt)) l then Some (v r) else d !! r.
  Proof.
    induction l as [|a l IH]; intros d r; [reflexivity|]. cbn [fold_left existsb]. rewrite IH.
    destruct (existsb (fun x => Nat.eqb x r && negb (Nat.eqb x rt)) l); [now rewrite orb_true_r|]. rewrite orb_false_r.
    destruct (Nat.eqb_spec a rt) as [->|N]; cbn [negb]; [now rewrite andb_false_r|]. rewrite andb_true_r.
    destruct (Nat.eqb_spec a r) as [->|N']; [apply lookup_insert|now rewrite lookup_insert_ne].
  Qed.

  Lemma allgather_run (C : nat -> prg (list msg) -> prg B) (v : nat -> msg) : framing C ->
    ends C (fun r => allgather r world (v r) part) (fun r => C r (Ret (map v ps))).
  Proof.
    intros HC. eapply ends_ext; [|eapply (gather_scatter C (fun (d : gmap nat msg) r m => <[r := m]> d) {[root := v root]} v
      (fun d => match mapM (fun r => d !! r) ps with None => Throw MissingRank
                | Some gathered => for_send (VList gathered) root ps (Ret gathered) end)
      (VList (map v ps)) (Ret (map v ps)) (fun _ g => match g with VList l => Ret l | _ => Throw NotAList end)); [exact HC| | |]].
    - intros r _. cbn. destruct (Nat.eqb_spec r root) as [->|]; reflexivity.
    - unfold allgather. rewrite with_ps_ok by apply root_in. now rewrite Nat.eqb_refl.
    - rewrite (mapM_lookup _ v); [reflexivity|]. intros r Hr. rewrite gathered_lookup.
      destruct (existsb (fun x => Nat.eqb x r && negb (Nat.eqb x root)) ps) eqn:E; [reflexivity|].
      destruct (decide (r = root)) as [->|N]; [apply lookup_singleton|]. exfalso.
      assert (G : existsb (fun x => Nat.eqb x r && negb (Nat.eqb x root)) ps = true); [|congruence].
      apply existsb_exists. exists r. split; [exact Hr|]. rewrite Nat.eqb_refl. destruct (Nat.eqb_spec r root); [congruence|reflexivity].
    - intros r Hr N. unfold allgather. rewrite with_ps_ok by exact Hr. cbn zeta.
      destruct (Nat.eqb_spec r root); [congruence|reflexivity].
  Qed.

  Definition reduce (combine : bool -> bool -> bool) (v : nat -> bool) : bool :=
    fold_left (fun acc r => if Nat.eqb r root then acc else combine acc (v r)) ps (v root).

  Lemma allreduce_run (C : nat -> prg bool -> prg B) combine (v : nat -> bool) : framing C ->
    ends C (fun r => allreduce combine r world (v r) part) (fun r => C r (Ret (reduce combine v))).
  Proof.
    intros HC. eapply ends_ext; [|apply (gather_scatter C (fun acc _ m => combine acc (truth m)) (v root) (fun r => VBool (v r))
      (fun acc => for_send (VBool acc) root ps (Ret acc)) (VBool (reduce combine v)) (Ret (reduce combine v)) (fun _ m => Ret (truth m))); [exact HC| | |]].
    - intros r _. cbn. destruct (Nat.eqb_spec r root) as [->|]; reflexivity.
    - unfold allreduce. rewrite with_ps_ok by apply root_in. now rewrite Nat.eqb_refl.
    - reflexivity.
    - intros r Hr N. unfold allreduce. rewrite with_ps_ok by exact Hr. cbn zeta.
      destruct (Nat.eqb_spec r root); [congruence|reflexivity].
  Qed.

  (** the reductions over a set *)
  Lemma reduce_eq (combine : bool -> bool -> bool) (v : nat -> bool) : exists l : list nat, ps = root :: l /\ reduce combine v = fold_left (fun acc r => combine acc (v r)) l (v root).
  Proof.
    unfold reduce. pose proof root_in as H. apply (sorted_set_in part) in H. pose proof (sorted_set_nodup part) as N.
    destruct ps as [|a l] eqn:E; [destruct H|]. cbn [root_of hd] in *. exists l. split; [reflexivity|].
    cbn [fold_left]. rewrite Nat.eqb_refl. apply NoDup_cons in N. destruct N as [N _]. rewrite elem_of_list_In in N.
    clear - N. revert N. generalize (v a) as acc. induction l as [|b l IH]; intros acc N; [reflexivity|]. cbn [fold_left].
    destruct (Nat.eqb_spec b a) as [->|Nb]; [destruct N; now left|]. apply IH. intros G. apply N. now right.
  Qed.
  Lemma fold_and (v : nat -> bool) l : forall acc, fold_left (fun acc r => andb acc (v r)) l acc = acc && forallb v l.
  Proof. induction l as [|a l IH]; intros acc; cbn; [now rewrite andb_true_r|]. rewrite IH. now rewrite andb_assoc. Qed.
  Lemma fold_or (v : nat -> bool) l : forall acc, fold_left (fun acc r => orb acc (v r)) l acc = acc || existsb v l.
  Proof. induction l as [|a l IH]; intros acc; cbn; [now rewrite orb_false_r|]. rewrite IH. now rewrite orb_assoc. Qed.
  Lemma fold_xor (v : nat -> bool) l : forall acc, fold_left (fun acc r => xorb acc (v r)) l acc = xorb acc (Nat.odd (length (List.filter v l))).
  Proof.
    induction l as [|a l IH]; intros acc; cbn [fold_left List.filter]; [now rewrite xorb_false_r|]. rewrite IH.
    destruct (v a); [|now rewrite xorb_false_r]. cbn [length]. rewrite Nat.odd_succ, <- Nat.negb_odd.
    destruct acc, (Nat.odd _); reflexivity.
  Qed.
  Lemma reduce_and v : reduce andb v = forallb v part.
  Proof.
    destruct (reduce_eq andb v) as [l [H1 H2]]. rewrite H2, fold_and. apply eq_true_iff_eq. rewrite andb_true_iff, !forallb_forall.
    pose proof (sorted_set_in part) as S. rewrite H1 in S. split.
    - intros [G1 G2] x Hx. apply S in Hx. destruct Hx as [<-|Hx]; auto.
    - intros G. split; [apply G, S; now left|]. intros x Hx. apply G, S. now right.
  Qed.
  Lemma reduce_or v : reduce orb v = existsb v part.
  Proof.
    destruct (reduce_eq orb v) as [l [H1 H2]]. rewrite H2, fold_or. apply eq_true_iff_eq. rewrite orb_true_iff, !existsb_exists.
    pose proof (sorted_set_in part) as S. rewrite H1 in S. split.
    - intros [G|[x [G1 G2]]]; [exists root; split; [apply S; now left|exact G]|exists x; split; [apply S; now right|exact G2]].
    - intros [x [G1 G2]]. apply S in G1. destruct G1 as [<-|G1]; [auto|]. right. eauto.
  Qed.
  Lemma reduce_xor v : reduce xorb v = Nat.odd (length (List.filter v ps)).
  Proof.
    destruct (reduce_eq xorb v) as [l [H1 H2]]. rewrite H2, fold_xor. rewrite (f_equal (List.filter v) H1). cbn [List.filter].
    destruct (v root) eqn:Ev; cbn [length]; [|now destruct (Nat.odd _)]. rewrite Nat.odd_succ, <- Nat.negb_odd. now destruct (Nat.odd _).
  Qed.
End Colls.

Section Whole.
  Context {O : Type}.
  Notation msg := (val O).
  Notation prg := (prog msg cexn).
  Variable world : nat.
  Variable part : list nat.
  Hypothesis part_ne : part <> [].
  Hypothesis part_lt : forall r, In r part -> r < world.

  Lemma framing_id {A} : framing (O:=O) (B:=A) (fun (_ : nat) (p : prg A) => p).
  Proof. split; reflexivity. Qed.

  Lemma ends_schedule {A} (p : nat -> prg A) (q : nat -> prg A) c : ends part (fun _ p => p) p q ->
    (forall r, In r part -> finished (q r)) -> matched c ->
    exists c', matched c' /\ every_schedule_ends_in net_step (start (group part p) c) (start (group part q) c').
  Proof.
    intros E F HM. destruct (E (group part p)) as [P' [H1 [H2 H3]]]; [intros r Hr; apply group_in, Hr|].
    assert (EQ : P' = group part q).
    { apply map_eq. intros r. destruct (in_dec Nat.eq_dec r part) as [Hr|Hr].
      - rewrite H2, group_in by exact Hr. reflexivity.
      - rewrite H3, !group_out by exact Hr. reflexivity. }
    subst P'. apply sync_ends; [exact H1|exact HM|]. intros r x Hx.
    destruct (in_dec Nat.eq_dec r part) as [Hr|Hr]; [rewrite group_in in Hx by exact Hr; injection Hx as <-; auto|].
    rewrite group_out in Hx by exact Hr. discriminate.
  Qed.

  Lemma uniform_run (v : nat -> bool) :
    ends part (fun _ p => p) (fun r => verify_uniform_predicate (O:=O) r world (v r) part)
      (fun r => if Bool.eqb (forallb v part) (existsb v part) then Ret (v r) else Throw NotUniform).
  Proof.
    intros P HP. unfold verify_uniform_predicate in HP.
    set (K2 := fun (r : nat) (all_and all_or : bool) => if negb (Bool.eqb all_and all_or) then
      bind (allgather (O:=O) r world (VBool (v r)) part) (fun gathered => Throw NotUniform) else Ret (v r)) in *.
    destruct (allreduce_run (B:=bool) world part part_ne part_lt
      (fun r p => bind p (fun a => bind (allreduce_or r world (v r) part) (fun b => K2 r a b))) andb v) with (P := P)
      as [P1 [H1 [H2 H3]]]; [split; reflexivity|exact HP|].
    destruct (allreduce_run (B:=bool) world part part_ne part_lt
      (fun r p => bind p (fun b => K2 r (reduce part andb v) b)) orb v) with (P := P1)
      as [P2 [G1 [G2 G3]]]; [split; reflexivity|exact H2|].
    cbn [bind] in G2. unfold K2 in G2. rewrite reduce_and, reduce_or in G2 by assumption.
    destruct (Bool.eqb (forallb v part) (existsb v part)) eqn:E; cbn [negb] in G2.
    - exists P2. split; [eapply rtc_transitive; eassumption|]. split; [exact G2|].
      intros x Hx. rewrite G3, H3 by exact Hx. reflexivity.
    - destruct (allgather_run (O:=O) (B:=bool) world part part_ne part_lt
        (fun r p => bind p (fun gathered => Throw NotUniform)) (fun r => VBool (v r))) with (P := P2)
        as [P3 [I1 [I2 I3]]]; [split; reflexivity|exact G2|].
      exists P3. split; [eapply rtc_transitive; [exact H1|]; eapply rtc_transitive; eassumption|]. split; [exact I2|].
      intros x Hx. rewrite I3, G3, H3 by exact Hx. reflexivity.
  Qed.
End Whole.
