From Coq Require Import List Bool Arith Lia.
From Verif Require Import TabFileModel TabFileSpec.
Import ListNotations.

Lemma path_eqb_eq a b : path_eqb a b = true <-> a = b.
Proof.
  destruct a, b; cbn; rewrite ?andb_true_iff, ?Nat.eqb_eq; split; intros H; try discriminate; try congruence;
    try (destruct H; congruence); try (injection H; auto).
Qed.
Lemma path_eqb_refl a : path_eqb a a = true. Proof. now apply path_eqb_eq. Qed.
Lemma path_eqb_neq a b : a <> b -> path_eqb a b = false.
Proof. intros H. destruct (path_eqb a b) eqn:E; auto. apply path_eqb_eq in E. contradiction. Qed.
Lemma set_same f p n : set f p n p = n. Proof. unfold set. now rewrite path_eqb_refl. Qed.
Lemma set_other f p n q : q <> p -> set f p n q = f q. Proof. intros H. unfold set. now rewrite path_eqb_neq. Qed.

Section Owner.
Variable owner : nat -> nat.

(** invariant of exclusive histories *)
Definition Inv (f : fs) : Prop :=
  (forall p k q, f (PStore p k) <> Some (Link q)) /\ (forall k q, f (PAbs k) <> Some (Link q)) /\ (forall k, f (PCwd k) = None) /\
  (forall k q, f (PTmp k) = Some (Link q) -> q = PStore (owner k) k /\ f q <> None).

Lemma fresh_Inv f : fresh f -> Inv f.
Proof.
  intros (A & B & C). split; [intros p k q; apply A|]. split; [intros k q; apply A|]. split; [exact C|].
  intros k q E. now destruct (A (PTmp k) q).
Qed.

Lemma read_nolink (f : fs) p : (forall q, f p <> Some (Link q)) -> read_file f p = match f p with Some (File c) => Some c | _ => None end.
Proof.
  intros H. unfold read_file, final. cbn [resolve]. destruct (f p) as [[c|q]|] eqn:E; rewrite ?E; auto. now destruct (H q).
Qed.
Lemma final_nolink (f : fs) p : (forall q, f p <> Some (Link q)) -> final f p = Some p.
Proof. intros H. unfold final. cbn [resolve]. destruct (f p) as [[c|q]|] eqn:E; auto. now destruct (H q). Qed.
Lemma final_link (f : fs) p q : f p = Some (Link q) -> (forall r, f q <> Some (Link r)) -> final f p = Some q.
Proof. intros E H. unfold final. cbn [resolve]. rewrite E. cbn [resolve]. destruct (f q) as [[c|r]|] eqn:F; auto. now destruct (H r). Qed.
Lemma read_link (f : fs) p q : f p = Some (Link q) -> (forall r, f q <> Some (Link r)) -> read_file f p = match f q with Some (File c) => Some c | _ => None end.
Proof. intros E H. unfold read_file. rewrite (final_link f p q E H). reflexivity. Qed.

Lemma file_of_present (f : fs) p : (forall q, f p <> Some (Link q)) -> f p <> None -> exists c, f p = Some (File c).
Proof. intros H N. destruct (f p) as [[c|q]|]; eauto; [now destruct (H q)|now destruct N]. Qed.

(** the abstract state of one relative name *)
Definition tmp_read (f : fs) k : option nat :=
  match f (PTmp k) with None => None | Some (File c) => Some c | Some (Link _) => read_file f (PStore (owner k) k) end.
Lemma read_tmp f k : Inv f -> read_file f (PTmp k) = tmp_read f k.
Proof.
  intros (A & B & C & D). unfold tmp_read. destruct (f (PTmp k)) as [[c|q]|] eqn:E.
  - rewrite read_nolink by (rewrite E; discriminate). now rewrite E.
  - destruct (D k q E) as [-> N]. rewrite (read_link f _ _ E) by auto. now rewrite read_nolink by auto.
  - rewrite read_nolink by (rewrite E; discriminate). now rewrite E.
Qed.

(** a read by the owner *)
Lemma step_read (f : fs) k : Inv f ->
  match read_file f (PStore (owner k) k) with
  | None => step f (Read (owner k) (Rel k)) = (RRaise, f)
  | Some c => exists f', step f (Read (owner k) (Rel k)) = (RHandle, f') /\ read_file f' (PTmp k) = Some c /\ Inv f' /\
                (forall p, p <> PTmp k -> f' p = f p) /\ f' (PTmp k) <> None
  end.
Proof.
  intros I. pose proof I as (A & B & C & D). unfold step, download, exists_ at 1. cbn [local_path].
  destruct (read_file f (PStore (owner k) k)) as [c|] eqn:R.
  2:{ unfold exists_. rewrite ?R. rewrite (read_nolink f (PCwd k)) by (rewrite C; discriminate). rewrite C. reflexivity. }
  change (path_eqb (PStore (owner k) k) (PTmp k)) with false. cbv iota.
  assert (Hl : forall g, g = set f (PTmp k) (Some (Link (PStore (owner k) k))) \/ g = set (set f (PTmp k) None) (PTmp k) (Some (Link (PStore (owner k) k))) ->
     read_file g (PTmp k) = Some c /\ Inv g /\ (forall p, p <> PTmp k -> g p = f p) /\ g (PTmp k) <> None).
  { intros g Hg.
    assert (G1 : g (PTmp k) = Some (Link (PStore (owner k) k))) by (destruct Hg; subst; now rewrite set_same).
    assert (G2 : forall p, p <> PTmp k -> g p = f p) by (intros p Hp; destruct Hg; subst; rewrite ?set_other by auto; auto).
    split.
    - rewrite (read_link g _ _ G1) by (intros r; rewrite G2 by discriminate; auto). rewrite G2 by discriminate.
      rewrite read_nolink in R by auto. exact R.
    - split; [|split; [exact G2|rewrite G1; discriminate]]. split; [intros p j q; rewrite G2 by discriminate; auto|]. split; [intros j q; rewrite G2 by discriminate; auto|].
      split; [intros j; rewrite G2 by discriminate; auto|].
      intros j q E. destruct (Nat.eq_dec j k) as [->|Ne].
      + rewrite G1 in E. injection E as <-. split; auto. rewrite G2 by discriminate. rewrite read_nolink in R by auto.
        destruct (f (PStore (owner k) k)); congruence.
      + rewrite G2 in E by congruence. destruct (D j q E) as [-> N]. split; auto. now rewrite G2 by discriminate. }
  destruct (lexists f (PTmp k)) eqn:L.
  - unfold same_content. rewrite R. rewrite (read_tmp f k I).
    destruct (tmp_read f k) as [x|] eqn:T; [destruct (Nat.eqb c x) eqn:Eq|].
    + apply Nat.eqb_eq in Eq. subst x. unfold exists_. rewrite (read_tmp f k I), T. exists f. split; [reflexivity|]. rewrite (read_tmp f k I), T.
      repeat (split; auto). unfold lexists in L. destruct (f (PTmp k)); congruence.
    + destruct (Hl _ (or_intror eq_refl)) as (G1 & G2). unfold exists_. rewrite G1. eexists. split; [reflexivity|]. auto.
    + destruct (Hl _ (or_intror eq_refl)) as (G1 & G2). unfold exists_. rewrite G1. eexists. split; [reflexivity|]. auto.
  - destruct (Hl _ (or_introl eq_refl)) as (G1 & G2). unfold exists_. rewrite G1. eexists. split; [reflexivity|]. auto.
Qed.

(** a write by the owner *)
Lemma step_write (f : fs) k c : Inv f ->
  exists x f', step f (Write (owner k) (Rel k) c) = (x, f') /\ Inv f' /\
    (forall p, p <> PTmp k -> p <> PStore (owner k) k -> f' p = f p) /\
    ((x = RDone /\ read_file f' (PStore (owner k) k) = Some c) \/
     (x = RRaise /\ f' (PStore (owner k) k) = f (PStore (owner k) k) /\ exists c0, c0 <> c /\ read_file f (PStore (owner k) k) = Some c0 /\
        forall q, f (PTmp k) <> Some (Link q))).
Proof.
  intros I. pose proof I as (A & B & C & D). unfold step. cbn [local_path]. unfold write_file.
  destruct (f (PTmp k)) as [[c1|q]|] eqn:E.
  2:{ (* through the link *)
    destruct (D k q E) as [-> N]. rewrite (final_link f _ _ E) by auto.
    set (S0 := PStore (owner k) k) in *. set (f1 := set f S0 (Some (File c))).
    assert (F1s : f1 S0 = Some (File c)) by apply set_same.
    assert (F1t : f1 (PTmp k) = Some (Link S0)) by (unfold f1; rewrite set_other; [exact E|discriminate]).
    assert (Rs : read_file f1 S0 = Some c) by (rewrite read_nolink; rewrite F1s; auto; discriminate).
    assert (Rt : read_file f1 (PTmp k) = Some c) by (rewrite (read_link f1 _ _ F1t); rewrite F1s; auto; discriminate).
    unfold upload. cbn [local_path]. fold S0. unfold exists_. rewrite Rt. cbn [negb].
    change (path_eqb (PTmp k) S0) with false. cbv iota. unfold lexists, same_content, islink. rewrite F1s, Rt, Rs, Nat.eqb_refl. cbv zeta iota.
    exists RDone, (set f1 (PTmp k) None). split; [reflexivity|].
    assert (O : forall p, p <> PTmp k -> p <> S0 -> set f1 (PTmp k) None p = f p).
    { intros p H1 H2. rewrite set_other by auto. unfold f1. now rewrite set_other. }
    assert (O' : set f1 (PTmp k) None S0 = Some (File c)) by (rewrite set_other by discriminate; exact F1s).
    split; [|split; [exact O|left; split; auto]].
    - split; [|split; [|split]].
      + intros p j q. destruct (path_eqb (PStore p j) S0) eqn:Q; [apply path_eqb_eq in Q; rewrite Q, O'; discriminate|].
        rewrite O; [auto|discriminate|]. intros X. rewrite X, path_eqb_refl in Q. discriminate.
      + intros j q. rewrite O; [auto|discriminate|discriminate].
      + intros j. rewrite O; [auto|discriminate|discriminate].
      + intros j q Eq. destruct (Nat.eq_dec j k) as [->|Ne]; [rewrite set_same in Eq; discriminate|].
        rewrite O in Eq; [|congruence|discriminate]. destruct (D j q Eq) as [-> N']. split; auto.
        rewrite O; [auto|discriminate|]. unfold S0. congruence.
    - rewrite read_nolink; rewrite O'; auto; discriminate. }
  1-2: rewrite final_nolink by (rewrite E; discriminate).
  1-2: set (S0 := PStore (owner k) k) in *; set (f1 := set f (PTmp k) (Some (File c))).
  1-2: assert (F1t : f1 (PTmp k) = Some (File c)) by apply set_same.
  1-2: assert (F1 : forall p, p <> PTmp k -> f1 p = f p) by (intros p Hp; unfold f1; now rewrite set_other).
  1-2: assert (F1s : f1 S0 = f S0) by (apply F1; discriminate).
  1-2: assert (Rt : read_file f1 (PTmp k) = Some c) by (rewrite read_nolink; rewrite F1t; auto; discriminate).
  1-2: assert (Rs : read_file f1 S0 = read_file f S0) by (rewrite !read_nolink by (try rewrite F1s; apply A); now rewrite F1s).
  1-2: assert (I1 : Inv f1).
  1,3: (split; [intros p j q; rewrite F1 by discriminate; auto|]; split; [intros j q; rewrite F1 by discriminate; auto|]; split; [intros j; rewrite F1 by discriminate; auto|];
        intros j q Eq; destruct (Nat.eq_dec j k) as [->|Ne]; [congruence|]; rewrite F1 in Eq by congruence; destruct (D j q Eq) as [-> N]; split; auto; now rewrite F1 by discriminate).
  1-2: unfold upload; cbn [local_path]; fold S0; unfold exists_; rewrite Rt; cbn [negb].
  1-2: change (path_eqb (PTmp k) S0) with false; cbv iota.
  1-2: destruct (lexists f1 S0) eqn:L.
  1,3: destruct (file_of_present f1 S0) as (c0 & F0); [rewrite F1s; apply A|unfold lexists in L; destruct (f1 S0); congruence|].
  1,2: assert (R0 : read_file f1 S0 = Some c0) by (rewrite read_nolink; rewrite F0; auto; discriminate).
  1,2: unfold same_content, islink; rewrite Rt, R0, F0; destruct (Nat.eqb c c0) eqn:Eq.
  1,3: apply Nat.eqb_eq in Eq; subst c0; cbv zeta; exists RDone, (set f1 (PTmp k) None); split; [reflexivity|].
  1,2: (split; [|split; [intros p H1 H2; rewrite set_other by auto; auto|left; split; [auto|rewrite read_nolink; rewrite set_other by discriminate; rewrite F0; auto; discriminate]]]).
  1,2: destruct I1 as (A1 & B1 & C1 & D1); (split; [intros p j q; rewrite set_other by discriminate; auto|]; split; [intros j q; rewrite set_other by discriminate; auto|]; split; [intros j; rewrite set_other by discriminate; auto|];
        intros j q Eq; destruct (Nat.eq_dec j k) as [->|Ne]; [rewrite set_same in Eq; discriminate|]; rewrite set_other in Eq by congruence; destruct (D1 j q Eq) as [-> N]; split; auto; now rewrite set_other by discriminate).
  1,2: apply Nat.eqb_neq in Eq; exists RRaise, f1; split; [reflexivity|]; split; [exact I1|]; split; [intros p H1 H2; auto|right]; split; [auto|]; split; [auto|];
       exists c0; split; [auto|]; split; [congruence|intros q; discriminate].
  1,2: cbv zeta; exists RDone, (move f1 (PTmp k) S0); split; [reflexivity|].
  1,2: assert (M1 : move f1 (PTmp k) S0 S0 = Some (File c)) by (unfold move; rewrite set_other by discriminate; now rewrite set_same).
  1,2: assert (M2 : move f1 (PTmp k) S0 (PTmp k) = None) by (unfold move; now rewrite set_same).
  1,2: assert (M3 : forall p, p <> PTmp k -> p <> S0 -> move f1 (PTmp k) S0 p = f p) by (intros p H1 H2; unfold move; rewrite !set_other by auto; auto).
  1,2: (split; [|split; [exact M3|left; split; [auto|rewrite read_nolink; rewrite M1; auto; discriminate]]]).
  1,2: (split; [intros p j q; destruct (path_eqb (PStore p j) S0) eqn:Q; [apply path_eqb_eq in Q; rewrite Q, M1; discriminate|rewrite M3; [auto|discriminate|intros X; rewrite X, path_eqb_refl in Q; discriminate]]|];
        split; [intros j q; rewrite M3; [auto|discriminate|discriminate]|]; split; [intros j; rewrite M3; [auto|discriminate|discriminate]|];
        intros j q Eq; destruct (Nat.eq_dec j k) as [->|Ne]; [congruence|]; rewrite M3 in Eq by (congruence || discriminate); destruct (D j q Eq) as [-> N]; split; auto;
        rewrite M3; [auto|discriminate|unfold S0; congruence]).
Qed.

(** absolute names *)
Lemma step_abs_read f p k : Inv f -> step f (Read p (Abs k)) = (match read_file f (PAbs k) with Some _ => RHandle | None => RRaise end, f).
Proof.
  intros I. unfold step, download, exists_ at 1. cbn [local_path]. destruct (read_file f (PAbs k)) eqn:R; auto.
  rewrite path_eqb_refl. unfold exists_. now rewrite R.
Qed.
Lemma step_abs_write f p k c : Inv f -> step f (Write p (Abs k) c) = (RDone, set f (PAbs k) (Some (File c))) /\ Inv (set f (PAbs k) (Some (File c))).
Proof.
  intros (A & B & C & D). split.
  - unfold step, write_file. cbn [local_path]. rewrite final_nolink by auto. unfold upload. cbn [local_path]. unfold exists_.
    rewrite read_nolink by (rewrite set_same; discriminate). rewrite set_same. cbn [negb]. now rewrite path_eqb_refl.
  - split; [intros q j r; rewrite set_other by discriminate; auto|]. split.
    + intros j r. destruct (Nat.eq_dec j k) as [->|Ne]; [rewrite set_same; discriminate|rewrite set_other by congruence; auto].
    + split; [intros j; rewrite set_other by discriminate; auto|]. intros j q Eq. rewrite set_other in Eq by discriminate.
      destruct (D j q Eq) as [-> N]. split; [auto|exact N].
Qed.

Lemma step_Inv f o : Inv f -> by_owner owner o -> Inv (snd (step f o)).
Proof.
  intros I H. destruct o as [p [k|k]|n|p [k|k] c]; cbn in H; subst.
  - pose proof (step_read f k I) as R. destruct (read_file f (PStore (owner k) k)).
    + destruct R as (f' & -> & _ & I' & _). exact I'.
    + now rewrite R.
  - now rewrite step_abs_read.
  - cbn. destruct (read_file f (local_path n)); auto.
  - destruct (step_write f k c I) as (x & f' & -> & I' & _). exact I'.
  - destruct (step_abs_write f p k c I) as [-> I']. exact I'.
Qed.
Lemma run_Inv os : forall f, Inv f -> Forall (by_owner owner) os -> Inv (snd (run f os)).
Proof.
  induction os as [|o os IH]; intros f I F; cbn [run snd]; auto. inversion F; subst.
  pose proof (step_Inv f o I H1) as I'. destruct (step f o) as [x f']. cbn [snd] in I'. specialize (IH f' I' H2).
  destruct (run f' os). exact IH.
Qed.

(** the file a step may change *)
Lemma step_store_other f o q j : Inv f -> by_owner owner o ->
  match o with Write p (Rel k) _ => (q, j) <> (p, k) | _ => True end -> snd (step f o) (PStore q j) = f (PStore q j).
Proof.
  intros I H Ne. destruct o as [p [k|k]|n|p [k|k] c]; cbn in H; subst.
  - pose proof (step_read f k I) as R. destruct (read_file f (PStore (owner k) k)).
    + destruct R as (f' & -> & _ & _ & O & _). apply O. discriminate.
    + now rewrite R.
  - now rewrite step_abs_read.
  - cbn. destruct (read_file f (local_path n)); auto.
  - destruct (step_write f k c I) as (x & f' & -> & _ & O & _). apply O; congruence.
  - destruct (step_abs_write f p k c I) as [-> _]. cbn [snd]. now rewrite set_other by discriminate.
Qed.

(** what a consumed handle sees, and the party's file, are kept by steps that do not write the name *)
Lemma step_handle f o k c : Inv f -> by_owner owner o -> writes (Rel k) o = false ->
  tmp_read f k = Some c -> read_file f (PStore (owner k) k) = Some c -> 
  tmp_read (snd (step f o)) k = Some c /\ read_file (snd (step f o)) (PStore (owner k) k) = Some c.
Proof.
  intros I H W T R.
  assert (I' := step_Inv f o I H).
  assert (K : snd (step f o) (PStore (owner k) k) = f (PStore (owner k) k)).
  { apply step_store_other; auto. destruct o as [p [j|j]|n|p [j|j] c0]; auto. cbn in W. apply Nat.eqb_neq in W. congruence. }
  assert (R' : read_file (snd (step f o)) (PStore (owner k) k) = Some c).
  { pose proof I' as (A' & _). pose proof I as (A & _). rewrite read_nolink in R |- * by auto. now rewrite K. }
  split; [|exact R'].
  destruct o as [p [j|j]|n|p [j|j] c0]; cbn in H; subst.
  - destruct (Nat.eq_dec j k) as [->|Ne].
    + pose proof (step_read f k I) as X. rewrite R in X. destruct X as (f' & E & Rt & If & _). rewrite E in *. cbn [snd] in *. rewrite <- read_tmp; auto.
    + pose proof (step_read f j I) as X. destruct (read_file f (PStore (owner j) j)).
      * destruct X as (f' & E & _ & If & O & _). rewrite E in *. cbn [snd] in *. unfold tmp_read in *. rewrite O by congruence. rewrite R'.
        destruct (f (PTmp k)) as [[x|x]|]; congruence.
      * rewrite X. exact T.
  - now rewrite step_abs_read.
  - cbn. destruct (read_file f (local_path n)); auto.
  - cbn in W. apply Nat.eqb_neq in W. destruct (step_write f j c0 I) as (x & f' & E & If & O & _). rewrite E in *. cbn [snd] in *.
    unfold tmp_read in *. rewrite O by congruence. rewrite R'. destruct (f (PTmp k)) as [[y|y]|]; congruence.
  - destruct (step_abs_write f p j c0 I) as [E _]. rewrite E in *. cbn [snd] in *. unfold tmp_read in *. rewrite set_other by discriminate. rewrite R'.
    destruct (f (PTmp k)) as [[y|y]|]; congruence.
Qed.
Lemma run_handle os k c : forall f, Inv f -> Forall (by_owner owner) os -> forallb (fun o => negb (writes (Rel k) o)) os = true ->
  tmp_read f k = Some c -> read_file f (PStore (owner k) k) = Some c -> tmp_read (snd (run f os)) k = Some c.
Proof.
  induction os as [|o os IH]; intros f I F W T R; cbn [run snd]; auto. inversion F; subst. cbn in W. apply andb_true_iff in W. destruct W as [W1 W2].
  apply negb_true_iff in W1. destruct (step_handle f o k c I H1 W1 T R) as [T' R']. pose proof (step_Inv f o I H1) as I'.
  destruct (step f o) as [x f']. cbn [snd] in *. specialize (IH f' I' H2 W2 T' R'). destruct (run f' os). exact IH.
Qed.
Lemma step_abs_other f o k : Inv f -> by_owner owner o -> writes (Abs k) o = false -> snd (step f o) (PAbs k) = f (PAbs k).
Proof.
  intros I H W. destruct o as [p [j|j]|n|p [j|j] c]; cbn in H; subst.
  - pose proof (step_read f j I) as R. destruct (read_file f (PStore (owner j) j)).
    + destruct R as (f' & -> & _ & _ & O & _). apply O. discriminate.
    + now rewrite R.
  - now rewrite step_abs_read.
  - cbn. destruct (read_file f (local_path n)); auto.
  - destruct (step_write f j c I) as (x & f' & -> & _ & O & _). apply O; discriminate.
  - destruct (step_abs_write f p j c I) as [-> _]. cbn [snd]. cbn in W. apply Nat.eqb_neq in W. rewrite set_other by congruence. reflexivity.
Qed.
Lemma run_abs os k : forall f, Inv f -> Forall (by_owner owner) os -> forallb (fun o => negb (writes (Abs k) o)) os = true ->
  snd (run f os) (PAbs k) = f (PAbs k).
Proof.
  induction os as [|o os IH]; intros f I F W; cbn [run snd]; auto. inversion F; subst. cbn in W. apply andb_true_iff in W. destruct W as [W1 W2].
  apply negb_true_iff in W1. pose proof (step_abs_other f o k I H1 W1) as E. pose proof (step_Inv f o I H1) as I'.
  destruct (step f o) as [x f']. cbn [snd] in *. specialize (IH f' I' H2 W2). destruct (run f' os). cbn [snd] in *. congruence.
Qed.
End Owner.
