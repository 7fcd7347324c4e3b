(** While one participant has not entered a barrier, nobody leaves it. *)
From stdpp Require Import gmap sorting.
From Verif Require Import NetSpec NetModel NetProofs CollModel CollProofs.

Section Absent.
  Context {O : Type}.
  Notation msg := (val O).
  Notation step := (@net_step msg cexn unit).
  Variable world : nat.
  Variable part : list nat.
  Hypothesis part_lt : forall r, In r part -> r < world.
  Variable x : nat.
  Hypothesis x_in : In x part.
  Notation ps := (sorted_set part).
  Notation root := (root_of ps).

  Definition others : list nat := List.filter (fun r => negb (Nat.eqb r x)) part.
  Lemma others_in r : In r others <-> In r part /\ r <> x.
  Proof using. unfold others. rewrite filter_In. destruct (Nat.eqb_spec r x); cbn; intuition congruence. Qed.

  Definition at_barrier (r : nat) (p : prog msg cexn unit) : Prop :=
    if Nat.eqb r root then
      exists l, In x l /\ p = for_recv (fun s _ _ => s) tt root l (fun _ => for_send (VBool true) root ps (Ret tt))
    else p = Send root (VBool true) (Recv root (fun _ => Ret tt)) \/ p = Recv root (fun _ => Ret tt).
  Definition held (s : net msg cexn unit) : Prop :=
    (forall r, In r others -> exists p, parties s !! r = Some p /\ at_barrier r p) /\
    (forall r, ~ In r others -> parties s !! r = None) /\
    (forall a b q m, infl s !! (a, b, q) = Some m -> a <> x /\ a <> root) /\
    (forall a b q m, mbox s !! (a, b, q) = Some m -> a <> x /\ a <> root).

  (** the root's program is a Recv from the next participant *)
  Lemma root_head l (k : unit -> prog msg cexn unit) : In x l -> x <> root ->
    exists r l', r <> root /\ for_recv (fun s _ _ => s) tt root l k = Recv r (fun _ => for_recv (fun s _ _ => s) tt root l' k) /\
      (r = x \/ In x l').
  Proof using.
    intros H N. induction l as [|a l IH]; [destruct H|]. cbn [for_recv]. destruct (Nat.eqb_spec a root) as [E|E].
    - destruct H as [H|H]; [congruence|]. destruct (IH H) as [r [l' G]]. eauto.
    - exists a, l. split; [exact E|]. split; [reflexivity|]. destruct H as [H|H]; auto.
  Qed.

  Lemma held_step s t : held s -> step s t -> held t.
  Proof using x_in.
    intros [H1 [H2 [H3 H4]]] St. inversion St as [P c I B o r to m k HP|P c I B o key m HI HB|P c I B o key m m' HI HB|P c I B o r frm k m HP HB]; subst; cbn in *.
    - assert (Hr : In r others). { destruct (in_dec Nat.eq_dec r others) as [|N]; [assumption|]. rewrite H2 in HP by exact N. discriminate. }
      destruct (H1 r Hr) as [p [E A]]. rewrite E in HP. injection HP as ->. unfold at_barrier in A.
      destruct (Nat.eqb_spec r root) as [Er|Nr].
      + destruct A as [l [Hx A]]. exfalso. destruct (root_head l (fun _ => for_send (VBool true) root ps (Ret tt)) Hx) as [r' [l' [_ [Eq _]]]].
        { apply others_in in Hr. intros ->. tauto. }
        rewrite Eq in A. discriminate.
      + destruct A as [A|A]; [|discriminate]. injection A as -> -> ->. split; [|split; [|split; [|exact H4]]].
        * intros r' Hr'. destruct (decide (r' = r)) as [->|N].
          -- cbn. rewrite lookup_insert. eexists. split; [reflexivity|]. unfold at_barrier. destruct (Nat.eqb_spec r root); [congruence|]. now right.
          -- cbn. rewrite lookup_insert_ne by congruence. auto.
        * intros r' Hr'. cbn. rewrite lookup_insert_ne by (intros ->; tauto). auto.
        * cbn. intros a b q m0 E0; cbn in *; apply others_in in Hr. apply lookup_insert_Some in E0. destruct E0 as [[E1 _]|[_ E1]]; [injection E1 as E1 _ _; subst; tauto|now apply H3 in E1].
    - split; [exact H1|]. split; [exact H2|]. split.
      + intros a b q m0 E; cbn in *; apply lookup_delete_Some in E. destruct E as [_ E]. eapply H3; eauto.
      + intros a b q m0 E; cbn in *; apply lookup_insert_Some in E. destruct E as [[-> ->]|[_ E]]; [eapply H3; eauto|eapply H4; eauto].
    - split; [exact H1|]. split; [exact H2|]. split; [|exact H4].
      intros a b q m0 E; cbn in *; apply lookup_delete_Some in E. destruct E as [_ E]. eapply H3; eauto.
    - assert (Hr : In r others). { destruct (in_dec Nat.eq_dec r others) as [|N]; [assumption|]. rewrite H2 in HP by exact N. discriminate. }
      destruct (H1 r Hr) as [p [E A]]. rewrite E in HP. injection HP as ->. unfold at_barrier in A.
      destruct (H4 _ _ _ _ HB) as [Fx Froot]. destruct (Nat.eqb_spec r root) as [Er|Nr].
      + destruct A as [l [Hx A]]. assert (Nx : x <> root). { apply others_in in Hr. intros ->. tauto. }
        destruct (root_head l (fun _ => for_send (VBool true) root ps (Ret tt)) Hx Nx) as [r' [l' [Nr' [Eq Hl']]]].
        rewrite Eq in A. injection A as -> ->. destruct Hl' as [->|Hl']; [congruence|].
        split; [|split; [|split; [exact H3|]]].
        * intros z Hz; cbn. destruct (decide (z = r)) as [->|N].
          -- rewrite lookup_insert. eexists. split; [reflexivity|]. unfold at_barrier. destruct (Nat.eqb_spec r root); [|congruence]. eauto.
          -- rewrite lookup_insert_ne by congruence. auto.
        * intros z Hz; cbn. rewrite lookup_insert_ne by (intros ->; tauto). auto.
        * intros a b q m0 E0; cbn in *; apply lookup_delete_Some in E0. destruct E0 as [_ E0]. eapply H4; eauto.
      + exfalso. destruct A as [A|A]; [discriminate|]. injection A as -> _. congruence.
  Qed.

  Lemma held_start c : held (start (group others (fun r => barrier r world part)) c).
  Proof using x_in part_lt.
    split; [|split; [|split]]; cbn.
    - intros r Hr. rewrite group_in by exact Hr. eexists. split; [reflexivity|]. unfold barrier, with_ps.
      apply others_in in Hr. rewrite normalize_ok by tauto. unfold at_barrier. destruct (Nat.eqb_spec r root) as [E|E]; cbn [negb].
      + exists ps. split; [apply sorted_set_in; exact x_in|reflexivity].
      + now left.
    - intros r Hr. apply group_out, Hr.
    - intros a b q m E. rewrite lookup_empty in E. discriminate.
    - intros a b q m E. rewrite lookup_empty in E. discriminate.
  Qed.

  Lemma at_barrier_unfinished r p : In r others -> at_barrier r p -> ~ finished p.
  Proof using x_in.
    intros Hr A F. unfold at_barrier in A. destruct (Nat.eqb_spec r root) as [E|E].
    - destruct A as [l [Hx ->]]. destruct (root_head l (fun _ => for_send (VBool true) root ps (Ret tt)) Hx) as [r' [l' [_ [Eq _]]]].
      { apply others_in in Hr. intros ->. tauto. }
      rewrite Eq in F. exact F.
    - destruct A as [->| ->]; exact F.
  Qed.

  Lemma barrier_holds c s : rtc step (start (group others (fun r => barrier r world part)) c) s ->
    forall r, In r part -> r <> x -> exists p, parties s !! r = Some p /\ ~ finished p.
  Proof using x_in part_lt.
    intros H r Hr N. assert (G : held s).
    { revert H. generalize (held_start c). generalize (start (group others (fun r => barrier (O:=O) r world part)) c).
      intros s0 H0 H. induction H; eauto using held_step. }
    destruct G as [G _]. assert (Ho : In r others) by (apply others_in; auto). destruct (G r Ho) as [p [E A]].
    exists p. split; [exact E|]. eapply at_barrier_unfinished; eauto.
  Qed.
End Absent.
