(** Proofs about on whom the result of a party depends. *)
From Coq Require Import List Bool Arith Lia.
From Verif Require Import SpmdSpec SpmdProofs SpmdViewSpec.
From Verif Require SimpModel.
Import ListNotations.
Local Open Scope nat_scope.

Section P.
Context {VT V : Type}.
Variable truthy : V -> bool.
Variable n : nat.
Variable P : nat -> Prop.
Variable r0 : nat.
Hypothesis Hr0 : P r0.
Hypothesis Hn : r0 < n.
Notation region := (SimpModel.region VT V).
Notation op := (SimpModel.op VT V).
Notation mpval := (nat -> option V).
Notation same := (same_at (V := V) P).

(** nothing comes into P from outside *)
Definition closed (l : list (nat * nat)) : Prop := forall t s, In (t, s) l -> P t -> P s.
Lemma closed_app l m : closed (l ++ m) -> closed l /\ closed m.
Proof. intros H. split; intros t s I; apply H; apply in_app_iff; auto. Qed.

Lemma same_app a a' b b' : same a a' -> same b b' -> same (a ++ b) (a' ++ b').
Proof. apply Forall2_app. Qed.
Lemma same_nth (env env' : list mpval) : same env env' -> forall i v v', nth_error env i = Some v -> nth_error env' i = Some v' -> forall r, P r -> v r = v' r.
Proof.
  induction 1 as [|x y l l' Hx F IH]; intros [|i] v v' E E'; try discriminate E; cbn in E, E'; [injection E as <-; injection E' as <-; exact Hx|exact (IH i v v' E E')].
Qed.
Lemma same_pick (env env' : list mpval) is_ vs vs' : same env env' -> pick env is_ vs -> pick env' is_ vs' -> same vs vs'.
Proof.
  intros S H. revert vs'. induction H as [|i v is_ vs Hi H IH]; intros vs' H'; inversion H'; subst; [constructor|]. constructor; [|apply IH; assumption]. eapply same_nth; eassumption.
Qed.
Lemma same_at_party (vs vs' : list mpval) r : same vs vs' -> P r -> at_party r vs = at_party r vs'.
Proof. intros S Hr. induction S as [|v v' l l' Hv S IH]; [reflexivity|]. unfold at_party in *. cbn. rewrite (Hv r Hr), IH. reflexivity. Qed.
Lemma same_first (vs vs' : list mpval) r : same vs vs' -> P r -> first_held vs r = first_held vs' r.
Proof. intros S Hr. induction S as [|v v' l l' Hv S IH]; [reflexivity|]. cbn. rewrite (Hv r Hr), IH. reflexivity. Qed.
Lemma same_map (f g : nat -> mpval) l : (forall k r, P r -> f k r = g k r) -> same (map f l) (map g l).
Proof. intros H. induction l as [|k l IH]; cbn; constructor; auto. Qed.
Lemma true_same (v v' : mpval) : (forall r, P r -> v r = v' r) -> true_at truthy v r0 -> true_at truthy v' r0.
Proof. intros H (x & E & T). exists x. rewrite <- (H r0 Hr0). auto. Qed.
Definition region_same (g : region) (env : list mpval) (out : outcome (list mpval)) : Prop :=
  forall vs env' vs', out = Done vs -> closed (routings g) -> same env env' -> means truthy n g env' (Done vs') -> same vs vs'.
Definition op_same (o : op) (env : list mpval) (out : outcome (list mpval)) : Prop :=
  forall vs env' vs', out = Done vs -> closed (op_routings o) -> same env env' -> op_means truthy n o env' (Done vs') -> same vs vs'.
Definition loop_same (cond body : region) (cs st : list mpval) (out : outcome (list mpval)) : Prop :=
  forall vs cs' st' vs', out = Done vs -> closed (routings cond) -> closed (routings body) -> same cs cs' -> same st st' ->
  loop_means truthy n cond body cs' st' (Done vs') -> same vs vs'.

Theorem means_same :
  (forall g env out, means truthy n g env out -> region_same g env out) /\
  (forall o env out, op_means truthy n o env out -> op_same o env out) /\
  (forall cond body cs st out, loop_means truthy n cond body cs st out -> loop_same cond body cs st out).
Proof.
  apply all_means; unfold region_same, op_same, loop_same.
  - intros outs env vs H us env' vs' E _ S M. injection E as <-. inversion M; subst. eapply same_pick; eassumption.
  - intros o rest env vs out _ IH1 _ IH2 us env' vs' -> C S M. cbn [routings] in C. apply closed_app in C. destruct C as [C1 C2]. inversion M; subst.
    match goal with H : op_means _ _ o env' (Done ?ws) |- _ => pose proof (IH1 vs env' ws eq_refl C1 S H) as S1 end.
    eapply IH2; [reflexivity|exact C2|apply same_app; [exact S|exact S1]|eassumption].
  - intros o rest env _ _ us env' vs' E. discriminate E.
  - intros ps args f env vs H us env' vs' E _ S M. injection E as <-. inversion M; subst. apply same_map. intros k r Hr. destruct (existsb _ ps); [|reflexivity].
    match goal with H' : pick env' args ?ws |- _ => rewrite (same_at_party vs ws r (same_pick _ _ _ _ _ S H H') Hr) end. reflexivity.
  - intros args f env vs H us env' vs' E _ S M. injection E as <-. inversion M; subst. apply same_map. intros k r Hr.
    match goal with H' : pick env' args ?ws |- _ => rewrite (same_at_party vs ws r (same_pick _ _ _ _ _ S H H') Hr) end. reflexivity.
  - intros src routing env v w E D W1 W2 us env' vs' Ed C S M. injection Ed as <-. inversion M; subst. constructor; [|constructor]. intros t Ht.
    destruct (in_dec Nat.eq_dec t (map fst routing)) as [I|I].
    + apply in_map_iff in I. destruct I as [[t' s] [Et I]]. cbn in Et. subst t'.
      rewrite (W1 t s I). match goal with H : forall t s, In (t, s) routing -> _ = _ |- _ => rewrite (H t s I) end. eapply same_nth; [exact S|exact E|eassumption|]. exact (C t s I Ht).
    + rewrite (W2 t I). match goal with H : forall t, ~ In t _ -> _ = None |- _ => rewrite (H t I) end. reflexivity.
  - intros args env vs H us env' vs' E _ S M. injection E as <-. inversion M; subst. constructor; [|constructor]. intros r Hr. eapply same_first; [|exact Hr]. eapply same_pick; eassumption.
  - intros pred args th el env p vs out E H T _ IH us env' vs' -> C S M. cbn [op_routings] in C. apply closed_app in C. destruct C as [C1 C2]. inversion M; subst.
    + eapply IH; [reflexivity|exact C1|eapply same_pick; eassumption|eassumption].
    + exfalso. match goal with N : forall r, r < n -> ~ true_at _ ?q r |- _ => apply (N r0 Hn); eapply true_same; [|exact (T r0 Hn)]; eapply same_nth; eassumption end.
  - intros pred args th el env p vs out E H T _ IH us env' vs' -> C S M. cbn [op_routings] in C. apply closed_app in C. destruct C as [C1 C2]. inversion M; subst.
    + exfalso. apply (T r0 Hn). match goal with N : forall r, r < n -> true_at _ ?q r |- _ => eapply true_same; [|exact (N r0 Hn)] end. intros r Hr. symmetry. eapply same_nth; eassumption.
    + eapply IH; [reflexivity|exact C2|eapply same_pick; eassumption|eassumption].
  - intros pred args th el env p vs a b E H Ha Hb T F us env' vs' Ed. discriminate Ed.
  - intros init caps imm cond body env st cs out Hi Hc _ IH us env' vs' -> C S M. cbn [op_routings] in C. apply closed_app in C. destruct C as [C1 C2]. inversion M; subst.
    eapply IH; [reflexivity|exact C1|exact C2| | |eassumption]; eapply same_pick; eassumption.
  - (* leave *) intros cond body cs st c more _ IHc T us cs' st' vs' E C1 C2 Sc Ss M. injection E as <-. inversion M; subst; try assumption.
    exfalso. match goal with H : means _ _ cond (st' ++ cs') (Done (?c' :: ?m')) |- _ => pose proof (IHc (c :: more) (st' ++ cs') (c' :: m') eq_refl C1 (same_app _ _ _ _ Ss Sc) H) as X end. inversion X; subst.
    apply (T r0 Hn). match goal with N : forall r, r < n -> true_at _ ?q r |- _ => eapply true_same; [|exact (N r0 Hn)] end. intros r Hr. symmetry. auto.
  - (* no condition *) intros cond body cs st _ IHc us cs' st' vs' E C1 C2 Sc Ss M. injection E as <-. inversion M; subst; try assumption.
    exfalso. match goal with H : means _ _ cond (st' ++ cs') (Done (?c' :: ?m')) |- _ => pose proof (IHc [] (st' ++ cs') (c' :: m') eq_refl C1 (same_app _ _ _ _ Ss Sc) H) as X end. inversion X.
  - (* turn *) intros cond body cs st c more st1 out _ IHc T _ IHb L _ IHl us cs' st' vs' -> C1 C2 Sc Ss M. inversion M; subst.
    + exfalso. match goal with H : means _ _ cond (vs' ++ cs') (Done (?c' :: ?m')) |- _ => pose proof (IHc (c :: more) (vs' ++ cs') (c' :: m') eq_refl C1 (same_app _ _ _ _ Ss Sc) H) as X end. inversion X; subst.
      match goal with N : forall r, r < n -> ~ true_at _ ?q r |- _ => apply (N r0 Hn); eapply true_same; [|exact (T r0 Hn)] end. assumption.
    + exfalso. match goal with H : means _ _ cond (vs' ++ cs') (Done []) |- _ => pose proof (IHc (c :: more) (vs' ++ cs') [] eq_refl C1 (same_app _ _ _ _ Ss Sc) H) as X end. inversion X.
    + match goal with H : means _ _ body (st' ++ cs') (Done ?q) |- _ => pose proof (IHb st1 (st' ++ cs') q eq_refl C2 (same_app _ _ _ _ Ss Sc) H) as X end.
      eapply IHl; [reflexivity|exact C1|exact C2|exact Sc|exact X|eassumption].
  - intros cond body cs st _ _ us cs' st' vs' E. discriminate E.
  - intros cond body cs st c more _ _ _ _ _ us cs' st' vs' E. discriminate E.
Qed.
End P.
Lemma leads_closed l r : closed (fun s => leads l s r) l.
Proof. intros t s I H. exact (goes l s t r I H). Qed.
