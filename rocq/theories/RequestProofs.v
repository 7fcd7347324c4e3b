(** Specification and proofs for RequestModel. *)
From Coq Require Import List Bool Arith Lia.
From Verif Require Import RequestModel.
Import ListNotations.
Local Open Scope nat_scope.

(** What has become of the operation after a history: it starts once, finishes once, and can be
    cancelled only before it starts. *)
Fixpoint fate_from {V : Type} (f : fut V) (evs : list (event V)) : fut V :=
  match evs with
  | [] => f
  | ev :: evs => fate_from (match f, ev with
                            | FPending _, Start _ => FRunning _
                            | FPending _, Cancel _ => FCancelled _
                            | FRunning _, Finish _ (inl v) => FOk _ v
                            | FRunning _, Finish _ (inr e) => FErr _ e
                            | _, _ => f
                            end) evs
  end.
Definition fate {V : Type} (evs : list (event V)) : fut V := fate_from (FPending V) evs.
(** the status a client should see *)
Definition expected {V : Type} (f : fut V) : status :=
  match f with FPending _ | FRunning _ => PENDING | FCancelled _ => CANCELLED | FOk _ _ => COMPLETED | FErr _ _ => ERROR end.
(** the operation does not itself raise CancelledError or a BaseException *)
Definition ordinary {V : Type} (evs : list (event V)) : Prop :=
  forall e : exn, In (Finish V (inr e)) evs -> match e with ECancelled | EBase _ => False | _ => True end.

Section P.
Context {V : Type}.
Variable none : V.
Definition plain_exn (e : exn) : Prop := match e with ECancelled | EBase _ => False | _ => True end.
Definition inv (r : request V) : Prop :=
  match r_fut _ r with
  | FPending _ | FRunning _ => r_status _ r = PENDING /\ r_result _ r = none
  | FCancelled _ => (r_status _ r = PENDING \/ r_status _ r = CANCELLED) /\ r_result _ r = none
  | FOk _ v => (r_status _ r = PENDING /\ r_result _ r = none) \/ (r_status _ r = COMPLETED /\ r_result _ r = v)
  | FErr _ e => plain_exn e /\ r_result _ r = none /\ (r_status _ r = PENDING \/ (r_status _ r = ERROR /\ r_error _ r = Some e))
  end.
Lemma inv_new : inv (new V none).
Proof. split; reflexivity. Qed.

Ltac open_inv HI := unfold inv in HI; cbn [r_fut r_status r_result r_error] in HI;
  repeat match type of HI with
  | _ /\ _ => let A := fresh "A" in destruct HI as [A HI]; cbn in A; try contradiction; subst
  | _ \/ _ => destruct HI as [HI|HI]
  end; cbn in HI; try contradiction; subst.
Lemma step_inv r ev r' o : (forall e, ev = Finish V (inr e) -> plain_exn e) -> inv r -> step V none r ev = Some (r', o) ->
  inv r' /\ r_fut _ r' = fate_from (r_fut _ r) [ev].
Proof.
  intros Hord HI H. destruct r as [f st res er].
  destruct ev as [|o'| |x| |]; destruct f as [| | |v|[n| |n|n]]; unfold inv in HI; cbn in HI;
  try (destruct HI as [-> ->]); try (destruct HI as [[-> | ->] ->]); try (destruct HI as [[-> ->]|[-> ->]]); try (let F := fresh in destruct HI as (F & _); contradiction); try (destruct HI as (_ & -> & [-> | [-> ->]]));
  cbn in H; try discriminate H; try (destruct x; [|discriminate H]); try (destruct o' as [v'|e']); cbn in H; injection H as <- <-; (split; [|reflexivity]); cbn; auto.
  all: try (split; [apply Hord; reflexivity|auto]).
Qed.
Lemma fate_app f (a b : list (event V)) : fate_from f (a ++ b) = fate_from (fate_from f a) b.
Proof. revert f. induction a as [|ev a IH]; intros f; [reflexivity|]. cbn [fate_from app]. apply IH. Qed.
Lemma run_inv evs : forall r r' os, ordinary evs -> inv r -> run V none r evs = Some (r', os) -> inv r' /\ r_fut _ r' = fate_from (r_fut _ r) evs.
Proof.
  induction evs as [|ev evs IH]; intros r r' os Ho Hi H; cbn [run] in H.
  - injection H as <- <-. auto.
  - destruct (step V none r ev) as [[r1 o]|] eqn:E; [|discriminate H]. destruct (run V none r1 evs) as [[r2 os']|] eqn:E2; [|discriminate H]. injection H as <- <-.
    destruct (step_inv r ev r1 o) as [I F]; [|exact Hi|exact E|].
    + intros e ->. apply (Ho e). left. reflexivity.
    + destruct (IH r1 r2 os') as [I2 F2]; [|exact I|exact E2|].
      * intros e He. apply Ho. right. exact He.
      * split; [exact I2|]. rewrite F2, F. cbn [fate_from]. reflexivity.
Qed.
Lemma status_of r : inv r -> snd (get_status V r) = Ret (expected (r_fut _ r)).
Proof.
  intros HI. destruct r as [f st res er]. destruct f as [| | |v|[n| |n|n]]; unfold inv in HI; cbn in HI;
  try (destruct HI as [-> ->]); try (destruct HI as [[-> | ->] ->]); try (destruct HI as [[-> ->]|[-> ->]]); try (let F := fresh in destruct HI as (F & _); contradiction); try (destruct HI as (_ & -> & [-> | [-> ->]])); reflexivity.
Qed.
Lemma conclude_of r : inv r -> done V (r_fut _ r) = true -> snd (conclude V r) = match r_fut _ r with FOk _ v => Ret v | FErr _ e => Raise (Op e) | _ => Ret none end.
Proof.
  intros HI D. destruct r as [f st res er]. destruct f as [| | |v|[n| |n|n]]; try discriminate D; unfold inv in HI; cbn in HI;
  try (destruct HI as [-> ->]); try (destruct HI as [[-> | ->] ->]); try (destruct HI as [[-> ->]|[-> ->]]); try (let F := fresh in destruct HI as (F & _); contradiction); try (destruct HI as (_ & -> & [-> | [-> ->]])); reflexivity.
Qed.
Lemma fate_final f (evs : list (event V)) : done V f = true -> fate_from f evs = f.
Proof. intros D. induction evs as [|ev evs IH]; [reflexivity|]. cbn. destruct f; try discriminate D; destruct ev; exact IH. Qed.
End P.
