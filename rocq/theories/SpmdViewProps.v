(** Property C212: on whom the result of a party depends. *)
From stdpp Require Import gmap.
From Coq Require Import List Bool Arith Lia.
From Verif Require Import NetSpec NetModel CollModel FaultModel SpmdModel SpmdSpec SpmdProofs SpmdProps SpmdViewSpec SpmdViewProofs.
From Verif Require SimpModel SimpProps.
Import ListNotations.
Local Open Scope nat_scope.

(** *** C212.  Run a program twice, on inputs that are the same at the parties from which the
    routings written in the program lead to party r (r itself among them), and different anywhere
    else; whatever the order in which workers proceed and messages arrive, and wherever parties
    die and messages get lost.  If party r returns in both executions, it returns the same values.
    Other parties' inputs decide at most whether r returns (when parties do not agree on a
    predicate, nobody does). *)
Theorem C212_only_routed_values_arrive : forall (VT V : Type) (truthy : V -> bool) (n : nat) (g : SimpModel.region VT V)
    (env env' : list (nat -> option V)) (out out' : outcome (list (nat -> option V))) (r : nat),
  r < n -> means truthy n g env out -> means truthy n g env' out' ->
  same_at (fun s => leads (routings g) s r) env env' ->
  exists bound, forall fuel fuel' c c' state state' vs vs', bound <= fuel -> bound <= fuel' -> matched c -> matched c' ->
    rtc faulty_step (start (workers truthy n fuel g env) c) state -> parties state !! r = Some (NetSpec.Ret (Some vs)) ->
    rtc faulty_step (start (workers truthy n fuel' g env') c') state' -> parties state' !! r = Some (NetSpec.Ret (Some vs')) ->
    vs = vs'.
Proof.
  intros VT V truthy n g env env' out out' r Hr H H' S.
  destruct out as [ws|].
  - destruct (C206_survivors_are_right VT V truthy n g env ws H) as [b K]. destruct out' as [ws'|].
    + destruct (C206_survivors_are_right VT V truthy n g env' ws' H') as [b' K']. exists (max b b'). intros fuel fuel' c c' s s' vs vs' L L' M M' R P R' P'.
      rewrite (K fuel c s r vs ltac:(lia) M Hr R P), (K' fuel' c' s' r vs' ltac:(lia) M' Hr R' P').
      destruct (means_same (VT := VT) truthy n (fun s => leads (routings g) s r) r (stays _ r) Hr) as [W _].
      exact (same_at_party (fun s => leads (routings g) s r) _ _ r (W g env (Done ws) H ws env' ws' eq_refl (leads_closed (routings g) r) S H') (stays _ r)).
    + destruct (C206_disagreement_stays VT V truthy n g env' H') as [b' K']. exists (max b b'). intros fuel fuel' c c' s s' vs vs' L L' M M' R P R' P'. exfalso. exact (K' fuel' c' s' r _ ltac:(lia) M' Hr R' P').
  - destruct (C206_disagreement_stays VT V truthy n g env H) as [b K]. exists b. intros fuel fuel' c c' s s' vs vs' L L' M M' R P R' P'. exfalso. exact (K fuel c s r _ ltac:(lia) M Hr R P).
Qed.
Print Assumptions C212_only_routed_values_arrive.

(** The same of what the program means: results are the same at all parties of a group that no
    routing brings values into. *)
Theorem C212_groups : forall (VT V : Type) (truthy : V -> bool) (n : nat) (group : nat -> Prop) (g : SimpModel.region VT V)
    (env env' vs vs' : list (nat -> option V)),
  (exists r, group r /\ r < n) -> (forall t s, In (t, s) (routings g) -> group t -> group s) ->
  same_at group env env' -> means truthy n g env (Done vs) -> means truthy n g env' (Done vs') ->
  same_at group vs vs'.
Proof.
  intros VT V truthy n group g env env' vs vs' (r & Gr & Lr) C S H H'. destruct (means_same (VT := VT) truthy n group r Gr Lr) as [W _]. exact (W g env (Done vs) H vs env' vs' eq_refl C S H').
Qed.
Print Assumptions C212_groups.

(** An instance: party 0 sends its value to party 1, then parties 1 and 2 add what they hold.  The
    inputs differ at party 0; the result of party 2 does not, that of party 1 does. *)
Definition ex_flow : SimpModel.region nat nat :=
  SimpModel.Let _ _ (SimpModel.Shuffle _ _ 0 [(1, 0)])
    (SimpModel.Let _ _ (SimpModel.PCallStatic _ _ [1; 2] [0; 1] (SimpModel.Local _ _ [0] (fun vs _ => match vs with [Some a; Some b] => Some (a + b) | [Some a; None] => Some a | _ => None end)))
      (SimpModel.Ret _ _ [2])).
Definition ex_input (x r : nat) : option nat := Some (match r with 0 => x | _ => 10 * r end).
Example C212_example :
  same_at (fun s => leads (routings ex_flow) s 2) [ex_input 3] [ex_input 4] /\
  exists vs vs', means SimpProps.nz 3 ex_flow [ex_input 3] (Done vs) /\ means SimpProps.nz 3 ex_flow [ex_input 4] (Done vs') /\
    at_party 2 vs = [Some 20] /\ at_party 2 vs' = [Some 20] /\ at_party 1 vs = [Some 13] /\ at_party 1 vs' = [Some 14].
Proof.
  assert (D : forall x, exists vs, means SimpProps.nz 3 ex_flow [ex_input x] (Done vs) /\ at_party 2 vs = [Some 20] /\ at_party 1 vs = [Some (10 + x)]).
  { intros x. eexists. split.
    - eapply m_let.
      { apply (m_shuffle _ _ _ _ _ (ex_input x) (fun r => match r with 1 => Some x | _ => None end)); [reflexivity| | |].
        - split; [repeat constructor; cbn; tauto|]. split.
          + intros t s [H|[]]. injection H as <- <-. lia.
          + intros a b N H G. destruct H as [H|[]]. destruct G as [G|[]]. congruence.
        - intros t s [H|[]]. injection H as <- <-. reflexivity.
        - intros [|[|t]] H; try reflexivity. exfalso. apply H. left. reflexivity. }
      eapply m_let; [apply (m_pcall_static _ _ _ _ _ _ [ex_input x; fun r => match r with 1 => Some x | _ => None end]); repeat constructor|].
      apply m_ret. repeat constructor.
    - split; reflexivity. }
  split.
  - constructor; [|constructor]. intros r L. assert (r = 2) as ->; [|reflexivity].
    clear D. assert (G : forall a b, leads [(1, 0)] a b -> b = 2 -> a = 2).
    { intros a b X. induction X as [q|s t q I X IH]; [auto|]. intros Eq. specialize (IH Eq). rewrite IH in I. destruct I as [I|[]]. discriminate I. }
    exact (G _ _ L eq_refl).
  - destruct (D 3) as (vs & A & B & C). destruct (D 4) as (vs' & A' & B' & C'). exists vs, vs'. auto 10.
Qed.
