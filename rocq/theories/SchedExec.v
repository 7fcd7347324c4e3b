(** Running a given schedule of the asynchronous scheduler: used to exhibit executions. *)
From Coq Require Import List Arith ZArith Bool Lia.
From Verif Require Import SchedSpec SchedModel.
Import ListNotations.

Section Exec.
  Context {V E : Type}.
  Variable sem : nat -> option (list V -> V + E).
  Variable unpack : V -> option (list V).
  Inductive choice : Type := Main | Complete (n : nat) | Report (n : nat).

  Definition exec1 (g : graph) (cons : nat -> list nat) (s : @astate V E) (ch : choice) : option astate :=
    match ch with
    | Main =>
        match amain s, aq s with
        | Running, ISentinel :: q =>
            Some (set_main s (match lookups (aenv s) (gout g) with Some outs => Returned outs | None => Raised KeyError end) q)
        | Running, IErr e :: q => Some (set_main s (Raised e) q)
        | Running, IOp i :: q =>
            match nth_error (gops g) i with
            | None => None
            | Some o =>
                match lookups (aenv s) (oin o), sem i with
                | None, _ => Some (set_main s (Raised KeyError) q)
                | Some args, None => Some (set_main s (Raised (NotImplemented i)) q)
                | Some args, Some h =>
                    if oasync o then
                      Some (AState (aenv s) (apend s) (arc s) q (aremaining s) (aerr s)
                              ((i, args) :: ainflight s) (areport s) Running ((i, args) :: acalls s))
                    else Some (finish sem unpack g cons i args
                           (AState (aenv s) (apend s) (arc s) q (aremaining s) (aerr s)
                              (ainflight s) (areport s) Running ((i, args) :: acalls s)))
                end
            end
        | _, _ => None
        end
    | Complete n =>
        match nth_error (ainflight s) n with
        | Some (i, args) => Some (finish sem unpack g cons i args
            (AState (aenv s) (apend s) (arc s) (aq s) (aremaining s) (aerr s)
               (firstn n (ainflight s) ++ skipn (S n) (ainflight s)) (areport s) (amain s) (acalls s)))
        | None => None
        end
    | Report n =>
        match nth_error (areport s) n with
        | Some e => Some (report_error e
            (AState (aenv s) (apend s) (arc s) (aq s) (aremaining s) (aerr s)
               (ainflight s) (firstn n (areport s) ++ skipn (S n) (areport s)) (amain s) (acalls s)))
        | None => None
        end
    end.
  Fixpoint exec (g : graph) (cons : nat -> list nat) (s : @astate V E) (l : list choice) : option astate :=
    match l with [] => Some s | ch :: l' => match exec1 g cons s ch with Some s' => exec g cons s' l' | None => None end end.

  Lemma nth_split' {A} (l : list A) n x : nth_error l n = Some x -> l = firstn n l ++ x :: skipn (S n) l.
  Proof. revert n; induction l as [|a l IH]; intros [|n] H; cbn in *; try discriminate; [congruence|]. f_equal. auto. Qed.

  Lemma exec1_sound g cons s ch s' : exec1 g cons s ch = Some s' -> step sem unpack g cons s s'.
  Proof.
    destruct ch as [|n|n]; cbn [exec1].
    - destruct (amain s) eqn:M; try discriminate. destruct (aq s) as [|[i|e|] q] eqn:Q; try discriminate.
      + destruct (nth_error (gops g) i) as [o|] eqn:O; [|discriminate].
        destruct (lookups (aenv s) (oin o)) as [args|] eqn:L; [destruct (sem i) as [h|] eqn:S; [destruct (oasync o) eqn:A|]|]; intros X; injection X as <-.
        * eapply step_submit; eauto.
        * eapply step_sync; eauto.
        * eapply step_noimpl; eauto.
        * eapply step_missing; eauto.
      + intros X; injection X as <-. eapply step_raise; eauto.
      + intros X; injection X as <-. eapply step_return; eauto.
    - destruct (nth_error (ainflight s) n) as [[i args]|] eqn:N; [|discriminate]. intros X; injection X as <-.
      eapply step_complete. apply nth_split', N.
    - destruct (nth_error (areport s) n) as [e|] eqn:N; [|discriminate]. intros X; injection X as <-.
      eapply step_report. apply nth_split', N.
  Qed.
  Lemma exec_sound g cons l : forall s0 s s', steps sem unpack g cons s0 s -> exec g cons s l = Some s' -> steps sem unpack g cons s0 s'.
  Proof.
    induction l as [|ch l IH]; intros s0 s s' H E1; cbn in E1; [congruence|].
    destruct (exec1 g cons s ch) as [s1|] eqn:X; [|discriminate]. eapply IH; [|exact E1].
    eapply steps_next; [exact H|]. apply exec1_sound in X. exact X.
  Qed.
  Lemma exec_reachable g inputs l s : exec g (async_consumers g inputs) (async_init g inputs) l = Some s -> reachable sem unpack g inputs s.
  Proof. intros H. eapply exec_sound; [apply steps_refl|exact H]. Qed.
  (** a schedule that completes gives a reachable state with the computed observables *)
  Lemma exec_exists {T} (f : astate -> T) g inputs l r :
    option_map f (exec g (async_consumers g inputs) (async_init g inputs) l) = Some r ->
    exists s, reachable sem unpack g inputs s /\ f s = r.
  Proof.
    destruct (exec g (async_consumers g inputs) (async_init g inputs) l) as [s|] eqn:X; [|discriminate].
    intros H. injection H as <-. exists s. split; [eapply exec_reachable, X|reflexivity].
  Qed.
End Exec.
