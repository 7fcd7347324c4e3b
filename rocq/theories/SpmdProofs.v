(** Proofs for SpmdProps: workers running the same program end, in every schedule, with what the
    program means. *)
From stdpp Require Import gmap.
From Coq Require Import List Bool Arith Lia.
From Verif Require Import NetSpec NetModel NetProofs CollModel CollProofs ShuffleProofs CommProps SpmdModel SpmdSpec.
From Verif Require SimpModel SimpProofs.
Import ListNotations.
Local Open Scope nat_scope.

(* ---------------------------------------------------------------- steps under a continuation *)
Section Lift.
  Context {M X A B : Type}.
  Variable K : nat -> A -> prog M X B.
  Definition liftP (P : gmap nat (prog M X A)) : gmap nat (prog M X B) := map_imap (fun r p => Some (bind p (K r))) P.
  Definition lift (s : net M X A) : net M X B := Net (liftP (parties s)) (ctr s) (infl s) (mbox s) (overflowed s).
  Lemma liftP_lookup P r : liftP P !! r = (fun p => bind p (K r)) <$> P !! r.
  Proof. unfold liftP. rewrite map_lookup_imap. destruct (P !! r); reflexivity. Qed.
  Lemma liftP_insert P r p : liftP (<[r := p]> P) = <[r := bind p (K r)]> (liftP P).
  Proof.
    apply map_eq. intros x. rewrite liftP_lookup. destruct (decide (r = x)) as [->|N].
    - rewrite !lookup_insert. reflexivity.
    - rewrite !lookup_insert_ne by exact N. rewrite liftP_lookup. reflexivity.
  Qed.
  Lemma lift_step s t : net_step s t -> net_step (lift s) (lift t).
  Proof.
    intros H. destruct H as [P c I B' o r to m k HP|P c I B' o key m HI HB|P c I B' o key m m' HI HB|P c I B' o r frm k m HP HB]; unfold lift; cbn [parties ctr infl mbox overflowed].
    - rewrite liftP_insert. apply (net_send _ _ _ _ _ _ _ _ (bind k (K r))). rewrite liftP_lookup, HP. reflexivity.
    - apply net_deliver; assumption.
    - eapply net_overflow; eassumption.
    - rewrite liftP_insert. apply (net_recv (liftP P) c I B' o r frm (fun m => bind (k m) (K r)) m); [|exact HB]. rewrite liftP_lookup, HP. reflexivity.
  Qed.
  Lemma lift_steps s t : rtc net_step s t -> rtc net_step (lift s) (lift t).
  Proof. intros H. induction H as [|s u t H _ IH]; [apply rtc_refl|]. eapply rtc_l; [apply lift_step, H|exact IH]. Qed.
  Lemma lift_start part f c : lift (start (group part f) c) = start (group part (fun r => bind (f r) (K r))) c.
  Proof.
    unfold lift, start. cbn [parties ctr infl mbox overflowed]. f_equal. apply map_eq. intros r. rewrite liftP_lookup.
    destruct (in_dec Nat.eq_dec r part) as [H|H]; [rewrite !group_in by exact H; reflexivity|rewrite !group_out by exact H; reflexivity].
  Qed.
End Lift.

Section Runs.
  Context {M X : Type}.
  Variable part : list nat.
  Definition runs_to {A} (f q : nat -> prog M X A) : Prop :=
    forall c, matched c -> exists c', matched c' /\ rtc net_step (start (group part f) c) (start (group part q) c').
  Lemma group_ext {A} (f f' : nat -> prog M X A) : (forall r, In r part -> f r = f' r) -> group part f = group part f'.
  Proof.
    intros H. apply map_eq. intros r. destruct (in_dec Nat.eq_dec r part) as [I|I].
    - rewrite !group_in by exact I. f_equal. apply H, I.
    - rewrite !group_out by exact I. reflexivity.
  Qed.
  Lemma runs_refl {A} (f q : nat -> prog M X A) : (forall r, In r part -> f r = q r) -> runs_to f q.
  Proof. intros H c HM. exists c. split; [exact HM|]. rewrite (group_ext f q H). apply rtc_refl. Qed.
  Lemma runs_trans {A} (f g q : nat -> prog M X A) : runs_to f g -> runs_to g q -> runs_to f q.
  Proof.
    intros H1 H2 c HM. destruct (H1 c HM) as [c1 [M1 S1]]. destruct (H2 c1 M1) as [c2 [M2 S2]]. exists c2. split; [exact M2|].
    eapply rtc_transitive; eassumption.
  Qed.
  Lemma runs_ext {A} (f f' q q' : nat -> prog M X A) : (forall r, In r part -> f' r = f r) -> (forall r, In r part -> q r = q' r) -> runs_to f q -> runs_to f' q'.
  Proof. intros H1 H2 H. eapply runs_trans; [apply runs_refl, H1|]. eapply runs_trans; [exact H|apply runs_refl, H2]. Qed.
  Lemma runs_bind {A B} (K : nat -> A -> prog M X B) (f q : nat -> prog M X A) : runs_to f q -> runs_to (fun r => bind (f r) (K r)) (fun r => bind (q r) (K r)).
  Proof.
    intros H c HM. destruct (H c HM) as [c' [M' S']]. exists c'. split; [exact M'|]. rewrite <- !(lift_start K). apply lift_steps, S'.
  Qed.
  Lemma runs_ends {A} (f q : nat -> prog M X A) c : runs_to f q -> (forall r, In r part -> finished (q r)) -> matched c ->
    exists c', matched c' /\ every_schedule_ends_in net_step (start (group part f) c) (start (group part q) c').
  Proof.
    intros H F HM. destruct (H c HM) as [c' [M' S']]. exists c'. split; [exact M'|]. apply net_determinate; [apply wf_start|exact S'|].
    apply finished_nf. intros r p E. destruct (in_dec Nat.eq_dec r part) as [I|I].
    - rewrite group_in in E by exact I. injection E as <-. apply F, I.
    - rewrite group_out in E by exact I. discriminate E.
  Qed.
  Lemma ends_runs {A} (f q : nat -> prog M X A) :
    (forall c, matched c -> exists c', matched c' /\ every_schedule_ends_in net_step (start (group part f) c) (start (group part q) c')) -> runs_to f q.
  Proof.
    intros H c HM. destruct (H c HM) as [c' [M' [_ [m E]]]]. exists c'. split; [exact M'|]. destruct (E 0 _ (nsteps_O _ _)) as [_ R]. exact R.
  Qed.
End Runs.

(* ---------------------------------------------------------------- the program *)
Section Spmd.
Context {VT V : Type}.
Variable truthy : V -> bool.
Variable n : nat.
Notation region := (SimpModel.region VT V).
Notation op := (SimpModel.op VT V).
Notation mpval := (nat -> option V).
Notation msg := (val (option V)).
Notation act A := (prog msg cexn (option A)).
Notation world := (seq 0 n).
Notation runs := (runs_to (M := msg) (X := cexn) world).

Definition result (out : outcome (list mpval)) (r : nat) : act (list (option V)) :=
  match out with Done vs => NetSpec.Ret (Some (at_party r vs)) | SpmdSpec.NotUniform => Throw CollModel.NotUniform end.

Lemma pick_lookup {A} (env : list A) is_ vs : pick env is_ vs -> SimpModel.lookup env is_ = Some vs.
Proof. intros H. induction H as [|i x is_ vs E _ IH]; [reflexivity|]. cbn. rewrite E, IH. reflexivity. Qed.
Lemma pick_at r (env : list mpval) is_ vs : pick env is_ vs -> SimpModel.lookup (at_party r env) is_ = Some (at_party r vs).
Proof.
  intros H. induction H as [|i x is_ vs E _ IH]; [reflexivity|]. cbn. unfold at_party in *. rewrite nth_error_map, E, IH. reflexivity.
Qed.
Lemma nth_at r (env : list mpval) i v : nth_error env i = Some v -> nth_error (at_party r env) i = Some (v r).
Proof. intros E. unfold at_party. rewrite nth_error_map, E. reflexivity. Qed.
Lemma at_app r (a b : list mpval) : at_party r (a ++ b) = at_party r a ++ at_party r b.
Proof. apply map_app. Qed.
Lemma true_at_iff v r : true_at truthy v r <-> decide_on truthy (v r) = true.
Proof. unfold true_at, decide_on. destruct (v r) as [x|]; [|split; [intros [x [E _]]; discriminate E|discriminate]]. split; [intros [y [E T]]; injection E as ->; exact T|eauto]. Qed.
Lemma not_true_at v r : ~ true_at truthy v r <-> decide_on truthy (v r) = false.
Proof. rewrite true_at_iff, not_true_iff_false. reflexivity. Qed.

Lemma inb_norm r ps : SimpModel.inb r (SimpModel.norm ps) = existsb (Nat.eqb r) ps.
Proof.
  apply eq_true_iff_eq. unfold SimpModel.inb, SimpModel.norm. rewrite !existsb_exists. split.
  - intros [x [H E]]. apply Nat.eqb_eq in E. subst x. apply filter_In in H. destruct H as [_ H]. apply existsb_exists in H. exact H.
  - intros [x [H E]]. apply Nat.eqb_eq in E. subst x. exists r. split; [|apply Nat.eqb_refl]. apply filter_In. split.
    + apply in_seq. split; [lia|]. cbn. apply le_n_S. pose proof (proj1 (list_max_le ps (list_max ps)) (le_n _)) as F. rewrite List.Forall_forall in F. apply F, H.
    + apply existsb_exists. exists r. split; [exact H|apply Nat.eqb_refl].
Qed.
Lemma first_held_at r (vs : list mpval) :
  fold_right (fun v acc => match v with Some x => Some x | None => acc end) None (at_party r vs) = first_held vs r.
Proof. induction vs as [|v vs IH]; [reflexivity|]. cbn. rewrite <- IH. reflexivity. Qed.

Notation loop_of fuel r cond body cs := (wloop truthy (fun st => wregion truthy n fuel r cond (st ++ cs)) (fun st => wregion truthy n fuel r body (st ++ cs))).

Lemma shuffle_runs routing (data : nat -> msg) : deliverable n routing ->
  exists out : nat -> option msg, runs (fun r => shuffle r routing (data r)) (fun r => NetSpec.Ret (out r)) /\
    (forall t s, In (t, s) routing -> out t = Some (data s)) /\ (forall t, ~ In t (map fst routing) -> out t = None).
Proof.
  intros (ND & IN & NS).
  destruct (C33_shuffle_without_swaps (option V) routing world data ∅) as (out & c' & _ & _ & O1 & O2).
  - apply NoDup_ListNoDup. exact ND.
  - intros t s H. destruct (IN t s H). split; apply in_seq; lia.
  - exact NS.
  - intros a b. reflexivity.
  - exists out. split; [|split; assumption]. apply ends_runs. intros c HM.
    destruct (C33_shuffle_without_swaps (option V) routing world data c) as (out2 & c2 & M2 & E2 & P1 & P2).
    + apply NoDup_ListNoDup. exact ND.
    + intros t s H. destruct (IN t s H). split; apply in_seq; lia.
    + exact NS.
    + exact HM.
    + exists c2. split; [exact M2|]. erewrite (group_ext _ (fun r => NetSpec.Ret (out r))); [exact E2|]. intros r _. cbn. f_equal.
      destruct (in_dec Nat.eq_dec r (map fst routing)) as [I|I]; [|rewrite O2, P2 by exact I; reflexivity].
      apply in_map_iff in I. destruct I as [[t s] [E I]]. cbn in E. subst t. rewrite (O1 r s I), (P1 r s I). reflexivity.
Qed.

Lemma uniform_runs (v : nat -> bool) : 0 < n ->
  (forall b, (forall r, r < n -> v r = b) -> runs (fun r => verify_uniform_predicate (O := option V) r n (v r) world) (fun _ => NetSpec.Ret b)) /\
  (forall a b, a < n -> b < n -> v a <> v b -> runs (fun r => verify_uniform_predicate (O := option V) r n (v r) world) (fun _ => Throw CollModel.NotUniform)).
Proof.
  intros Hn. assert (NE : world <> []) by (destruct n; [lia|discriminate]). assert (LT : forall r, In r world -> r < n) by (intros r H; apply in_seq in H; lia).
  split.
  - intros b Hb. apply ends_runs. intros c HM. destruct (C32_uniform_or_error_everywhere (option V) n world v c NE LT HM) as [U _]. apply U. intros r H. apply Hb, LT, H.
  - intros a b Ha Hb N. apply ends_runs. intros c HM. destruct (C32_uniform_or_error_everywhere (option V) n world v c NE LT HM) as [_ U]. apply (U a b); [apply in_seq; lia|apply in_seq; lia|exact N].
Qed.

(** sequencing *)
Lemma runs_seqo {A} (f : nat -> act A) (a : nat -> A) (K : nat -> A -> act (list (option V))) q :
  runs f (fun r => NetSpec.Ret (Some (a r))) -> runs (fun r => K r (a r)) q -> runs (fun r => seqo (f r) (K r)) q.
Proof. intros H1 H2. unfold seqo. eapply runs_trans; [apply (runs_bind world (fun r o => match o with Some a => K r a | None => stop end)), H1|]. exact H2. Qed.
Lemma runs_seqo_throw {A} (f : nat -> act A) (K : nat -> A -> act (list (option V))) :
  runs f (fun r => Throw CollModel.NotUniform) -> runs (fun r => seqo (f r) (K r)) (fun r => Throw CollModel.NotUniform).
Proof. intros H1. unfold seqo. apply (runs_bind world (fun r o => match o with Some a => K r a | None => stop end)) in H1. exact H1. Qed.

Scheme means_mut := Minimality for means Sort Prop
  with op_means_mut := Minimality for op_means Sort Prop
  with loop_means_mut := Minimality for loop_means Sort Prop.
Combined Scheme all_means from means_mut, op_means_mut, loop_means_mut.

Definition region_ok (g : region) (env : list mpval) (out : outcome (list mpval)) : Prop :=
  exists k0, forall fuel, k0 <= fuel -> runs (fun r => wregion truthy n fuel r g (at_party r env)) (result out).
Definition op_ok (o : op) (env : list mpval) (out : outcome (list mpval)) : Prop :=
  exists k0, forall fuel, k0 <= fuel -> runs (fun r => wop truthy n fuel r o (at_party r env)) (result out).
Definition loop_ok (cond body : region) (cs st : list mpval) (out : outcome (list mpval)) : Prop :=
  exists k0, forall fuel k, k0 <= fuel -> k0 <= k -> runs (fun r => loop_of fuel r cond body (at_party r cs) k (at_party r st)) (result out).

Lemma runs_now (f q : nat -> act (list (option V))) : (forall r, r < n -> f r = q r) -> runs f q.
Proof. intros H. apply runs_refl. intros r I. apply H. apply in_seq in I. lia. Qed.

Theorem workers_follow_meaning :
  (forall g env out, means truthy n g env out -> region_ok g env out) /\
  (forall o env out, op_means truthy n o env out -> op_ok o env out) /\
  (forall cond body cs st out, loop_means truthy n cond body cs st out -> loop_ok cond body cs st out).
Proof.
  apply all_means.
  - (* Ret *) intros outs env vs H. exists 0. intros fuel _. apply runs_now. intros r _. cbn. rewrite (pick_at r _ _ _ H). reflexivity.
  - (* Let *) intros o rest env vs out _ [k1 IH1] _ [k2 IH2]. exists (max k1 k2). intros fuel L. cbn [wregion].
    apply (runs_seqo (fun r => wop truthy n fuel r o (at_party r env)) (fun r => at_party r vs) (fun r vs => wregion truthy n fuel r rest (at_party r env ++ vs))).
    + apply IH1. lia.
    + eapply runs_ext; [|reflexivity|apply (IH2 fuel); lia]. intros r _. cbn. rewrite at_app. reflexivity.
  - intros o rest env _ [k1 IH1]. exists k1. intros fuel L. cbn [wregion]. apply (runs_seqo_throw (fun r => wop truthy n fuel r o (at_party r env)) (fun r vs => wregion truthy n fuel r rest (at_party r env ++ vs))). apply IH1, L.
  - (* pcall_static *) intros ps args f env vs H. exists 0. intros fuel _. apply runs_now. intros r _. cbn [wop]. rewrite (pick_at r _ _ _ H). cbn [need result]. unfold ret. do 2 f_equal.
    unfold at_party. rewrite map_map. apply map_ext. intros k. rewrite inb_norm. reflexivity.
  - intros args f env vs H. exists 0. intros fuel _. apply runs_now. intros r _. cbn [wop]. rewrite (pick_at r _ _ _ H). cbn [need result]. unfold ret. do 2 f_equal.
    unfold at_party. rewrite map_map. reflexivity.
  - (* shuffle *) intros src routing env v w E D W1 W2. exists 0. intros fuel _.
    destruct (shuffle_runs routing (fun r => VObj (v r)) D) as (out & R & O1 & O2).
    eapply runs_ext; [| |apply (runs_bind world (fun (_ : nat) (m : option msg) => ret [received m])), R].
    + intros r _. cbn [wop]. rewrite (nth_at r _ _ _ E). reflexivity.
    + intros r _. cbn [bind result]. unfold ret, at_party. cbn [map]. do 3 f_equal. destruct (in_dec Nat.eq_dec r (map fst routing)) as [I|I]; [|rewrite (O2 r I), (W2 r I); reflexivity].
      apply in_map_iff in I. destruct I as [[t s] [E' I]]. cbn in E'. subst t. rewrite (O1 r s I), (W1 r s I). reflexivity.
  - (* converge *) intros args env vs H. exists 0. intros fuel _. apply runs_now. intros r _. cbn [wop]. rewrite (pick_at r _ _ _ H). cbn [need result]. rewrite first_held_at. reflexivity.
  - (* cond true *) intros pred args th el env p vs out E H T _ [k1 IH]. exists k1. intros fuel L.
    destruct n as [|m] eqn:En; [apply runs_refl; intros r []|]. rewrite <- En in *. assert (0 < n) as Hn by lia.
    destruct (uniform_runs (fun r => decide_on truthy (p r)) Hn) as [U _]. specialize (U true (fun r Hr => proj1 (true_at_iff p r) (T r Hr))).
    eapply runs_ext; [|reflexivity|].
    2: { eapply runs_trans; [apply (runs_bind world (fun (r : nat) (b : bool) => if b then wregion truthy n fuel r th (at_party r vs) else wregion truthy n fuel r el (at_party r vs))), U|]. cbn [bind]. apply (IH fuel L). }
    intros r _. cbn [wop]. rewrite (nth_at r _ _ _ E), (pick_at r _ _ _ H). reflexivity.
  - (* cond false *) intros pred args th el env p vs out E H T _ [k1 IH]. exists k1. intros fuel L.
    destruct n as [|m] eqn:En; [apply runs_refl; intros r []|]. rewrite <- En in *. assert (0 < n) as Hn by lia.
    destruct (uniform_runs (fun r => decide_on truthy (p r)) Hn) as [U _]. specialize (U false (fun r Hr => proj1 (not_true_at p r) (T r Hr))).
    eapply runs_ext; [|reflexivity|].
    2: { eapply runs_trans; [apply (runs_bind world (fun (r : nat) (b : bool) => if b then wregion truthy n fuel r th (at_party r vs) else wregion truthy n fuel r el (at_party r vs))), U|]. cbn [bind]. apply (IH fuel L). }
    intros r _. cbn [wop]. rewrite (nth_at r _ _ _ E), (pick_at r _ _ _ H). reflexivity.
  - (* cond differs *) intros pred args th el env p vs a b E H Ha Hb T F. exists 0. intros fuel _.
    destruct (uniform_runs (fun r => decide_on truthy (p r))) as [_ U]; [lia|].
    apply true_at_iff in T. apply not_true_at in F. specialize (U a b Ha Hb). rewrite T, F in U. specialize (U ltac:(discriminate)).
    eapply runs_ext; [|reflexivity|].
    2: { apply (runs_bind world (fun (r : nat) (b : bool) => if b then wregion truthy n fuel r th (at_party r vs) else wregion truthy n fuel r el (at_party r vs))) in U. exact U. }
    intros r _. cbn [wop]. rewrite (nth_at r _ _ _ E), (pick_at r _ _ _ H). reflexivity.
  - (* while *) intros init caps imm cond body env st cs out H1 H2 _ [k1 IH]. exists k1. intros fuel L.
    eapply runs_ext; [|reflexivity|apply (IH fuel fuel L L)].
    intros r _. cbn [wop]. rewrite (pick_at r _ _ _ H1), (pick_at r _ _ _ H2). cbn [need].
    reflexivity.
  - (* leave *) intros cond body cs st c more _ [k1 IH] F. exists (S k1). intros fuel [|k] L1 L2; [lia|]. cbn [wloop].
    apply (runs_seqo (fun r => wregion truthy n fuel r cond (at_party r st ++ at_party r cs)) (fun r => at_party r (c :: more))
      (fun r res => if decide_on truthy (hd None res) then seqo (wregion truthy n fuel r body (at_party r st ++ at_party r cs)) (loop_of fuel r cond body (at_party r cs) k) else ret (at_party r st))).
    + eapply runs_ext; [|reflexivity|apply (IH fuel); lia]. intros r _. cbn. rewrite at_app. reflexivity.
    + apply runs_now. intros r Hr. cbn [at_party map hd]. rewrite (proj1 (not_true_at c r) (F r Hr)). reflexivity.
  - (* no condition *) intros cond body cs st _ [k1 IH]. exists (S k1). intros fuel [|k] L1 L2; [lia|]. cbn [wloop].
    apply (runs_seqo (fun r => wregion truthy n fuel r cond (at_party r st ++ at_party r cs)) (fun r => at_party r [])
      (fun r res => if decide_on truthy (hd None res) then seqo (wregion truthy n fuel r body (at_party r st ++ at_party r cs)) (loop_of fuel r cond body (at_party r cs) k) else ret (at_party r st))).
    + eapply runs_ext; [|reflexivity|apply (IH fuel); lia]. intros r _. cbn. rewrite at_app. reflexivity.
    + apply runs_now. intros r Hr. reflexivity.
  - (* turn *) intros cond body cs st c more st' out _ [k1 IH1] T _ [k2 IH2] _ _ [k3 IH3]. exists (S (max k1 (max k2 k3))). intros fuel [|k] L1 L2; [lia|]. cbn [wloop].
    apply (runs_seqo (fun r => wregion truthy n fuel r cond (at_party r st ++ at_party r cs)) (fun r => at_party r (c :: more))
      (fun r res => if decide_on truthy (hd None res) then seqo (wregion truthy n fuel r body (at_party r st ++ at_party r cs)) (loop_of fuel r cond body (at_party r cs) k) else ret (at_party r st))).
    + eapply runs_ext; [|reflexivity|apply (IH1 fuel); lia]. intros r _. cbn. rewrite at_app. reflexivity.
    + eapply runs_trans.
      * apply runs_now with (q := fun r => seqo (wregion truthy n fuel r body (at_party r st ++ at_party r cs)) (loop_of fuel r cond body (at_party r cs) k)).
        intros r Hr. cbn [at_party map hd]. rewrite (proj1 (true_at_iff c r) (T r Hr)). reflexivity.
      * apply (runs_seqo (fun r => wregion truthy n fuel r body (at_party r st ++ at_party r cs)) (fun r => at_party r st') (fun r st => loop_of fuel r cond body (at_party r cs) k st)).
        -- eapply runs_ext; [|reflexivity|apply (IH2 fuel); lia]. intros r _. cbn. rewrite at_app. reflexivity.
        -- apply IH3; lia.
  - (* the condition fails *) intros cond body cs st _ [k1 IH]. exists (S k1). intros fuel [|k] L1 L2; [lia|]. cbn [wloop].
    apply (runs_seqo_throw (fun r => wregion truthy n fuel r cond (at_party r st ++ at_party r cs))
      (fun r res => if decide_on truthy (hd None res) then seqo (wregion truthy n fuel r body (at_party r st ++ at_party r cs)) (loop_of fuel r cond body (at_party r cs) k) else ret (at_party r st))).
    eapply runs_ext; [|reflexivity|apply (IH fuel); lia]. intros r _. cbn. rewrite at_app. reflexivity.
  - (* the body fails *) intros cond body cs st c more _ [k1 IH1] T _ [k2 IH2]. exists (S (max k1 k2)). intros fuel [|k] L1 L2; [lia|]. cbn [wloop].
    apply (runs_seqo (fun r => wregion truthy n fuel r cond (at_party r st ++ at_party r cs)) (fun r => at_party r (c :: more))
      (fun r res => if decide_on truthy (hd None res) then seqo (wregion truthy n fuel r body (at_party r st ++ at_party r cs)) (loop_of fuel r cond body (at_party r cs) k) else ret (at_party r st))).
    + eapply runs_ext; [|reflexivity|apply (IH1 fuel); lia]. intros r _. cbn. rewrite at_app. reflexivity.
    + eapply runs_trans.
      * apply runs_now with (q := fun r => seqo (wregion truthy n fuel r body (at_party r st ++ at_party r cs)) (loop_of fuel r cond body (at_party r cs) k)).
        intros r Hr. cbn [at_party map hd]. rewrite (proj1 (true_at_iff c r) (T r Hr)). reflexivity.
      * apply (runs_seqo_throw (fun r => wregion truthy n fuel r body (at_party r st ++ at_party r cs)) (fun r st => loop_of fuel r cond body (at_party r cs) k st)).
        eapply runs_ext; [|reflexivity|apply (IH2 fuel); lia]. intros r _. cbn. rewrite at_app. reflexivity.
Qed.

(* ---------------------------------------------------------------- the same, as a joint run of SimpModel *)
Definition same (vs ws : list mpval) : Prop := Forall2 (fun v w => forall r, r < n -> v r = w r) vs ws.
Notation run_region := (SimpModel.run_region VT V truthy n false).
Notation run_op := (SimpModel.run_op VT V truthy n false).
Definition full (act : nat -> bool) : Prop := forall r, r < n -> act r = true.

Lemma same_refl vs : same vs vs.
Proof. induction vs; constructor; auto. Qed.
Lemma same_app a b a' b' : same a a' -> same b b' -> same (a ++ b) (a' ++ b').
Proof. apply List.Forall2_app. Qed.
Lemma same_nth vs ws i v : same vs ws -> nth_error vs i = Some v -> exists w, nth_error ws i = Some w /\ forall r, r < n -> v r = w r.
Proof.
  intros H. revert i. induction H as [|x y vs ws E _ IH]; intros [|i] G; try discriminate G; [injection G as <-; eauto|apply IH, G].
Qed.
Lemma same_pick env env' is_ vs : same env env' -> pick env is_ vs -> exists ws, SimpModel.lookup env' is_ = Some ws /\ same vs ws.
Proof.
  intros H P. induction P as [|i x is_ vs E _ [ws [IH1 IH2]]]; [exists []; split; [reflexivity|constructor]|].
  destruct (same_nth _ _ _ _ H E) as (y & E' & Y). exists (y :: ws). cbn. rewrite E', IH1. split; [reflexivity|]. constructor; assumption.
Qed.
Lemma same_at r vs ws : r < n -> same vs ws -> at_party r vs = at_party r ws.
Proof. intros Hr H. induction H as [|x y vs ws E _ IH]; [reflexivity|]. cbn. rewrite (E r Hr). f_equal. exact IH. Qed.
Lemma same_map f g ks : (forall (k r : nat), r < n -> f k r = g k r) -> same (map f ks) (map g ks).
Proof. intros H. induction ks as [|k ks IH]; constructor; [intros r Hr; apply H, Hr|exact IH]. Qed.
Lemma same_length vs ws : same vs ws -> length vs = length ws.
Proof. induction 1; cbn; congruence. Qed.
Lemma bool_of_iff v r : SimpModel.bool_of V truthy v r = true <-> true_at truthy v r.
Proof. rewrite true_at_iff. reflexivity. Qed.
Lemma all_ranks f : (forall r, r < n -> f r = true) -> forallb f (SimpModel.ranks n) = true.
Proof. intros H. apply forallb_forall. intros r I. apply in_seq in I. apply H. lia. Qed.
Lemma dict_get_in routing t s : NoDup (map fst routing) -> In (t, s) routing -> SimpModel.dict_get routing t = Some s.
Proof.
  intros ND. unfold SimpModel.dict_get. induction routing as [|[a b] l IH]; intros H; [destruct H|]. cbn [map fst] in ND. inversion ND as [|? ? N1 N2]; subst. cbn [find fst].
  destruct (Nat.eqb_spec a t) as [->|Na]; destruct H as [H|H].
  - injection H as ->. reflexivity.
  - exfalso. apply N1. apply in_map_iff. exists (t, s). split; [reflexivity|exact H].
  - congruence.
  - apply IH; [exact N2|exact H].
Qed.
Lemma dict_get_none routing t : ~ In t (map fst routing) -> SimpModel.dict_get routing t = None.
Proof.
  intros H. unfold SimpModel.dict_get. induction routing as [|[a b] l IH]; [reflexivity|]. cbn [find fst]. cbn in H.
  destruct (Nat.eqb_spec a t); [tauto|]. apply IH. tauto.
Qed.

Lemma run_ret_eq fuel act outs (env : list mpval) : run_region fuel act (SimpModel.Ret _ _ outs) env = SimpModel.lookup env outs.
Proof. reflexivity. Qed.
Lemma run_pcall_eq fuel act ps args f (env : list mpval) : run_op fuel act (SimpModel.PCallStatic _ _ ps args f) env =
  match SimpModel.lookup env args with Some vs => SimpModel.run_pcall VT V n false act (fun r => SimpModel.inb r (SimpModel.norm ps)) f vs | None => None end.
Proof. reflexivity. Qed.
Lemma run_pcalld_eq fuel act args f (env : list mpval) : run_op fuel act (SimpModel.PCallDynamic _ _ args f) env =
  match SimpModel.lookup env args with Some vs => SimpModel.run_pcall VT V n false act (fun _ => true) f vs | None => None end.
Proof. reflexivity. Qed.
Lemma run_converge_eq fuel act args (env : list mpval) : run_op fuel act (SimpModel.Converge _ _ args) env =
  match SimpModel.lookup env args with Some vs => Some [SimpModel.run_converge V vs] | None => None end.
Proof. reflexivity. Qed.
Lemma run_shuffle_eq fuel act src routing (env : list mpval) : run_op fuel act (SimpModel.Shuffle _ _ src routing) env =
  match nth_error env src with Some v => option_map (fun v => [v]) (SimpModel.run_shuffle V n act v routing) | None => None end.
Proof. reflexivity. Qed.
Lemma run_cond_eq fuel act pred args th el (env : list mpval) : run_op fuel act (SimpModel.UniformCond _ _ pred args th el) env =
  match nth_error env pred, SimpModel.lookup env args with
  | Some p, Some vs =>
      if forallb act (SimpModel.ranks n) then
        if forallb (SimpModel.bool_of V truthy p) (SimpModel.ranks n) then run_region fuel act th vs
        else if forallb (fun r => negb (SimpModel.bool_of V truthy p r)) (SimpModel.ranks n) then run_region fuel act el vs
        else None
      else None
  | _, _ => None
  end.
Proof. reflexivity. Qed.

Lemma run_while_eq fuel act init caps imm c b (env : list mpval) : run_op fuel act (SimpModel.WhileLoop _ _ init caps imm c b) env =
  match SimpModel.lookup env init, SimpModel.lookup env caps with
  | Some st, Some cs => SimpProofs.while_loop_ truthy n (fun a e => run_region fuel a c e) (fun a e => run_region fuel a b e) cs fuel act st
  | _, _ => None
  end.
Proof. reflexivity. Qed.

Lemma loop_unroll (rc rb : (nat -> bool) -> list mpval -> option (list mpval)) (cs : list mpval) k act (st : list mpval) :
  SimpProofs.while_loop_ truthy n rc rb cs (S k) act st =
  match rc act (st ++ cs) with
  | Some (c :: _) =>
      if forallb (fun r => negb (SimpProofs.alive truthy act c r)) (SimpModel.ranks n) then Some st
      else match rb (SimpProofs.alive truthy act c) (st ++ cs) with
        | Some st' =>
            if length st' =? length st then
              SimpProofs.while_loop_ truthy n rc rb cs k (SimpProofs.alive truthy act c)
                (map (fun p : mpval * mpval => fun r => if SimpProofs.alive truthy act c r then fst p r else snd p r) (combine st' st))
            else None
        | None => None
        end
  | Some [] => Some st
  | None => None
  end.
Proof. reflexivity. Qed.

Definition region_joint (g : region) (env : list mpval) (out : outcome (list mpval)) : Prop :=
  forall vs, out = Done vs -> exists k0, forall fuel act env', k0 <= fuel -> full act -> same env env' -> exists vs', run_region fuel act g env' = Some vs' /\ same vs vs'.
Definition op_joint (o : op) (env : list mpval) (out : outcome (list mpval)) : Prop :=
  forall vs, out = Done vs -> exists k0, forall fuel act env', k0 <= fuel -> full act -> same env env' -> exists vs', run_op fuel act o env' = Some vs' /\ same vs vs'.
Definition loop_joint (cond body : region) (cs st : list mpval) (out : outcome (list mpval)) : Prop :=
  forall vs, out = Done vs -> exists k0, forall fuel k act cs' st', k0 <= fuel -> k0 <= k -> full act -> same cs cs' -> same st st' ->
    exists vs', SimpProofs.while_loop_ truthy n (fun a e => run_region fuel a cond e) (fun a e => run_region fuel a body e) cs' k act st' = Some vs' /\ same vs vs'.

Theorem joint_run_follows_meaning : 0 < n ->
  (forall g env out, means truthy n g env out -> region_joint g env out) /\
  (forall o env out, op_means truthy n o env out -> op_joint o env out) /\
  (forall cond body cs st out, loop_means truthy n cond body cs st out -> loop_joint cond body cs st out).
Proof.
  intros Hn. apply all_means; unfold region_joint, op_joint, loop_joint; try (intros; discriminate).
  - intros outs env vs H ? E. injection E as <-. exists 0. intros fuel act env' _ _ S1. destruct (same_pick _ _ _ _ S1 H) as (ws & L & S2). exists ws. rewrite run_ret_eq. split; [exact L|exact S2].
  - intros o rest env vs out _ IH1 _ IH2 vs2 ->. destruct (IH1 vs eq_refl) as [k1 H1]. destruct (IH2 vs2 eq_refl) as [k2 H2]. exists (max k1 k2). intros fuel act env' L F S1.
    destruct (H1 fuel act env' ltac:(lia) F S1) as (ws & R1 & W1). destruct (H2 fuel act (env' ++ ws) ltac:(lia) F (same_app _ _ _ _ S1 W1)) as (ws2 & R2 & W2).
    exists ws2. split; [|exact W2]. rewrite SimpProofs.run_let, R1. exact R2.
  - intros ps args f env vs H ? E. injection E as <-. exists 0. intros fuel act env' _ F S1. destruct (same_pick _ _ _ _ S1 H) as (ws & L & S2). first [rewrite run_pcall_eq | rewrite run_pcalld_eq]. rewrite L. unfold SimpModel.run_pcall. cbn [andb].
    eexists. split; [reflexivity|]. apply same_map. intros k r Hr. rewrite (F r Hr), inb_norm. cbn [andb]. rewrite (same_at r _ _ Hr S2). reflexivity.
  - intros args f env vs H ? E. injection E as <-. exists 0. intros fuel act env' _ F S1. destruct (same_pick _ _ _ _ S1 H) as (ws & L & S2). first [rewrite run_pcall_eq | rewrite run_pcalld_eq]. rewrite L. unfold SimpModel.run_pcall. cbn [andb].
    eexists. split; [reflexivity|]. apply same_map. intros k r Hr. rewrite (F r Hr). cbn [andb]. rewrite (same_at r _ _ Hr S2). reflexivity.
  - intros src routing env v w E (ND & IN & NS) W1 W2 ? E0. injection E0 as <-. exists 0. intros fuel act env' _ F S1. destruct (same_nth _ _ _ _ S1 E) as (v' & E' & V'). rewrite run_shuffle_eq, E'.
    unfold SimpModel.run_shuffle.
    assert (forall t s, SimpModel.dict_get routing t = Some s -> In (t, s) routing) as DG.
    { intros t s D. unfold SimpModel.dict_get in D. destruct (find _ routing) as [[a b]|] eqn:Fi; [|discriminate D]. apply find_some in Fi. destruct Fi as [I Q]. cbn in Q, D. apply Nat.eqb_eq in Q. injection D as <-. subst a. exact I. }
    rewrite all_ranks, (proj2 (forallb_forall _ _)).
    + cbn [andb option_map]. eexists. split; [reflexivity|]. constructor; [|constructor]. intros r Hr. rewrite (F r Hr).
      destruct (SimpModel.dict_get routing r) as [s|] eqn:D.
      * apply DG in D. rewrite (W1 r s D). apply V'. apply (IN r s D).
      * apply W2. intros I. apply in_map_iff in I. destruct I as [[t s] [E1 I]]. cbn in E1. subst t. rewrite (dict_get_in _ _ _ ND I) in D. discriminate D.
    + intros [t s] I. cbn [fst snd]. destruct (IN t s I) as [Ht Hs]. rewrite (proj2 (Nat.ltb_lt t n) Ht). apply orb_true_r.
    + intros r Hr. destruct (SimpModel.dict_get routing r) as [s|] eqn:D; [|reflexivity]. apply DG in D. destruct (IN r s D) as [_ Hs]. rewrite (F s Hs), (proj2 (Nat.ltb_lt s n) Hs). apply orb_true_r.
  - intros args env vs H ? E. injection E as <-. exists 0. intros fuel act env' _ F S1. destruct (same_pick _ _ _ _ S1 H) as (ws & L & S2). rewrite run_converge_eq, L. eexists. split; [reflexivity|].
    constructor; [|constructor]. intros r Hr. clear - Hr S2. unfold SimpModel.run_converge. induction S2 as [|x y vs ws E _ IH]; [reflexivity|]. cbn. rewrite (E r Hr). destruct (y r); [reflexivity|]. exact IH.
  - intros pred args th el env p vs out E H T _ IH vs2 ->. destruct (IH vs2 eq_refl) as [k1 H1]. exists k1. intros fuel act env' L F S1.
    destruct (same_nth _ _ _ _ S1 E) as (p' & E' & P'). destruct (same_pick _ _ _ _ S1 H) as (ws & L' & S2). rewrite run_cond_eq, E', L', (all_ranks act F).
    rewrite (all_ranks (SimpModel.bool_of V truthy p')); [apply H1; assumption|].
    intros r Hr. assert (SimpModel.bool_of V truthy p r = true) as B by (apply bool_of_iff, T, Hr). unfold SimpModel.bool_of in *. rewrite <- (P' r Hr). exact B.
  - intros pred args th el env p vs out E H T _ IH vs2 ->. destruct (IH vs2 eq_refl) as [k1 H1]. exists k1. intros fuel act env' L F S1.
    destruct (same_nth _ _ _ _ S1 E) as (p' & E' & P'). destruct (same_pick _ _ _ _ S1 H) as (ws & L' & S2). rewrite run_cond_eq, E', L', (all_ranks act F).
    assert (forall r, r < n -> SimpModel.bool_of V truthy p' r = false) as B.
    { intros r Hr. apply not_true_iff_false. intros B. apply (T r Hr), bool_of_iff. unfold SimpModel.bool_of in *. rewrite (P' r Hr). exact B. }
    destruct (forallb (SimpModel.bool_of V truthy p') (SimpModel.ranks n)) eqn:Q.
    + exfalso. rewrite forallb_forall in Q. specialize (Q 0 ltac:(apply in_seq; lia)). rewrite B in Q by lia. discriminate Q.
    + rewrite (all_ranks (fun r => negb (SimpModel.bool_of V truthy p' r))); [apply H1; assumption|]. intros r Hr. rewrite (B r Hr). reflexivity.
  - intros init caps imm cond body env st cs out H1 H2 _ IH vs2 ->. destruct (IH vs2 eq_refl) as [k1 H]. exists k1. intros fuel act env' L F S1.
    destruct (same_pick _ _ _ _ S1 H1) as (st' & L1 & S2). destruct (same_pick _ _ _ _ S1 H2) as (cs' & L2 & S3).
    rewrite run_while_eq, L1, L2. apply H; assumption.
  - (* leave *) intros cond body cs st c more _ IH T ? E. injection E as <-. destruct (IH _ eq_refl) as [k1 H]. exists (S k1). intros fuel [|k] act cs' st' L1 L2 F S1 S2; [lia|].
    destruct (H fuel act (st' ++ cs') ltac:(lia) F (same_app _ _ _ _ S2 S1)) as (ws & R & W). inversion W as [|? c' ? more' C W']; subst.
    rewrite loop_unroll; cbv beta. rewrite R. rewrite all_ranks; [exists st'; split; [reflexivity|exact S2]|].
    intros r Hr. unfold SimpProofs.alive. rewrite (F r Hr). cbn [andb]. apply negb_true_iff, not_true_iff_false. intros B. apply (T r Hr), bool_of_iff.
    unfold SimpModel.bool_of in *. rewrite (C r Hr). exact B.
  - intros cond body cs st _ IH ? E. injection E as <-. destruct (IH _ eq_refl) as [k1 H]. exists (S k1). intros fuel [|k] act cs' st' L1 L2 F S1 S2; [lia|].
    destruct (H fuel act (st' ++ cs') ltac:(lia) F (same_app _ _ _ _ S2 S1)) as (ws & R & W). inversion W; subst.
    rewrite loop_unroll; cbv beta. rewrite R. exists st'. split; [reflexivity|exact S2].
  - (* turn *) intros cond body cs st c more st1 out _ IH1 T _ IH2 Len _ IH3 vs2 ->. destruct (IH1 _ eq_refl) as [k1 H1]. destruct (IH2 _ eq_refl) as [k2 H2]. destruct (IH3 _ eq_refl) as [k3 H3].
    exists (S (max k1 (max k2 k3))). intros fuel [|k] act cs' st' L1 L2 F S1 S2; [lia|].
    destruct (H1 fuel act (st' ++ cs') ltac:(lia) F (same_app _ _ _ _ S2 S1)) as (ws & R & W). inversion W as [|? c' ? more' C W']; subst.
    assert (full (SimpProofs.alive truthy act c')) as F'.
    { intros r Hr. unfold SimpProofs.alive. rewrite (F r Hr). cbn [andb]. pose proof (proj2 (bool_of_iff c r) (T r Hr)) as B. unfold SimpModel.bool_of in *. rewrite <- (C r Hr). exact B. }
    destruct (H2 fuel (SimpProofs.alive truthy act c') (st' ++ cs') ltac:(lia) F' (same_app _ _ _ _ S2 S1)) as (ws2 & R2 & W2).
    rewrite loop_unroll; cbv beta. rewrite R.
    destruct (forallb (fun r => negb (SimpProofs.alive truthy act c' r)) (SimpModel.ranks n)) eqn:Q.
    { exfalso. rewrite forallb_forall in Q. specialize (Q 0 ltac:(apply in_seq; lia)). rewrite F' in Q by lia. discriminate Q. }
    rewrite R2.
    assert (length ws2 = length st') as Len2 by exact (eq_trans (eq_sym (same_length _ _ W2)) (eq_trans Len (same_length _ _ S2))).
    match goal with |- context [if ?b then _ else _] => assert (b = true) as -> by exact (proj2 (Nat.eqb_eq _ _) Len2) end.
    apply H3; [lia|lia|exact F'|exact S1|].
    clear - W2 F' Len2. revert st' Len2. induction W2 as [|x y vs ws E _ IH]; intros [|z zs] Len2; try discriminate Len2; [constructor|]. cbn [combine map]. constructor.
    + intros r Hr. cbn [fst snd]. rewrite (F' r Hr). apply E, Hr.
    + apply IH. cbn in Len2. lia.
Qed.
End Spmd.

(* ---------------------------------------------------------------- loop-free programs have an outcome *)
Section Outcome.
Context {VT V : Type}.
Variable vt_eqb : VT -> VT -> bool.
Variable truthy : V -> bool.
Variable n : nat.
Notation region := (SimpModel.region VT V).
Notation op := (SimpModel.op VT V).
Notation mpval := (nat -> option V).

Lemma lookup_len {A} (env : list A) is_ l : SimpModel.lookup env is_ = Some l -> length l = length is_.
Proof.
  revert l. induction is_ as [|i is_ IH]; intros l H; [injection H as <-; reflexivity|]. cbn in H.
  destruct (nth_error env i); [|discriminate H]. destruct (SimpModel.lookup env is_); [|discriminate H]. injection H as <-. cbn. f_equal. apply IH. reflexivity.
Qed.
Lemma pick_exists {A B} (ts : list A) (env : list B) is_ l : length env = length ts -> SimpModel.lookup ts is_ = Some l -> exists vs, pick env is_ vs /\ length vs = length l.
Proof.
  intros L. revert l. induction is_ as [|i is_ IH]; intros l H; [injection H as <-; exists []; split; [constructor|reflexivity]|]. cbn in H.
  destruct (nth_error ts i) as [t|] eqn:E; [|discriminate H]. destruct (SimpModel.lookup ts is_) as [l'|]; [|discriminate H]. injection H as <-.
  destruct (IH l' eq_refl) as (vs & P & Q). destruct (nth_error env i) as [v|] eqn:E'.
  - exists (v :: vs). split; [constructor; assumption|cbn; congruence].
  - exfalso. apply nth_error_None in E'. assert (i < length ts) by (apply nth_error_Some; congruence). lia.
Qed.
Lemma nth_exists {A B} (ts : list A) (env : list B) i t : length env = length ts -> nth_error ts i = Some t -> exists v, nth_error env i = Some v.
Proof.
  intros L E. destruct (nth_error env i) eqn:E'; [eauto|]. exfalso. apply nth_error_None in E'. assert (i < length ts) by (apply nth_error_Some; congruence). lia.
Qed.

Definition has_outcome (g : region) : Prop := forall ts tso (env : list mpval), loop_free n g -> SimpModel.type_region VT V vt_eqb g ts = Some tso -> length env = length ts ->
  exists out, means truthy n g env out /\ forall vs, out = Done vs -> length vs = length tso.
Definition op_has_outcome (o : op) : Prop := forall ts tso (env : list mpval), loop_free_op n o -> SimpModel.type_op VT V vt_eqb o ts = Some tso -> length env = length ts ->
  exists out, op_means truthy n o env out /\ forall vs, out = Done vs -> length vs = length tso.

Lemma decide_all (p : mpval) m : (forall r, r < m -> true_at truthy p r) \/ (exists r, r < m /\ ~ true_at truthy p r).
Proof.
  induction m as [|m [IH|(r & L & N)]]; [left; lia| |right; exists r; split; [lia|exact N]].
  destruct (decide_on truthy (p m)) eqn:D.
  - left. intros r Hr. destruct (Nat.eq_dec r m) as [->|]; [apply true_at_iff, D|apply IH; lia].
  - right. exists m. split; [lia|]. apply not_true_at, D.
Qed.
Lemma decide_none (p : mpval) m : (forall r, r < m -> ~ true_at truthy p r) \/ (exists r, r < m /\ true_at truthy p r).
Proof.
  induction m as [|m [IH|(r & L & N)]]; [left; lia| |right; exists r; split; [lia|exact N]].
  destruct (decide_on truthy (p m)) eqn:D.
  - right. exists m. split; [lia|]. apply true_at_iff, D.
  - left. intros r Hr. destruct (Nat.eq_dec r m) as [->|]; [apply not_true_at, D|apply IH; lia].
Qed.

Theorem loop_free_outcome : (forall g, has_outcome g) /\ (forall o, op_has_outcome o).
Proof.
  apply SimpProofs.prog_ind; unfold has_outcome, op_has_outcome.
  - intros outs ts tso env _ T L. cbn in T. destruct (pick_exists _ env _ _ L T) as (vs & P & Q). exists (Done vs). split; [apply m_ret, P|]. intros ? E. injection E as <-. exact Q.
  - intros o IHo rest IHr ts tso env [F1 F2] T L. rewrite SimpProofs.type_let in T. destruct (SimpModel.type_op VT V vt_eqb o ts) as [l|] eqn:To; [|discriminate T].
    destruct (IHo ts l env F1 To L) as ([vs|] & M1 & K1); [|exists NotUniform; split; [apply m_let_fails, M1|discriminate]].
    destruct (IHr (ts ++ l) tso (env ++ vs) F2 T) as (out & M2 & K2); [rewrite !app_length, L, (K1 vs eq_refl); reflexivity|].
    exists out. split; [eapply m_let; eassumption|exact K2].
  - intros ps args f ts tso env _ T L. cbn in T. destruct (SimpModel.lookup ts args) as [l|] eqn:E; [|discriminate T]. destruct (pick_exists _ env _ _ L E) as (vs & P & Q).
    eexists. split; [apply m_pcall_static, P|]. intros ? H. injection H as <-. unfold SimpModel.type_pcall_static in T. destruct (match SimpModel.deduce_parties VT l with None => _ | Some _ => _ end); [|discriminate T].
    injection T as <-. rewrite !map_length, seq_length. reflexivity.
  - intros args f ts tso env _ T L. cbn in T. destruct (SimpModel.lookup ts args) as [l|] eqn:E; [|discriminate T]. destruct (pick_exists _ env _ _ L E) as (vs & P & Q).
    eexists. split; [apply m_pcall_dynamic, P|]. intros ? H. injection H as <-. injection T as <-. rewrite !map_length, seq_length. reflexivity.
  - intros src routing ts tso env D T L. cbn in T, D. destruct (nth_error ts src) as [t|] eqn:E; [|discriminate T]. destruct (nth_exists _ env _ _ L E) as [v Ev].
    exists (Done [fun t => match SimpModel.dict_get routing t with Some s => v s | None => None end]). split.
    + apply (m_shuffle _ _ _ _ _ v); [exact Ev|exact D| |].
      * intros a b I. rewrite (dict_get_in _ _ _ (proj1 D) I). reflexivity.
      * intros a I. rewrite (dict_get_none _ _ I). reflexivity.
    + intros ? H. injection H as <-. destruct (SimpModel.type_shuffle VT t routing); [injection T as <-; reflexivity|discriminate T].
  - intros args ts tso env _ T L. cbn in T. destruct (SimpModel.lookup ts args) as [l|] eqn:E; [|discriminate T]. destruct (pick_exists _ env _ _ L E) as (vs & P & Q).
    eexists. split; [apply m_converge, P|]. intros ? H. injection H as <-. destruct (SimpModel.type_converge VT vt_eqb l); [injection T as <-; reflexivity|discriminate T].
  - intros pred args th IH1 el IH2 ts tso env [F1 F2] T L. rewrite SimpProofs.type_cond in T. destruct (nth_error ts pred) as [t|] eqn:E; [|discriminate T].
    destruct (SimpModel.lookup ts args) as [l|] eqn:El; [|discriminate T]. destruct (nth_exists _ env _ _ L E) as [p Ep]. destruct (pick_exists _ env _ _ L El) as (vs & P & Q).
    destruct (SimpModel.type_region VT V vt_eqb th l) as [a|] eqn:Ta; [|discriminate T]. destruct (SimpModel.type_region VT V vt_eqb el l) as [b|] eqn:Tb; [|discriminate T].
    destruct (Nat.eqb_spec (length a) (length b)) as [Lab|]; [|discriminate T]. destruct (forallb _ (combine a b)); [|discriminate T]. injection T as <-.
    destruct (decide_all p n) as [A|(x & Lx & Nx)].
    + destruct (IH1 l a vs F1 Ta Q) as (out & M & K). exists out. split; [eapply m_cond_true; eassumption|exact K].
    + destruct (decide_none p n) as [B|(y & Ly & Ty)].
      * destruct (IH2 l b vs F2 Tb Q) as (out & M & K). exists out. split; [eapply m_cond_false; eassumption|]. intros ws Ew. rewrite (K ws Ew). symmetry. exact Lab.
      * exists NotUniform. split; [exact (m_cond_differs truthy n pred args th el env p vs y x Ep P Ly Lx Ty Nx)|discriminate].
  - intros init caps imm c IHc b IHb ts tso env [].
Qed.
End Outcome.
