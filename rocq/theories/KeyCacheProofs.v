(** Proofs about the BFV key cache. *)
From Coq Require Import List ZArith Bool Arith Lia.
From Verif Require Import BFVModel.
Import ListNotations.
Local Open Scope nat_scope.

Definition found (st : keystate) (d t : Z) : option ((Z * Z) * nat) :=
  find (fun e => (fst (fst e) =? d)%Z && (snd (fst e) =? t)%Z) (cache st).

Lemma found_in st d t e : found st d t = Some e -> In e (cache st) /\ fst e = (d, t).
Proof.
  intros H. apply find_some in H. destruct H as [H1 H2]. split; [exact H1|]. apply andb_prop in H2. destruct H2 as [A B].
  apply Z.eqb_eq in A, B. destruct e as [[a b] k]. cbn in *. congruence.
Qed.
Lemma find_app_some {A} (f : A -> bool) l l' x : find f l = Some x -> find f (l ++ l') = Some x.
Proof. induction l as [|a l IH]; [discriminate|]. cbn [find app]. destruct (f a); auto. Qed.
Lemma find_app_none {A} (f : A -> bool) l l' : find f l = None -> find f (l ++ l') = find f l'.
Proof. induction l as [|a l IH]; [reflexivity|]. cbn [find app]. destruct (f a); [discriminate|auto]. Qed.

Lemma keygen_cases st d t : 
  (exists k, found st d t = Some ((d, t), k) /\ keygen d t st = ((PublicCtx k, SecretCtx k), st)) \/
  (found st d t = None /\ keygen d t st = ((PublicCtx (fresh st), SecretCtx (fresh st)), KS (cache st ++ [((d, t), fresh st)]) (S (fresh st)))).
Proof.
  unfold keygen. fold (found st d t). destruct (found st d t) as [[p k]|] eqn:E; [left|right; auto].
  destruct (found_in _ _ _ _ E) as [_ Ep]. cbn in Ep. subst p. exists k. auto.
Qed.

(** the state remembers key k for (d, t) *)
Lemma keep st o d t k : found st d t = Some ((d, t), k) -> o <> ClearCache -> found (fst (key_step st o)) d t = Some ((d, t), k).
Proof.
  intros H Ho. destruct o as [d' t'|]; [|contradiction]. cbn [key_step].
  destruct (keygen_cases st d' t') as [(k' & _ & ->)|(N & ->)]; cbn [fst]; [exact H|].
  unfold found. cbn [cache]. apply find_app_some, H.
Qed.
Lemma keygen_remembers st d t : exists k, fst (keygen d t st) = (PublicCtx k, SecretCtx k) /\ found (snd (keygen d t st)) d t = Some ((d, t), k).
Proof.
  destruct (keygen_cases st d t) as [(k & F & ->)|(N & ->)]; cbn [fst snd]; [exists k; auto|].
  exists (fresh st). split; [reflexivity|]. unfold found in *. cbn [cache]. rewrite find_app_none by exact N. cbn [find fst snd]. rewrite !Z.eqb_refl. reflexivity.
Qed.
Lemma later_same ops : forall st d t k j, found st d t = Some ((d, t), k) ->
  (forall m, m < j -> nth_error ops m <> Some ClearCache) -> nth_error ops j = Some (Keygen d t) ->
  nth_error (key_run st ops) j = Some (Some (PublicCtx k, SecretCtx k)).
Proof.
  induction ops as [|o ops IH]; intros st d t k j F Hc Hj; [destruct j; discriminate Hj|].
  destruct j as [|j].
  - cbn [nth_error] in Hj. injection Hj as ->. cbn [key_run key_step].
    destruct (keygen_cases st d t) as [(k' & F' & ->)|(N & _)]; [|rewrite F in N; discriminate N].
    cbn [nth_error]. rewrite F in F'. injection F' as <-. reflexivity.
  - cbn [key_run]. destruct (key_step st o) as [st' r] eqn:E. cbn [nth_error].
    apply (IH st' d t k j); [|intros m Hm; apply (Hc (S m)); lia|exact Hj].
    replace st' with (fst (key_step st o)) by (rewrite E; reflexivity). apply keep; [exact F|].
    intros ->. apply (Hc 0); [lia|reflexivity].
Qed.

(** key k is issued already and can only come back for (d, t) — or never, once forgotten *)
Definition only_for (st : keystate) (k : nat) (p : option (Z * Z)) : Prop :=
  k < fresh st /\ forall q, In (q, k) (cache st) -> p = Some q.
Lemma only_step st o k p : only_for st k p -> only_for (fst (key_step st o)) k (match o with ClearCache => None | _ => p end).
Proof.
  intros [L O]. destruct o as [d t|]; cbn [key_step].
  - destruct (keygen_cases st d t) as [(k' & _ & ->)|(N & ->)]; cbn [fst]; [split; assumption|]. split; cbn [fresh cache]; [lia|].
    intros q Hq. apply in_app_or in Hq. destruct Hq as [Hq|[Hq|[]]]; [apply O, Hq|]. injection Hq as _ Hk. lia.
  - cbn [fst]. split; [exact L|]. intros q [].
Qed.
Lemma later_only ops : forall st k p j d t, only_for st k p ->
  nth_error ops j = Some (Keygen d t) -> nth_error (key_run st ops) j = Some (Some (PublicCtx k, SecretCtx k)) ->
  p = Some (d, t) /\ forall m, m < j -> nth_error ops m <> Some ClearCache.
Proof.
  induction ops as [|o ops IH]; intros st k p j d t O Hj Hr; [destruct j; discriminate Hj|].
  destruct j as [|j].
  - cbn [nth_error] in Hj. injection Hj as ->. cbn [key_run key_step] in Hr.
    destruct (keygen_cases st d t) as [(k' & F & E)|(N & E)]; rewrite E in Hr; cbn [nth_error] in Hr; injection Hr as Hk.
    + subst k'. split; [|intros m Hm; lia]. apply O, (found_in _ _ _ _ F).
    + destruct O as [L _]. lia.
  - cbn [key_run] in Hr. destruct (key_step st o) as [st' r] eqn:E. cbn [nth_error] in Hr, Hj.
    pose proof (only_step st o k p O) as O'. rewrite E in O'. cbn [fst] in O'.
    destruct (IH st' k _ j d t O' Hj Hr) as [P C]. destruct o as [d' t'|]; [|discriminate P].
    split; [exact P|]. intros [|m] Hm; [discriminate|]. apply C. lia.
Qed.
Definition wf_cache (st : keystate) : Prop := (forall q k, In (q, k) (cache st) -> k < fresh st) /\
  forall q q' k, In (q, k) (cache st) -> In (q', k) (cache st) -> q = q'.
Lemma wf_step st o : wf_cache st -> wf_cache (fst (key_step st o)).
Proof.
  intros [L U]. destruct o as [d t|]; cbn [key_step].
  - destruct (keygen_cases st d t) as [(k' & _ & ->)|(N & ->)]; cbn [fst]; [split; assumption|]. split; cbn [fresh cache].
    + intros q k Hq. apply in_app_or in Hq. destruct Hq as [Hq|[Hq|[]]]; [apply L in Hq; lia|]. injection Hq as _ <-. lia.
    + intros q q' k Hq Hq'. apply in_app_or in Hq, Hq'. destruct Hq as [Hq|[Hq|[]]], Hq' as [Hq'|[Hq'|[]]].
      * apply (U q q' k); assumption.
      * injection Hq' as _ <-. apply L in Hq. lia.
      * injection Hq as _ <-. apply L in Hq'. lia.
      * congruence.
  - cbn [fst]. split; [intros q k []|intros q q' k []].
Qed.
Lemma keygen_only st d t : wf_cache st -> exists k, fst (keygen d t st) = (PublicCtx k, SecretCtx k) /\ only_for (snd (keygen d t st)) k (Some (d, t)).
Proof.
  intros [L U]. destruct (keygen_cases st d t) as [(k & F & ->)|(N & ->)]; cbn [fst snd].
  - exists k. split; [reflexivity|]. destruct (found_in _ _ _ _ F) as [I _]. split; [apply (L _ _ I)|]. intros q Hq. f_equal. apply (U _ _ k I Hq).
  - exists (fresh st). split; [reflexivity|]. split; cbn [fresh cache]; [lia|]. intros q Hq. apply in_app_or in Hq.
    destruct Hq as [Hq|[Hq|[]]]; [apply L in Hq; lia|]. congruence.
Qed.

(** two calls return the same pair exactly when they ask for the same parameters and the cache
    was not cleared in between *)
Lemma same_key_iff ops : forall st i j d t d' t', wf_cache st -> i < j ->
  nth_error ops i = Some (Keygen d t) -> nth_error ops j = Some (Keygen d' t') ->
  (nth_error (key_run st ops) i = nth_error (key_run st ops) j <->
   (d, t) = (d', t') /\ forall m, i < m < j -> nth_error ops m <> Some ClearCache).
Proof.
  induction ops as [|o ops IH]; intros st i j d t d' t' W Hij Hi Hj; [destruct i; discriminate Hi|].
  destruct j as [|j]; [lia|]. cbn [key_run]. destruct (key_step st o) as [st' r] eqn:E. 
  assert (wf_cache st') as W' by (replace st' with (fst (key_step st o)) by (rewrite E; reflexivity); apply wf_step, W).
  destruct i as [|i].
  - cbn [nth_error] in *. injection Hi as ->. cbn [key_step] in E.
    destruct (keygen_remembers st d t) as (k & Ek & Fk). destruct (keygen_only st d t W) as (k2 & Ek2 & Ok).
    destruct (keygen d t st) as [ks st2]. cbn [fst snd] in *. injection E as <- <-. rewrite Ek in Ek2. injection Ek2 as <-. subst ks. split.
    + intros Heq. symmetry in Heq. destruct (later_only ops st2 k (Some (d, t)) j d' t' Ok Hj Heq) as [P C]. split; [congruence|].
      intros [|m] Hm; [lia|]. apply C. lia.
    + intros [P C]. injection P as <- <-. symmetry. apply (later_same ops st2 d t k j Fk); [|exact Hj]. intros m Hm. apply (C (S m)). lia.
  - cbn [nth_error] in Hi, Hj |- *. rewrite (IH st' i j d t d' t' W' ltac:(lia) Hi Hj). split; intros [P C]; (split; [exact P|]).
    + intros [|m] Hm; [lia|]. apply C. lia.
    + intros m Hm. apply (C (S m)). lia.
Qed.
