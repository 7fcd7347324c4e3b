(** Specification and proofs for JobModel. *)
From Coq Require Import List Bool Arith Lia.
From Verif Require Import JobModel.
Import ListNotations.
Local Open Scope nat_scope.

(** the thread of a job that has not recorded its end yet *)
Definition active {R E : Type} (p : pc R E) : Prop := match p with Queued _ _ _ | Running _ _ _ => True | _ => False end.
(** the jobs a server has accepted, in order *)
Fixpoint accepted {R S E : Type} (l : list (entry R S E)) : list (nat * outcome R E) :=
  match l with
  | [] => []
  | Accepted _ _ _ id o :: l => (id, o) :: accepted l
  | _ :: l => accepted l
  end.
(** a response claims nothing false about a job with outcome o *)
Definition truthful {R S E : Type} (dumps : R -> option S) (o : outcome R E) (s : status) (res : option S) (err : option E) : Prop :=
  (s = SUCCESS -> exists r, o = Ok _ _ r) /\ (s = FAILED -> exists e, o = Err _ _ e) /\
  (forall x, res = Some x -> exists r, o = Ok _ _ r /\ dumps r = Some x) /\ (forall e, err = Some e -> o = Err _ _ e).

Lemma set_nth {A : Type} (l : list A) i x j : nth_error (set l i x) j = if (i =? j) && (j <? length l) then Some x else nth_error l j.
Proof.
  revert i j. induction l as [|a l IH]; intros [|i] [|j]; cbn [set nth_error length]; try reflexivity; try (rewrite andb_false_r; reflexivity).
  rewrite IH. reflexivity.
Qed.
Lemma set_same {A : Type} (l : list A) i x : i < length l -> nth_error (set l i x) i = Some x.
Proof. intros H. rewrite set_nth, Nat.eqb_refl. apply Nat.ltb_lt in H. rewrite H. reflexivity. Qed.
Lemma set_other {A : Type} (l : list A) i x j : i <> j -> nth_error (set l i x) j = nth_error l j.
Proof. intros H. rewrite set_nth. apply Nat.eqb_neq in H. rewrite H. reflexivity. Qed.
Lemma set_len {A : Type} (l : list A) i x : length (set l i x) = length l.
Proof. revert i. induction l as [|a l IH]; intros [|i]; cbn; auto. Qed.

Section P.
Context {R S E : Type}.
Variable dumps : R -> option S.
Variable dump_error : E.
Hypothesis dumps_total : forall r, dumps r <> None.
Notation server := (server R S E). Notation outcome := (outcome R E). Notation task := (task S E). Notation thread := (thread R E). Notation pc := (pc R E). Notation event := (event R E).
Notation run := (run R S E dumps dump_error). Notation step := (step R S E dumps dump_error).
Notation heap := (heap R S E). Notation tasks := (tasks R S E). Notation threads := (threads R S E). Notation polling := (polling R S E). Notation log := (log R S E).
Notation unfinished := (unfinished S E).

Lemma get_In id d i : get id d = Some i -> In (id, i) d.
Proof. induction d as [|[k v] d IH]; cbn; [discriminate|]. destruct (Nat.eqb_spec k id) as [->|]; [intros H; injection H as ->; left; reflexivity|right; auto]. Qed.
Lemma get_Some_of_In id i d : In (id, i) d -> exists j, get id d = Some j.
Proof. induction d as [|[k v] d IH]; cbn; [intros []|]. intros [H|H]; [injection H as -> ->; rewrite Nat.eqb_refl; eauto|]. destruct (k =? id); eauto. Qed.
Lemma in_current (sv : server) t : In t (current R S E sv) <-> exists id i, get id (tasks sv) = Some i /\ nth_error (heap sv) i = Some t.
Proof.
  unfold current. rewrite in_flat_map. split.
  - intros ([id v] & _ & H). cbn [fst] in H. destruct (get id (tasks sv)) as [i|] eqn:G; [|destruct H]. destruct (nth_error (heap sv) i) as [t'|] eqn:N; [|destruct H]. destruct H as [<-|[]]. eauto.
  - intros (id & i & G & N). exists (id, i). split; [apply get_In, G|]. cbn [fst]. rewrite G, N. left. reflexivity.
Qed.

(* ---------------------------------------------------------------- one job at a time *)
Record inv1 (sv : server) : Prop := {
  i_one : forall k k' th th', nth_error (threads sv) k = Some th -> nth_error (threads sv) k' = Some th' -> active (th_pc _ _ th) -> active (th_pc _ _ th') -> k = k';
  i_obj : forall k th, nth_error (threads sv) k = Some th -> active (th_pc _ _ th) -> exists i t, get (th_id _ _ th) (tasks sv) = Some i /\ nth_error (heap sv) i = Some t /\ unfinished t = true;
  i_unf : forall id i t, get id (tasks sv) = Some i -> nth_error (heap sv) i = Some t -> unfinished t = true -> exists k th, nth_error (threads sv) k = Some th /\ active (th_pc _ _ th) /\ th_id _ _ th = id;
  i_in : forall id i, get id (tasks sv) = Some i -> i < length (heap sv);
  i_inj : forall id id' i, get id (tasks sv) = Some i -> get id' (tasks sv) = Some i -> id = id' }.
Lemma inv1_init : inv1 (init R S E).
Proof. split; cbn; intros; try discriminate; destruct k; discriminate. Qed.

Lemma no_active (sv : server) : inv1 sv -> (existsb unfinished (current R S E sv) = false <-> forall k th, nth_error (threads sv) k = Some th -> ~ active (th_pc _ _ th)).
Proof.
  intros I. split.
  - intros F k th Hk Ha. destruct (i_obj sv I k th Hk Ha) as (i & t & G & N & U). assert (existsb unfinished (current R S E sv) = true); [|congruence]. apply existsb_exists. exists t. split; [apply in_current; eauto|exact U].
  - intros H. destruct (existsb _ _) eqn:Ex; [|reflexivity]. exfalso. apply existsb_exists in Ex. destruct Ex as (t & Ht & U). apply in_current in Ht. destruct Ht as (id & i & G & N). destruct (i_unf sv I id i t G N U) as (k & th & Hk & Ha & _). exact (H k th Hk Ha).
Qed.
Lemma nth_app_last {A : Type} (l : list A) x k y : nth_error (l ++ [x]) k = Some y -> nth_error l k = Some y \/ (k = length l /\ y = x).
Proof.
  intros H. destruct (Nat.lt_ge_cases k (length l)) as [L|L]; [left; rewrite nth_error_app1 in H; assumption|]. right. rewrite nth_error_app2 in H by exact L. destruct (k - length l) as [|m] eqn:Em; [|destruct m; discriminate H]. injection H as <-. split; [lia|reflexivity].
Qed.
Lemma inv1_submit (sv : server) id o : inv1 sv -> inv1 (submit R S E sv id o).
Proof.
  intros I. unfold submit. destruct (existsb unfinished (current R S E sv)) eqn:Ex.
  { destruct I as [a b c d e]. split; cbn; assumption. }
  pose proof (proj1 (no_active sv I) Ex) as NA. destruct I as [I1 I2 I3 I4 I5]. split; cbn [threads heap tasks JobModel.threads JobModel.heap JobModel.tasks].
  - intros k k' th th' H H' A A'. apply nth_app_last in H. apply nth_app_last in H'. destruct H as [H|[-> ->]]; [exfalso; exact (NA _ _ H A)|]. destruct H' as [H'|[-> ->]]; [exfalso; exact (NA _ _ H' A')|]. reflexivity.
  - intros k th H A. apply nth_app_last in H. destruct H as [H|[-> ->]]; [exfalso; exact (NA _ _ H A)|]. cbn [th_id get]. rewrite Nat.eqb_refl. exists (length (heap sv)), (Task _ _ PENDING None None). split; [reflexivity|]. split; [|reflexivity]. rewrite nth_error_app2, Nat.sub_diag by lia. reflexivity.
  - intros id' i t G N U. cbn [get] in G. destruct (Nat.eqb_spec id id') as [<-|Ne].
    + exists (length (threads sv)), (Thread _ _ id (Queued _ _ o)). split; [rewrite nth_error_app2, Nat.sub_diag by lia; reflexivity|]. split; [exact Logic.I|reflexivity].
    + exfalso. apply nth_app_last in N. destruct N as [N|[-> ->]]; [|specialize (I4 _ _ G); cbn in I4; lia].
      assert (existsb unfinished (current R S E sv) = true); [|congruence]. apply existsb_exists. exists t. split; [apply in_current; eauto|exact U].
  - intros id' i G. rewrite app_length. cbn [length get] in *. destruct (Nat.eqb_spec id id'); [injection G as <-; lia|]. specialize (I4 _ _ G). cbn in I4. lia.
  - intros a b i Ga Gb. cbn [get] in Ga, Gb. destruct (Nat.eqb_spec id a) as [<-|Na], (Nat.eqb_spec id b) as [<-|Nb]; [reflexivity| | |exact (I5 _ _ _ Ga Gb)].
    + injection Ga as <-. specialize (I4 _ _ Gb). cbn in I4. lia.
    + injection Gb as <-. specialize (I4 _ _ Ga). cbn in I4. lia.
Qed.

(** the effect of one assignment by thread k *)
Lemma inv1_next (sv : server) k id (p p' : pc) f : inv1 sv -> nth_error (threads sv) k = Some (Thread _ _ id p) ->
  (active p /\ active p' /\ (forall t, unfinished (f t) = true) \/ active p /\ ~ active p' /\ (forall t, unfinished (f t) = false) \/ ~ active p /\ ~ active p' /\ (forall t, unfinished (f t) = unfinished t)) ->
  inv1 (Server _ _ _ (assign R S E sv id f) (tasks sv) (set (threads sv) k (Thread _ _ id p')) (polling sv) (log sv)).
Proof.
  intros [I1 I2 I3 I4 I5] Hk C. assert (k < length (threads sv)) as Lk by (apply nth_error_Some; congruence).
  assert (forall j t', nth_error (assign R S E sv id f) j = Some t' -> (exists t, get id (tasks sv) = Some j /\ nth_error (heap sv) j = Some t /\ t' = f t) \/ (get id (tasks sv) <> Some j /\ nth_error (heap sv) j = Some t')) as HA.
  { intros j t' H. unfold assign in H. destruct (get id (tasks sv)) as [i|] eqn:G; [|right; split; [congruence|exact H]]. destruct (nth_error (heap sv) i) as [t|] eqn:N.
    - destruct (Nat.eq_dec i j) as [->|Ne]; [|right; split; [congruence|]; rewrite set_other in H by exact Ne; exact H]. rewrite set_same in H by (apply nth_error_Some; congruence). injection H as <-. left. exists t. auto.
    - right. split; [|exact H]. intros Q. injection Q as ->. congruence. }
  assert (forall j th, nth_error (set (threads sv) k (Thread _ _ id p')) j = Some th -> (j = k /\ th = Thread _ _ id p') \/ (j <> k /\ nth_error (threads sv) j = Some th)) as HT.
  { intros j th H. destruct (Nat.eq_dec k j) as [->|Ne]; [rewrite set_same in H by exact Lk; injection H as <-; left; auto|]. rewrite set_other in H by exact Ne. right. auto. }
  split; cbn [JobModel.threads JobModel.heap JobModel.tasks].
  - intros a b ta tb Ha Hb Aa Ab. apply HT in Ha. apply HT in Hb. destruct Ha as [[-> ->]|[Na Ha]], Hb as [[-> ->]|[Nb Hb]]; [reflexivity| | |exact (I1 _ _ _ _ Ha Hb Aa Ab)].
    + symmetry. cbn in Aa. destruct C as [(C1 & _)|[(_ & C2 & _)|(_ & C2 & _)]]; [|contradiction|contradiction]. exact (I1 _ _ _ _ Hb Hk Ab C1).
    + cbn in Ab. destruct C as [(C1 & _)|[(_ & C2 & _)|(_ & C2 & _)]]; [|contradiction|contradiction]. exact (I1 _ _ _ _ Ha Hk Aa C1).
  - intros a ta Ha Aa. apply HT in Ha. destruct Ha as [[-> ->]|[Na Ha]].
    + cbn in Aa. destruct C as [(C1 & _ & C3)|[(_ & C2 & _)|(_ & C2 & _)]]; [|contradiction|contradiction]. destruct (I2 _ _ Hk C1) as (i & t & G & N & U). cbn [th_id] in *. exists i, (f t). split; [exact G|]. split; [|apply C3]. unfold assign. rewrite G, N. apply set_same. apply nth_error_Some. congruence.
    + destruct (I2 _ _ Ha Aa) as (i & t & G & N & U).
      destruct C as [(C1 & _)|[(C1 & _)|(_ & _ & C3)]]; [exfalso; apply Na; exact (I1 _ _ _ _ Ha Hk Aa C1)|exfalso; apply Na; exact (I1 _ _ _ _ Ha Hk Aa C1)|].
      destruct (nth_error (assign R S E sv id f) i) as [t'|] eqn:N'.
      * exists i, t'. split; [exact G|]. split; [exact N'|]. apply HA in N'. destruct N' as [(t0 & _ & N0 & ->)|[_ N0]]; [|congruence]. rewrite C3. congruence.
      * exfalso. apply nth_error_None in N'. unfold assign in N'. specialize (I4 _ _ G). cbn in I4. destruct (get id (tasks sv)) as [i'|]; [destruct (nth_error (heap sv) i'); [rewrite set_len in N'|]|]; cbn in N'; lia.
  - intros id' i t' G N U. apply HA in N. destruct N as [(t & G' & N & ->)|[G' N]].
    + assert (id' = id) as -> by (exact (I5 _ _ _ G G')). destruct C as [(C1 & C2 & _)|[(C1 & C2 & C3)|(C1 & C2 & C3)]].
      * exists k, (Thread _ _ id p'). split; [apply set_same, Lk|]. split; [exact C2|reflexivity].
      * rewrite C3 in U. discriminate U.
      * rewrite C3 in U. destruct (I3 _ _ _ G N U) as (j & th & Hj & Aj & Ej). assert (k <> j) as Ne by (intros ->; rewrite Hk in Hj; injection Hj as <-; contradiction). exists j, th. split; [rewrite set_other by exact Ne; exact Hj|]. auto.
    + destruct (I3 _ _ _ G N U) as (j & th & Hj & Aj & Ej). assert (k <> j) as Ne.
      { intros ->. rewrite Hk in Hj. injection Hj as <-. cbn in Ej. subst id'. congruence. }
      exists j, th. split; [rewrite set_other by exact Ne; exact Hj|]. auto.
  - intros id' i G. specialize (I4 _ _ G). cbn in I4. unfold assign. destruct (get id (tasks sv)) as [i'|]; [destruct (nth_error (heap sv) i'); [rewrite set_len|]|]; exact I4.
  - exact I5.
Qed.
Lemma inv1_step (sv sv' : server) ev : inv1 sv -> step sv ev = Some sv' -> inv1 sv'.
Proof.
  intros I H. destruct ev as [id o|id| |k]; cbn [JobModel.step] in H.
  - destruct (polling sv); [discriminate H|]. injection H as <-. apply inv1_submit, I.
  - destruct (polling sv); [discriminate H|]. injection H as <-. unfold poll_start. destruct (get id (tasks sv)); destruct I; split; assumption.
  - unfold poll_step in H. destruct (polling sv) as [[id i rd]|]; [|discriminate H]. destruct (nth_error (heap sv) i); [|discriminate H]. destruct rd as [[s1 [s2|]]|]; injection H as <-; destruct I; split; assumption.
  - unfold thread_step in H. destruct (nth_error (threads sv) k) as [[id p]|] eqn:Hk; [|discriminate H].
    destruct p as [o|[r|e]|r|e|].
    + injection H as <-. apply (inv1_next sv k id _ _ _ I Hk). left. repeat split; exact Logic.I.
    + injection H as <-. apply (inv1_next sv k id _ _ _ I Hk). right. left. split; [exact Logic.I|]. split; [intros []|reflexivity].
    + injection H as <-. apply (inv1_next sv k id _ _ _ I Hk). right. left. split; [exact Logic.I|]. split; [intros []|reflexivity].
    + destruct (dumps r) eqn:D; [|exfalso; exact (dumps_total r D)]. injection H as <-. apply (inv1_next sv k id _ _ _ I Hk). right. right. split; [intros []|]. split; [intros []|reflexivity].
    + injection H as <-. apply (inv1_next sv k id _ _ _ I Hk). right. right. split; [intros []|]. split; [intros []|reflexivity].
    + discriminate H.
Qed.
Lemma inv1_run evs : forall sv sv', inv1 sv -> run sv evs = Some sv' -> inv1 sv'.
Proof.
  induction evs as [|ev evs IH]; intros sv sv' I H; cbn [JobModel.run] in H; [injection H as <-; exact I|]. destruct (step sv ev) as [s1|] eqn:E1; [|discriminate H]. exact (IH s1 sv' (inv1_step sv s1 ev I E1) H).
Qed.

(* ---------------------------------------------------------------- responses *)
Definition consistent (o : outcome) (p : pc) (t : task) : Prop :=
  match p with
  | Queued _ _ o' => o' = o /\ t = Task _ _ PENDING None None
  | Running _ _ o' => o' = o /\ t = Task _ _ RUNNING None None
  | Serializing _ _ r => o = Ok _ _ r /\ t = Task _ _ SUCCESS None None
  | Storing_error _ _ e => o = Err _ _ e /\ t = Task _ _ FAILED None None
  | Finished _ _ => match o with Ok _ _ r => t = Task _ _ SUCCESS (dumps r) None | Err _ _ e => t = Task _ _ FAILED None (Some e) end
  end.
Definition s_ok (o : outcome) (s : status) : Prop := match s with SUCCESS => exists r, o = Ok _ _ r | FAILED => exists e, o = Err _ _ e | _ => True end.
Record inv2 (sv : server) : Prop := {
  j_len : length (heap sv) = length (accepted (log sv)) /\ length (threads sv) = length (accepted (log sv));
  j_job : forall k id o, nth_error (accepted (log sv)) k = Some (id, o) -> exists p t, nth_error (threads sv) k = Some (Thread _ _ id p) /\ nth_error (heap sv) k = Some t /\ consistent o p t /\ get id (tasks sv) = Some k;
  j_get : forall id i, get id (tasks sv) = Some i -> exists o, nth_error (accepted (log sv)) i = Some (id, o);
  j_poll : forall id i rd, polling sv = Some (Poll id i rd) -> exists o, nth_error (accepted (log sv)) i = Some (id, o) /\ forall s1 s2, rd = Some (s1, s2) -> s_ok o s1 /\ forall s, s2 = Some s -> s_ok o s;
  j_log : forall id s res err, In (Response _ _ _ id s res err) (log sv) -> exists o, In (id, o) (accepted (log sv)) /\ truthful dumps o s res err }.
Lemma accepted_app (a b : list (entry R S E)) : accepted (a ++ b) = accepted a ++ accepted b.
Proof. induction a as [|[] a IH]; cbn; rewrite ?IH; reflexivity. Qed.
Lemma inv2_init : inv2 (init R S E).
Proof. split; cbn; try (split; reflexivity); intros; try discriminate; try contradiction. destruct k; discriminate. Qed.
Lemma consistent_ok o p t : consistent o p t -> s_ok o (t_status _ _ t) /\ truthful dumps o (t_status _ _ t) (t_result _ _ t) (t_error _ _ t).
Proof.
  unfold consistent, truthful, s_ok. destruct p as [o'|o'|r|e|].
  - intros [-> ->]. cbn. repeat split; intros; discriminate || auto.
  - intros [-> ->]. cbn. repeat split; intros; discriminate || auto.
  - intros [-> ->]. cbn. repeat split; intros; try discriminate; eauto.
  - intros [-> ->]. cbn. repeat split; intros; try discriminate; eauto.
  - destruct o as [r|e]; intros ->; cbn; repeat split; intros; try discriminate; eauto. congruence.
Qed.
Lemma log_mono (sv sv' : server) ev : step sv ev = Some sv' -> exists l, log sv' = log sv ++ l.
Proof.
  intros H. destruct ev as [id o|id| |k]; cbn [JobModel.step] in H.
  - destruct (polling sv); [discriminate H|]. injection H as <-. unfold submit. destruct (existsb _ _); eexists; reflexivity.
  - destruct (polling sv); [discriminate H|]. injection H as <-. unfold poll_start. destruct (get _ _); [exists []; rewrite app_nil_r; reflexivity|eexists; reflexivity].
  - unfold poll_step in H. destruct (polling sv) as [[id i rd]|]; [|discriminate H]. destruct (nth_error (heap sv) i); [|discriminate H]. destruct rd as [[s1 [s2|]]|]; injection H as <-; try (exists []; rewrite app_nil_r; reflexivity). eexists; reflexivity.
  - unfold thread_step in H. destruct (nth_error (threads sv) k) as [[id p]|]; [|discriminate H]. exists []. rewrite app_nil_r. destruct p as [o|[r|e]|r|e|]; try (injection H as <-; reflexivity); [|discriminate H]. destruct (dumps r); injection H as <-; reflexivity.
Qed.
Lemma run_mono evs : forall sv sv', run sv evs = Some sv' -> exists l, log sv' = log sv ++ l.
Proof.
  induction evs as [|ev evs IH]; intros sv sv' H; cbn [JobModel.run] in H; [injection H as <-; exists []; rewrite app_nil_r; reflexivity|]. destruct (step sv ev) as [s1|] eqn:E1; [|discriminate H].
  destruct (IH s1 sv' H) as (l & ->). destruct (log_mono _ _ _ E1) as (l' & ->). exists (l' ++ l). rewrite app_assoc. reflexivity.
Qed.
Lemma NoDup_app_l {A : Type} (l l' : list A) : NoDup (l ++ l') -> NoDup l.
Proof. induction l as [|a l IH]; cbn; intros H; [constructor|]. inversion H as [|? ? N ND]; subst. constructor; [intros C; apply N, in_app_iff; left; exact C|apply IH, ND]. Qed.

Lemma inv2_next (sv : server) k id (p p' : pc) f : inv2 sv -> NoDup (map fst (accepted (log sv))) -> nth_error (threads sv) k = Some (Thread _ _ id p) ->
  (forall o t, consistent o p t -> consistent o p' (f t)) ->
  inv2 (Server _ _ _ (assign R S E sv id f) (tasks sv) (set (threads sv) k (Thread _ _ id p')) (polling sv) (log sv)).
Proof.
  intros [[L1 L2] J1 J2 J3 J4] ND Hk C. assert (k < length (threads sv)) as Lk by (apply nth_error_Some; congruence).
  destruct (nth_error (accepted (log sv)) k) as [[id0 o]|] eqn:Ek; [|apply nth_error_None in Ek; cbn in *; lia].
  destruct (J1 k id0 o Ek) as (p0 & t & H1 & H2 & H3 & H4). rewrite Hk in H1. injection H1 as <- <-.
  unfold assign. rewrite H4, H2. split; cbn [JobModel.heap JobModel.threads JobModel.tasks JobModel.polling JobModel.log]; [rewrite !set_len; auto| |exact J2|exact J3|exact J4].
  intros j idj oj Ej. destruct (Nat.eq_dec k j) as [<-|Ne].
  - rewrite Ek in Ej. injection Ej as <- <-. exists p', (f t). split; [apply set_same, Lk|]. split; [apply set_same; apply nth_error_Some; congruence|]. split; [apply C, H3|exact H4].
  - destruct (J1 j idj oj Ej) as (pj & tj & A & B & D & G). exists pj, tj. rewrite !set_other by exact Ne. auto.
Qed.
Lemma inv2_step (sv sv' : server) ev : inv2 sv -> NoDup (map fst (accepted (log sv'))) -> step sv ev = Some sv' -> inv2 sv'.
Proof.
  intros I ND H. destruct ev as [id o|id| |k]; cbn [JobModel.step] in H.
  - destruct (polling sv) eqn:Ep; [discriminate H|]. injection H as <-. unfold submit in *. destruct (existsb _ _).
    + destruct I as [J0 J1 J2 J3 J4]. assert (accepted (log sv ++ [Conflict _ _ _ id]) = accepted (log sv)) as EA by (rewrite accepted_app; cbn; apply app_nil_r).
      split; cbn [JobModel.heap JobModel.threads JobModel.tasks JobModel.polling JobModel.log]; rewrite ?EA; auto. intros id' s res err Hin. apply in_app_iff in Hin. destruct Hin as [Hin|[Hin|[]]]; [exact (J4 _ _ _ _ Hin)|discriminate Hin].
    + cbn [JobModel.log] in ND. rewrite accepted_app in ND. cbn in ND. destruct I as [[L1 L2] J1 J2 J3 J4].
      assert (accepted (log sv ++ [Accepted _ _ _ id o]) = accepted (log sv) ++ [(id, o)]) as EA by (rewrite accepted_app; reflexivity).
      assert (forall k id' o', nth_error (accepted (log sv)) k = Some (id', o') -> id' <> id) as NI.
      { intros k id' o' Hk ->. rewrite map_app in ND. cbn in ND. apply NoDup_remove_2 in ND. apply ND. rewrite app_nil_r. apply in_map_iff. exists (id, o'). split; [reflexivity|exact (nth_error_In _ _ Hk)]. }
      split; cbn [JobModel.heap JobModel.threads JobModel.tasks JobModel.polling JobModel.log]; rewrite ?EA.
      * rewrite !app_length. cbn [length]. cbn in *. lia.
      * intros k id' o' Hk. apply nth_app_last in Hk. destruct Hk as [Hk|[-> Eq]].
        -- destruct (J1 k id' o' Hk) as (p & t & A & B & C & D). exists p, t. split; [rewrite nth_error_app1 by (apply nth_error_Some; congruence); exact A|]. split; [rewrite nth_error_app1 by (apply nth_error_Some; congruence); exact B|]. split; [exact C|]. cbn [get].
           specialize (NI _ _ _ Hk). apply not_eq_sym, Nat.eqb_neq in NI. rewrite NI. exact D.
        -- injection Eq as -> ->. exists (Queued _ _ o), (Task _ _ PENDING None None). cbn [get]. rewrite Nat.eqb_refl. cbn in L1, L2.
           split; [rewrite nth_error_app2, L2, Nat.sub_diag by (cbn in *; lia); reflexivity|]. split; [rewrite nth_error_app2, L1, Nat.sub_diag by (cbn in *; lia); reflexivity|]. split; [split; reflexivity|]. f_equal. exact L1.
      * intros id' i G. cbn [get] in G. destruct (Nat.eqb_spec id id') as [<-|Ne]; [injection G as <-; exists o; cbn in L1; rewrite nth_error_app2, L1, Nat.sub_diag by (cbn in *; lia); reflexivity|].
        destruct (J2 id' i G) as (o' & Ho'). exists o'. rewrite nth_error_app1 by (apply nth_error_Some; congruence). exact Ho'.
      * intros id' i rd Hp. change (polling sv = Some (Poll id' i rd)) in Hp. congruence.
      * intros id' s res err Hin. apply in_app_iff in Hin. destruct Hin as [Hin|[Hin|[]]]; [|discriminate Hin]. destruct (J4 _ _ _ _ Hin) as (o' & Ho' & T). exists o'. split; [apply in_app_iff; left; exact Ho'|exact T].
  - destruct (polling sv) eqn:Ep; [discriminate H|]. injection H as <-. unfold poll_start in *. destruct (get id (tasks sv)) as [i|] eqn:G.
    + destruct I as [J0 J1 J2 J3 J4]. split; cbn [JobModel.heap JobModel.threads JobModel.tasks JobModel.polling JobModel.log]; auto. intros id' i' rd Hp. injection Hp as <- <- <-. destruct (J2 id i G) as (o & Ho). exists o. split; [exact Ho|]. intros s1 s2 Hr. discriminate Hr.
    + destruct I as [J0 J1 J2 J3 J4]. assert (accepted (log sv ++ [NotFound _ _ _ id]) = accepted (log sv)) as EA by (rewrite accepted_app; cbn; apply app_nil_r).
      split; cbn [JobModel.heap JobModel.threads JobModel.tasks JobModel.polling JobModel.log]; rewrite ?EA; auto; [intros; discriminate|]. intros id' s res err Hin. apply in_app_iff in Hin. destruct Hin as [Hin|[Hin|[]]]; [exact (J4 _ _ _ _ Hin)|discriminate Hin].
  - unfold poll_step in H. destruct (polling sv) as [[id i rd]|] eqn:Ep; [|discriminate H]. destruct (nth_error (heap sv) i) as [t|] eqn:Ht; [|discriminate H].
    destruct I as [J0 J1 J2 J3 J4]. destruct (J3 id i rd Ep) as (o & Ho & Hrd). destruct (J1 i id o Ho) as (p & t' & A & B & C & D). rewrite Ht in B. injection B as <-. destruct (consistent_ok o p t C) as [K1 K2].
    destruct rd as [[s1 [s2|]]|]; injection H as <-.
    + destruct (Hrd s1 (Some s2) eq_refl) as [R1 R2]. specialize (R2 s2 eq_refl).
      set (ent := Response R S E id s1 (match s2 with SUCCESS => t_result _ _ t | _ => None end) (match s2 with FAILED => t_error _ _ t | _ => None end)).
      assert (accepted (log sv ++ [ent]) = accepted (log sv)) as EA by (rewrite accepted_app; cbn; apply app_nil_r).
      split; cbn [JobModel.heap JobModel.threads JobModel.tasks JobModel.polling JobModel.log]; rewrite ?EA; auto; [intros; discriminate|]. intros id' s res err Hin. apply in_app_iff in Hin. destruct Hin as [Hin|[Hin|[]]]; [exact (J4 _ _ _ _ Hin)|].
      injection Hin as <- <- <- <-. exists o. split; [exact (nth_error_In _ _ Ho)|]. destruct K2 as (_ & _ & K3 & K4). unfold truthful. split; [intros ->; exact R1|]. split; [intros ->; exact R1|].
      split; [intros x Hx; destruct s2; try discriminate Hx; exact (K3 x Hx)|intros e He; destruct s2; try discriminate He; exact (K4 e He)].
    + split; cbn [JobModel.heap JobModel.threads JobModel.tasks JobModel.polling JobModel.log]; auto. intros id' i' rd Hp. injection Hp as <- <- <-. exists o. split; [exact Ho|]. intros a b Hab. injection Hab as <- <-. destruct (Hrd s1 None eq_refl) as [R1 _]. split; [exact R1|]. intros s Hs. injection Hs as <-. exact K1.
    + split; cbn [JobModel.heap JobModel.threads JobModel.tasks JobModel.polling JobModel.log]; auto. intros id' i' rd Hp. injection Hp as <- <- <-. exists o. split; [exact Ho|]. intros a b Hab. injection Hab as <- <-. split; [exact K1|]. intros s Hs. discriminate Hs.
  - assert (log sv' = log sv) as EL.
    { unfold thread_step in H. destruct (nth_error (threads sv) k) as [[id p]|]; [|discriminate H]. destruct p as [o|[r|e]|r|e|]; try (injection H as <-; reflexivity); [|discriminate H]. destruct (dumps r); injection H as <-; reflexivity. }
    rewrite EL in ND. unfold thread_step in H. destruct (nth_error (threads sv) k) as [[id p]|] eqn:Hk; [|discriminate H].
    destruct p as [o|[r|e]|r|e|].
    + injection H as <-. apply (inv2_next sv k id _ _ _ I ND Hk). intros o' t [-> ->]. split; reflexivity.
    + injection H as <-. apply (inv2_next sv k id _ _ _ I ND Hk). intros o' t [<- ->]. split; reflexivity.
    + injection H as <-. apply (inv2_next sv k id _ _ _ I ND Hk). intros o' t [<- ->]. split; reflexivity.
    + destruct (dumps r) eqn:D; [|exfalso; exact (dumps_total r D)]. injection H as <-. apply (inv2_next sv k id _ _ _ I ND Hk). intros o' t [-> ->]. cbn. rewrite D. reflexivity.
    + injection H as <-. apply (inv2_next sv k id _ _ _ I ND Hk). intros o' t [-> ->]. reflexivity.
    + discriminate H.
Qed.
Lemma inv2_run evs : forall sv sv', inv2 sv -> run sv evs = Some sv' -> NoDup (map fst (accepted (log sv'))) -> inv2 sv'.
Proof.
  induction evs as [|ev evs IH]; intros sv sv' I H ND; cbn [JobModel.run] in H; [injection H as <-; exact I|]. destruct (step sv ev) as [s1|] eqn:E1; [|discriminate H].
  apply (IH s1 sv'); [|exact H|exact ND]. apply (inv2_step sv s1 ev I); [|exact E1]. destruct (run_mono _ _ _ H) as (l & El). rewrite El, accepted_app, map_app in ND. exact (NoDup_app_l _ _ ND).
Qed.
Lemma final_poll (sv : server) id o : inv2 sv -> In (id, o) (accepted (log sv)) -> polling sv = None -> (forall k p, nth_error (threads sv) k = Some (Thread _ _ id p) -> p = Finished _ _) ->
  exists sv', run sv [Poll_ _ _ id; Loop _ _; Loop _ _; Loop _ _] = Some sv' /\
    log sv' = log sv ++ [match o with Ok _ _ r => Response _ _ _ id SUCCESS (dumps r) None | Err _ _ e => Response _ _ _ id FAILED None (Some e) end].
Proof.
  intros I Hin Hp Hf. apply In_nth_error in Hin. destruct Hin as (k & Hk). destruct (j_job sv I k id o Hk) as (p & t & A & B & C & D). rewrite (Hf k p A) in C. cbn in C.
  cbn [JobModel.run JobModel.step]. rewrite Hp. unfold poll_start. rewrite D. cbn [poll_step JobModel.polling JobModel.heap]. unfold poll_step. cbn [JobModel.polling JobModel.heap]. rewrite B. cbn [JobModel.polling JobModel.heap]. rewrite B. cbn [JobModel.polling JobModel.heap]. rewrite B.
  eexists. split; [reflexivity|]. cbn [JobModel.log]. f_equal. destruct o as [r|e]; subst t; reflexivity.
Qed.
(* ---------------------------------------------------------------- progress *)
Definition left_ (p : pc) : nat := match p with Queued _ _ _ => 3 | Running _ _ _ => 2 | Serializing _ _ _ => 1 | Storing_error _ _ _ => 1 | Finished _ _ => 0 end.
Fixpoint total (l : list thread) : nat := match l with [] => 0 | th :: l => left_ (th_pc _ _ th) + total l end.
Lemma total_set (l : list thread) k th th' : nth_error l k = Some th -> total (set l k th') + left_ (th_pc _ _ th) = total l + left_ (th_pc _ _ th').
Proof.
  revert k. induction l as [|a l IH]; intros [|k] H; cbn in H |- *; try discriminate H.
  - injection H as ->. lia.
  - specialize (IH k H). lia.
Qed.
Lemma some_left (l : list thread) : total l <> 0 -> exists k th, nth_error l k = Some th /\ left_ (th_pc _ _ th) <> 0.
Proof.
  induction l as [|a l IH]; cbn; [congruence|]. intros H. destruct (left_ (th_pc _ _ a)) eqn:Ea.
  - destruct (IH H) as (k & th & Hk & Hl). exists (Datatypes.S k), th. auto.
  - exists 0, a. split; [reflexivity|]. rewrite Ea. discriminate.
Qed.
Lemma none_left (l : list thread) : total l = 0 -> forall k th, nth_error l k = Some th -> th_pc _ _ th = Finished _ _.
Proof.
  induction l as [|a l IH]; intros H [|k] th Hk; cbn in *; try discriminate Hk.
  - injection Hk as ->. destruct (th_pc _ _ th); cbn in H; try lia. reflexivity.
  - apply (IH ltac:(lia) k th Hk).
Qed.
Lemma pool_step (sv : server) k th : nth_error (threads sv) k = Some th -> left_ (th_pc _ _ th) <> 0 ->
  exists sv', step sv (Pool _ _ k) = Some sv' /\ total (threads sv') < total (threads sv) /\ log sv' = log sv /\ polling sv' = polling sv.
Proof.
  intros Hk Hl. cbn [JobModel.step]. unfold thread_step. rewrite Hk. destruct th as [id p].
  destruct p as [o|[r|e]|r|e|]; cbn [th_pc left_] in Hl; try congruence.
  4: destruct (dumps r) eqn:D; [|exfalso; exact (dumps_total r D)].
  all: eexists; split; [reflexivity|]; cbn [JobModel.threads JobModel.log JobModel.polling]; split; [|auto].
  all: match goal with |- total (set _ _ ?th') < _ => pose proof (total_set (threads sv) k _ th' Hk) as T end; cbn in T |- *; lia.
Qed.
Lemma drain : forall n (sv : server), total (threads sv) <= n -> exists ks sv', run sv (map (Pool _ _) ks) = Some sv' /\ total (threads sv') = 0 /\ log sv' = log sv /\ polling sv' = polling sv.
Proof.
  induction n as [|n IH]; intros sv Hn.
  - exists [], sv. cbn. repeat split. lia.
  - destruct (total (threads sv)) eqn:T; [exists [], sv; cbn; auto|]. destruct (some_left (threads sv)) as (k & th & Hk & Hl); [congruence|].
    destruct (pool_step sv k th Hk Hl) as (s1 & S1 & L1 & G1 & P1). destruct (IH s1 ltac:(cbn in *; lia)) as (ks & s2 & S2 & T2 & G2 & P2).
    exists (k :: ks), s2. cbn [map JobModel.run]. rewrite S1. split; [exact S2|]. split; [exact T2|]. split; congruence.
Qed.
Lemma run_app a : forall (sv : server) b, run sv (a ++ b) = match run sv a with Some s => run s b | None => None end.
Proof. induction a as [|e a IH]; intros sv b; cbn [app JobModel.run]; [reflexivity|]. destruct (step sv e); [apply IH|reflexivity]. Qed.
End P.
