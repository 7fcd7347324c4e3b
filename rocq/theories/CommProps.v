(** Properties C31-C35: collectives, uniform predicates, shuffles, message keys, mailboxes. *)
From stdpp Require Import gmap sorting strings.
From Verif Require Import NetSpec NetModel NetProofs CollModel CollProofs ShuffleProofs BarrierProofs.
From Verif Require Import MailboxModel MailboxSpec MailboxProofs.
From Verif Require CtxModel CtxProofs SchedSpec SchedModel SchedExec.

(** The distinct participants in increasing order. *)
Definition ranks_of (part l : list nat) : Prop := StronglySorted lt l /\ forall r, In r l <-> In r part.
Lemma sorted_ranks part : ranks_of part (sorted_set part).
Proof.
  split; [|intros r; apply sorted_set_in]. unfold sorted_set.
  assert (S : StronglySorted le (merge_sort le (remove_dups part))) by apply (StronglySorted_merge_sort le _).
  pose proof (sorted_set_nodup part) as N. unfold sorted_set in N. revert S N. generalize (merge_sort le (remove_dups part)).
  intros l S. induction S as [|a l S IH F]; intros N; [constructor|]. apply NoDup_cons in N. destruct N as [N1 N2].
  constructor; [auto|]. rewrite Forall_forall in F |- *. intros y Hy. specialize (F y Hy).
  assert (a <> y) by (intros ->; tauto). lia.
Qed.
Lemma ranks_unique part l : ranks_of part l -> l = sorted_set part.
Proof.
  intros [S1 E1]. destruct (sorted_ranks part) as [S2 E2]. revert S1 S2 E1 E2. generalize (sorted_set part) as l2.
  intros l2 S1 S2 E1 E2. assert (E : forall r, In r l <-> In r l2) by (intros r; rewrite E1, E2; tauto). clear E1 E2.
  revert l2 S2 E. induction S1 as [|a l S1 IH F1]; intros l2 S2 E; destruct S2 as [|b l2 S2 F2].
  - reflexivity.
  - exfalso. apply (E b). now left.
  - exfalso. apply (E a). now left.
  - rewrite Forall_forall in F1, F2. assert (a = b).
    { destruct (proj1 (E a) (or_introl eq_refl)) as [|Ha]; [congruence|]. destruct (proj2 (E b) (or_introl eq_refl)) as [|Hb]; [congruence|].
      apply elem_of_list_In in Ha, Hb. specialize (F2 a Ha). specialize (F1 b Hb). lia. }
    subst b. f_equal. apply IH; [exact S2|]. intros r. specialize (E r). cbn in E. split; intros H.
    + destruct (proj1 E (or_intror H)) as [<-|]; [|assumption]. apply elem_of_list_In in H. specialize (F1 a H). lia.
    + destruct (proj2 E (or_intror H)) as [<-|]; [|assumption]. apply elem_of_list_In in H. specialize (F2 a H). lia.
Qed.

Section C31.
  Context {O : Type}.
  Variables (world : nat) (part : list nat).
  (** every participant r runs p r, and every schedule ends with r having returned q r,
      nothing left in the network, and the sequence numbers of all pairs in agreement *)
  Definition all_complete {A} (p : nat -> prog (val O) cexn A) (q : nat -> A) : Prop :=
    forall c, matched c -> exists c', matched c' /\
      every_schedule_ends_in net_step (start (group part p) c) (start (group part (fun r => Ret (q r))) c').
End C31.

(** C31: barrier *)
Theorem C31_barrier_completes : forall (O : Type) world part,
  part <> [] -> (forall r, In r part -> r < world) ->
  all_complete (O:=O) part (fun r => barrier r world part) (fun _ => tt).
Proof.
  intros O world part NE LT c HM. apply ends_schedule; [|intros; exact I|exact HM].
  apply (barrier_run (O:=O) world part NE LT (fun _ p => p)). apply framing_id.
Qed.
Print Assumptions C31_barrier_completes.

(** C31: while participant x has not entered, no other participant has left the barrier *)
Theorem C31_barrier_waits_for_everyone : forall (O : Type) world part x c s,
  (forall r, In r part -> r < world) -> In x part ->
  rtc net_step (start (group (List.filter (fun r => negb (Nat.eqb r x)) part) (fun r => barrier (O:=O) r world part)) c) s ->
  forall r, In r part -> r <> x -> exists p, parties s !! r = Some p /\ ~ finished p.
Proof. intros O world part x c s LT Hx H. exact (barrier_holds (O:=O) world part LT x Hx c s H). Qed.
Print Assumptions C31_barrier_waits_for_everyone.

(** C31: broadcast gives everyone the root's value *)
Theorem C31_broadcast : forall (O : Type) world part root (v : nat -> val O),
  (forall r, In r part -> r < world) -> In root part ->
  all_complete part (fun r => broadcast r world (v r) root part) (fun _ => v root).
Proof.
  intros O world part root v LT Hr c HM. assert (NE : part <> []) by (intros ->; destruct Hr).
  apply ends_schedule; [|intros; exact I|exact HM].
  apply (broadcast_run (O:=O) world part LT (fun _ p => p) v root); [apply framing_id|exact Hr].
Qed.
Print Assumptions C31_broadcast.

(** C31: allgather gives everyone the values in rank order *)
Theorem C31_allgather : forall (O : Type) world part l (v : nat -> val O),
  part <> [] -> (forall r, In r part -> r < world) -> ranks_of part l ->
  all_complete part (fun r => allgather r world (v r) part) (fun _ => map v l).
Proof.
  intros O world part l v NE LT HL c HM. rewrite (ranks_unique _ _ HL). apply ends_schedule; [|intros; exact I|exact HM].
  apply (allgather_run (O:=O) world part NE LT (fun _ p => p) v). apply framing_id.
Qed.
Print Assumptions C31_allgather.

(** C31: boolean all-reductions give everyone the conjunction, disjunction, parity *)
Theorem C31_allreduce : forall (O : Type) world part (v : nat -> bool),
  part <> [] -> (forall r, In r part -> r < world) ->
  all_complete (O:=O) part (fun r => allreduce_and r world (v r) part) (fun _ => forallb v part) /\
  all_complete (O:=O) part (fun r => allreduce_or r world (v r) part) (fun _ => existsb v part) /\
  (forall l, ranks_of part l ->
     all_complete (O:=O) part (fun r => allreduce_xor r world (v r) part) (fun _ => Nat.odd (length (List.filter v l)))).
Proof.
  intros O world part v NE LT. repeat split.
  - intros c HM. rewrite <- (reduce_and part NE v). apply ends_schedule; [|intros; exact I|exact HM].
    apply (allreduce_run (O:=O) world part NE LT (fun _ p => p) andb v). apply framing_id.
  - intros c HM. rewrite <- (reduce_or part NE v). apply ends_schedule; [|intros; exact I|exact HM].
    apply (allreduce_run (O:=O) world part NE LT (fun _ p => p) orb v). apply framing_id.
  - intros l HL c HM. rewrite (ranks_unique _ _ HL). rewrite <- (reduce_xor part NE v). apply ends_schedule; [|intros; exact I|exact HM].
    apply (allreduce_run (O:=O) world part NE LT (fun _ p => p) xorb v). apply framing_id.
Qed.
Print Assumptions C31_allreduce.

(** C31: who takes part: the call's own list, else the operation's "parties", else the parties of the
    enclosing pcall, else every rank of the world exactly once *)
Theorem C31_participants : forall (op_parties current : option (list nat)) (world : nat) (l p q : list nat),
  resolve_participants (Some l) op_parties current world = l /\
  resolve_participants None (Some p) current world = p /\
  resolve_participants None None (Some q) world = q /\
  NoDup (resolve_participants None None None world) /\
  (forall r, In r (resolve_participants None None None world) <-> r < world).
Proof.
  intros. repeat split; cbn.
  - apply NoDup_seq.
  - intros H%in_seq. lia.
  - intros H. apply in_seq. lia.
Qed.
Print Assumptions C31_participants.
Example C31_participants_ex : resolve_participants None None None 3 = [0; 1; 2] /\ resolve_participants None (Some [2]) (Some [0; 1]) 3 = [2].
Proof. auto. Qed.

(** C31: a bad participant set is rejected before anything is sent *)
Theorem C31_bad_participants_rejected : forall (O : Type) rank world part root (v : val O) (b : bool),
  part = [] \/ (exists r, In r part /\ world <= r) \/ ~ In rank part ->
  exists e1 e2 e3 e4 e5,
    barrier (O:=O) rank world part = Throw e1 /\ broadcast rank world v root part = Throw e2 /\
    allgather rank world v part = Throw e3 /\ allreduce_and (O:=O) rank world b part = Throw e4 /\
    verify_uniform_predicate (O:=O) rank world b part = Throw e5.
Proof.
  intros O rank world part root v b H. assert (E : exists e, normalize rank world part = inr e).
  { unfold normalize. destruct (sorted_set part) as [|a l] eqn:Es; [eauto|]. rewrite <- Es. clear a l Es.
    destruct (existsb (fun r => Nat.leb world r) (sorted_set part)) eqn:X; [eauto|].
    destruct (existsb (Nat.eqb rank) (sorted_set part)) eqn:Y; [|eauto]. exfalso.
    apply existsb_exists in Y. destruct Y as [y [Y1 Y2]]. apply Nat.eqb_eq in Y2. subst y.
    rewrite sorted_set_in in Y1. destruct H as [->|[[r [R1 R2]]|H]]; [destruct Y1| |tauto].
    rewrite <- Bool.not_true_iff_false in X. apply X, existsb_exists. exists r. rewrite sorted_set_in. split; [exact R1|]. apply Nat.leb_le, R2. }
  destruct E as [e E]. exists e, e, e, e, e.
  unfold verify_uniform_predicate, barrier, broadcast, allgather, allreduce_and, allreduce, with_ps. rewrite E. auto.
Qed.
Print Assumptions C31_bad_participants_rejected.

Example ex_part : ranks_of [5; 0; 2; 5] [0; 2; 5] /\ [5; 0; 2; 5] <> [] /\ (forall r, In r [5; 0; 2; 5] -> r < 7) /\
  matched ∅ /\ sorted_set [5; 0; 2; 5] = [0; 2; 5].
Proof.
  split; [|split; [discriminate|split]].
  - split; [repeat constructor; lia|]. cbn. intuition.
  - cbn. intros r H. intuition; subst; lia.
  - split; [intros a b; reflexivity|reflexivity].
Qed.

(** C32: equal predicates are returned, anything else raises at every participant. *)
Theorem C32_uniform_or_error_everywhere : forall (O : Type) world part (v : nat -> bool) c,
  part <> [] -> (forall r, In r part -> r < world) -> matched c ->
  (forall b, (forall r, In r part -> v r = b) ->
     exists c', matched c' /\ every_schedule_ends_in net_step
       (start (group part (fun r => verify_uniform_predicate (O:=O) r world (v r) part)) c)
       (start (group part (fun _ => Ret b)) c')) /\
  (forall a b, In a part -> In b part -> v a <> v b ->
     exists c', matched c' /\ every_schedule_ends_in net_step
       (start (group part (fun r => verify_uniform_predicate (O:=O) r world (v r) part)) c)
       (start (group part (fun _ => Throw NotUniform)) c')).
Proof.
  intros O world part v c NE LT HM. pose proof (uniform_run (O:=O) world part NE LT v) as U. split.
  - intros b Hb. apply ends_schedule; [|intros; exact I|exact HM]. eapply ends_ext; [|exact U]. cbn. intros r Hr.
    assert (forallb v part = b /\ existsb v part = b) as [-> ->].
    { destruct b.
      - split; [apply forallb_forall; auto|]. apply existsb_exists. exists r. auto.
      - split; apply Bool.not_true_iff_false; intros X.
        + rewrite forallb_forall in X. specialize (X r Hr). rewrite (Hb r Hr) in X. discriminate.
        + apply existsb_exists in X. destruct X as [y [Y1 Y2]]. rewrite (Hb y Y1) in Y2. discriminate. }
    rewrite Bool.eqb_reflx, (Hb r Hr). reflexivity.
  - intros a b Ha Hb N. apply ends_schedule; [|intros; exact I|exact HM]. eapply ends_ext; [|exact U]. cbn. intros r Hr.
    assert (forallb v part = false /\ existsb v part = true) as [-> ->]; [|reflexivity].
    split.
    + apply Bool.not_true_iff_false. intros X. rewrite forallb_forall in X. apply N. rewrite (X a Ha), (X b Hb). reflexivity.
    + apply existsb_exists. destruct (v a) eqn:Ea; [exists a; auto|]. destruct (v b) eqn:Eb; [exists b; auto|congruence].
Qed.
Print Assumptions C32_uniform_or_error_everywhere.

(** C33: without mutual exchanges a routing is delivered, for every schedule.  [routing] is
    the dict target -> source; R the parties taking part. *)
Theorem C33_shuffle_without_swaps : forall (O : Type) (routing : list (nat * nat)) R (v : nat -> val O) c,
  NoDup (map fst routing) -> (forall t s, In (t, s) routing -> In t R /\ In s R) ->
  (forall a b, a <> b -> In (a, b) routing -> ~ In (b, a) routing) -> matched c ->
  exists (out : nat -> option (val O)) c', matched c' /\
    every_schedule_ends_in net_step (start (group R (fun r => shuffle r routing (v r))) c) (start (group R (fun r => Ret (out r))) c') /\
    (forall t s, In (t, s) routing -> out t = Some (v s)) /\
    (forall t, ~ In t (map fst routing) -> out t = None).
Proof.
  intros O routing R v c ND HR NS HM.
  assert (AS : forall t s, assoc routing t = Some s <-> In (t, s) routing).
  { clear - ND. intros t s. unfold assoc. induction routing as [|[a b] l IH]; cbn; [split; [discriminate|tauto]|].
    cbn in ND. apply NoDup_cons in ND. destruct ND as [N1 N2]. destruct (Nat.eqb_spec a t) as [->|N].
    - split; [intros E; injection E as ->; auto|]. intros [E|E]; [congruence|]. exfalso. apply N1. apply elem_of_list_In, in_map_iff. exists (t, s). auto.
    - rewrite IH by exact N2. split; [auto|]. intros [E|E]; [congruence|exact E]. }
  destruct (shuffle_ends (O:=O) routing ND R) with (v := v) (c := c) as [c' [M' E']].
  - intros t s H. apply AS in H. eauto.
  - exact HM.
  - intros a b N Hab Hba. apply AS in Hab, Hba. exact (NS a b N Hab Hba).
  - exists (res routing v), c'. split; [exact M'|]. split; [exact E'|]. split.
    + intros t s H. unfold res. apply AS in H. now rewrite H.
    + intros t H. unfold res. destruct (assoc routing t) as [s|] eqn:E; [|reflexivity]. exfalso. apply H. apply AS in E.
      apply in_map_iff. exists (t, s). auto.
Qed.
Print Assumptions C33_shuffle_without_swaps.

(** C147 refuted: in any routing where x and y exchange values, neither ever finishes, in
    any schedule (both sides take sequence number k for their send and wait for k+1). *)
Theorem C147_swap_never_completes_refuted : forall (O : Type) (routing : list (nat * nat)) R (v : nat -> val O) c x y s,
  NoDup (map fst routing) -> matched c ->
  x <> y -> In x R -> In y R -> In (x, y) routing -> In (y, x) routing ->
  rtc net_step (start (group R (fun r => shuffle r routing (v r))) c) s ->
  (exists p, parties s !! x = Some p /\ ~ finished p) /\ (exists p, parties s !! y = Some p /\ ~ finished p).
Proof.
  intros O routing R v c x y s ND HM N Hx Hy Hxy Hyx H.
  assert (AS : forall t s, In (t, s) routing -> assoc routing t = Some s).
  { clear - ND. intros t s. unfold assoc. induction routing as [|[a b] l IH]; cbn; [tauto|].
    cbn in ND. apply NoDup_cons in ND. destruct ND as [N1 N2]. intros [E|E].
    - injection E as -> ->. now rewrite Nat.eqb_refl.
    - destruct (Nat.eqb_spec a t) as [->|N]; [|auto]. exfalso. apply N1. apply elem_of_list_In, in_map_iff. exists (t, s). auto. }
  destruct (swap_never_returns (O:=O) routing ND R v c HM x y s N Hx Hy (AS _ _ Hxy) (AS _ _ Hyx) H) as [S1 S2].
  split; eapply stuckish_not_finished; eauto.
Qed.
Print Assumptions C147_swap_never_completes_refuted.

Example ex_rotation : NoDup (map fst [(0, 1); (1, 2); (2, 0); (3, 0)]) /\
  (forall a b, a <> b -> In (a, b) [(0, 1); (1, 2); (2, 0); (3, 0)] -> ~ In (b, a) [(0, 1); (1, 2); (2, 0); (3, 0)]).
Proof. split; [cbn; repeat constructor; cbn; set_solver|]. cbn. intuition congruence. Qed.
Example ex_swap : NoDup (map fst [(0, 1); (1, 0)]) /\ 0 <> 1 /\ In (0, 1) [(0, 1); (1, 0)] /\ In (1, 0) [(0, 1); (1, 0)].
Proof. split; [cbn; repeat constructor; cbn; set_solver|]. cbn. auto. Qed.

(** C34: whatever programs the parties run, no transport key is used while an earlier message
    under it is undelivered or unread: a mailbox overflow never happens. *)
Theorem C34_no_overflow : forall (M X A : Type) (P : gmap nat (prog M X A)) c s,
  rtc net_step (start P c) s -> overflowed s = false.
Proof. intros M X A P c s H. apply (wf_steps (start P c) s (wf_start P c)) in H. apply H. Qed.
Print Assumptions C34_no_overflow.

(** C34: one party, any history of spawning contexts (with any suffixes) and exchanging
    messages on them: no two messages with the same peer ever use the same key string. *)
Theorem C34_keys_never_reused : forall root ops,
  List.NoDup (map (fun u => (snd (fst u), snd u)) (snd (CtxModel.crun root ops))).
Proof. exact CtxProofs.keys_never_reused. Qed.
Print Assumptions C34_keys_never_reused.

(** C117: if two parties spawned their contexts in the same order, the n-th message of one
    with the other on a context has the same key at both ends. *)
Theorem C117_peers_agree_partial : forall root opsA opsB i a b n kA kB,
  CtxProofs.spawns opsA = CtxProofs.spawns opsB ->
  nth_error (CtxProofs.uses_of i b (snd (CtxModel.crun root opsA))) n = Some kA ->
  nth_error (CtxProofs.uses_of i a (snd (CtxModel.crun root opsB))) n = Some kB -> kA = kB.
Proof. exact CtxProofs.same_spawns_same_keys. Qed.
Print Assumptions C117_peers_agree_partial.

Import SchedSpec SchedModel SchedExec.
(** Two asynchronous operations, each with one consumer. *)
Definition race_graph : graph :=
  Graph [0] [Op [0] [1] true; Op [0] [2] true; Op [1] [3] true; Op [2] [4] true] [3; 4].
Definition race_sem (i : nat) : option (list nat -> nat + nat) := Some (fun a => inl (fold_right Nat.add i a)).
Example race_graph_wf : wf_graph race_graph.
Proof.
  split; [|split].
  - unfold race_graph, all_values. cbn. repeat constructor; cbn; intuition discriminate.
  - cbn. unfold incl. cbn. intuition (subst; auto).
  - unfold incl, all_values. cbn. intuition (subst; auto).
Qed.

(** C117 refuted for the asynchronous scheduler: the context of an operation is numbered by
    start order, and two parties running the same graph on the same inputs may start its
    operations in different orders; the contexts, hence all keys, then differ. *)
Theorem C117_async_contexts_disagree_refuted : forall root graph_key,
  exists sA sB,
    reachable race_sem (fun _ => None) race_graph [5] sA /\ reachable race_sem (fun _ => None) race_graph [5] sB /\
    amain sA = amain sB /\ (exists outs, amain sA = Returned outs) /\
    exists idA idB,
      CtxModel.op_ctx_id root graph_key (rev (map fst (acalls sA))) 2 = Some idA /\
      CtxModel.op_ctx_id root graph_key (rev (map fst (acalls sB))) 2 = Some idB /\
      forall qA qB, CtxModel.msg_key idA qA <> CtxModel.msg_key idB qB.
Proof.
  intros root gk.
  destruct (exec_exists race_sem (fun _ => None) (fun s => (amain s, map fst (acalls s))) race_graph [5]
    [Main; Main; Complete 1; Complete 0; Main; Main; Complete 0; Complete 0; Main] (Returned [7; 9], [3; 2; 1; 0])) as [sA [RA EA]]; [vm_compute; reflexivity|].
  destruct (exec_exists race_sem (fun _ => None) (fun s => (amain s, map fst (acalls s))) race_graph [5]
    [Main; Main; Complete 0; Complete 0; Main; Main; Complete 0; Complete 0; Main] (Returned [7; 9], [2; 3; 1; 0])) as [sB [RB EB]]; [vm_compute; reflexivity|].
  injection EA as MA CA. injection EB as MB CB. exists sA, sB. rewrite MA, MB, CA, CB.
  split; [exact RA|]. split; [exact RB|]. split; [reflexivity|]. split; [eauto|].
  eexists _, _. split; [reflexivity|]. split; [reflexivity|]. intros qA qB E.
    unfold CtxModel.msg_key, CtxModel.child_id in E. rewrite !CtxProofs.app_assoc_s in E. apply CtxProofs.app_inv_l in E. discriminate.
Qed.
Print Assumptions C117_async_contexts_disagree_refuted.

Example ex_keys : map snd (snd (CtxModel.crun "job" [CtxModel.OMsg 0 1; CtxModel.OSpawn 0 None; CtxModel.OMsg 1 1; CtxModel.OMsg 1 1; CtxModel.OSpawn 1 (Some "g.4"%string); CtxModel.OMsg 2 1]))
  = ["job:0"; "job.0:0"; "job.0:1"; "job.0.0.g.4:0"]%string.
Proof. reflexivity. Qed.

(** C35: under every key, in every history of either transport, messages alternate accepted,
    received: each received value is the one just accepted, once; the only unread message
    is the last accepted one. *)
Theorem C35_exactly_once : forall (V : Type) t (h : list (event V)) b, history t h b ->
  forall k, exists msgs unread, delivered_in_order (traffic_on k h) msgs unread /\
    (* what can happen next is decided by the unread message of that key alone *)
    (forall v, (exists b', mb_step t b (Accepted k v) b') <-> unread = None) /\
    ((exists b', mb_step t b (Overflow k) b') <-> unread <> None) /\
    (forall v, (exists b', mb_step t b (Got k v) b') <-> unread = Some v /\ (t = InMemory -> ~ In Shutdown h)) /\
    ((exists b', mb_step t b (TimedOut k) b') <-> t = Http /\ unread = None) /\
    ((exists b', mb_step t b (ShutdownError k) b') <-> t = InMemory /\ In Shutdown h).
Proof.
  intros V t h b H k. destruct (exactly_once t h b H k) as [msgs D]. exists msgs, (entries b !! k). split; [exact D|].
  pose proof (closed_iff t h b H) as CL. repeat split.
  - intros [b' S]. inversion S; subst. assumption.
  - intros E. eexists. apply mb_accept, E.
  - intros [b' S]. inversion S; subst. congruence.
  - intros N. destruct (entries b !! k) as [v|] eqn:E; [|congruence]. eexists. eapply mb_overflow, E.
  - destruct H0 as [b' S]. inversion S; subst. assumption.
  - destruct H0 as [b' S]. inversion S; subst. intros Ht X. apply CL in X. match goal with Hc : _ = _ -> closed _ = false |- _ => specialize (Hc Ht) end. congruence.
  - intros [E N]. eexists. apply mb_got; [exact E|]. intros Ht. apply Bool.not_true_iff_false. rewrite CL. auto.
  - destruct H0 as [b' S]. inversion S; subst. reflexivity.
  - destruct H0 as [b' S]. inversion S; subst. assumption.
  - intros [Ht E]. eexists. apply mb_timeout; assumption.
  - destruct H0 as [b' S]. inversion S; subst. reflexivity.
  - destruct H0 as [b' S]. inversion S; subst. apply CL. assumption.
  - intros [Ht E]. eexists. apply mb_shutdown_error; [assumption|]. apply CL, E.
Qed.
Print Assumptions C35_exactly_once.

(** C35: an overflow changes nothing, and events on one key leave the others alone. *)
Theorem C35_keys_independent : forall (V : Type) t (b b' : mailbox V) e, mb_step t b e b' ->
  forall k, traffic_of k e = [] -> entries b' !! k = entries b !! k.
Proof.
  intros V t b b' e S k H. destruct S as [b k' v E|b k' v E|b k' v E _|b k' _ _|b k' _ _|b _]; cbn in *; try reflexivity.
  - destruct (decide (k' = k)); [discriminate|]. now apply lookup_insert_ne.
  - destruct (decide (k' = k)); [discriminate|]. now apply lookup_delete_ne.
Qed.
Print Assumptions C35_keys_independent.

Example ex_mailbox : exists b, history (V:=nat) InMemory
  [Accepted (1, "j:0"%string) 7; Overflow (1, "j:0"%string); Accepted (2, "j:0"%string) 8; Got (1, "j:0"%string) 7; Accepted (1, "j:0"%string) 9; Shutdown; ShutdownError (1, "j:0"%string)] b.
Proof.
  eexists.
  change [Accepted (1, "j:0"%string) 7; Overflow (1, "j:0"%string); Accepted (2, "j:0"%string) 8; Got (1, "j:0"%string) 7; Accepted (1, "j:0"%string) 9; Shutdown; ShutdownError (1, "j:0"%string)]
    with (((((((([] ++ [Accepted (1, "j:0"%string) 7]) ++ [Overflow (1, "j:0"%string)]) ++ [Accepted (2, "j:0"%string) 8]) ++ [Got (1, "j:0"%string) 7]) ++ [Accepted (1, "j:0"%string) 9]) ++ [Shutdown]) ++ [ShutdownError (1, "j:0"%string)])).
  repeat eapply history_snoc; [apply history_nil|..].
  - apply mb_accept. reflexivity.
  - eapply mb_overflow. reflexivity.
  - apply mb_accept. reflexivity.
  - apply mb_got; reflexivity.
  - apply mb_accept. reflexivity.
  - apply mb_shutdown. reflexivity.
  - apply mb_shutdown_error; reflexivity.
Qed.
