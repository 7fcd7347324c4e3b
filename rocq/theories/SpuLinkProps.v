(** C101: requests do not disturb each other's SPU computations. *)
From Coq Require Import FinFun List Arith Bool Lia.
From Verif Require Import SpuLinkModel SpuLinkSpec SpuLinkProofs.
Import ListNotations.
Local Open Scope nat_scope.

(** Exactly which link an execution gets, for every history of a worker on one SPU
    device: the device's own parties, numbered by how many other (request,
    flags) pairs reached this worker before. *)
Theorem C101_link_exact : forall m me ps c h i e,
  Forall (on_device ps c) h -> nth_error h i = Some e ->
  link_of m me h i = Some (Wire ps (arrival (asks e) (map asks h))).
Proof. exact link_exact. Qed.
Print Assumptions C101_link_exact.

(** So two workers' executions of one request are connected exactly when the
    request reached both workers in the same place among the requests that use
    the device. *)
Theorem C101_connected_iff : forall m a b ps c ha hb i j ea eb,
  Forall (on_device ps c) ha -> Forall (on_device ps c) hb ->
  nth_error ha i = Some ea -> nth_error hb j = Some eb ->
  (connected (link_of m a ha i) (link_of m b hb j) <->
   arrival (asks ea) (map asks ha) = arrival (asks eb) (map asks hb)).
Proof.
  intros m a b ps c ha hb i j ea eb Fa Fb Ha Hb.
  rewrite (link_exact m a ps c ha i ea Fa Ha), (link_exact m b ps c hb j eb Fb Hb). simpl.
  split; [intros H; injection H; auto | intros ->; reflexivity].
Qed.
Print Assumptions C101_connected_iff.

(** If all workers reach the requests in the same order, every execution is
    connected to the same request at the other workers, and to no other. *)
Theorem C101_same_order : forall m a b ps c ha hb i j ea eb,
  Forall (on_device ps c) ha -> Forall (on_device ps c) hb ->
  map asks ha = map asks hb ->
  nth_error ha i = Some ea -> nth_error hb j = Some eb ->
  (connected (link_of m a ha i) (link_of m b hb j) <-> asks ea = asks eb).
Proof.
  intros m a b ps c ha hb i j ea eb Fa Fb E Ha Hb.
  rewrite (C101_connected_iff m a b ps c ha hb i j ea eb Fa Fb Ha Hb). rewrite <- E.
  split; [|intros ->; reflexivity].
  apply arrival_inj. apply in_map. eapply nth_error_In; eauto.
Qed.
Print Assumptions C101_same_order.

Definition dev (j f : nat) : exec := Ex j [0; 1] 7 f.
Example C101_case :
  link_of Brpc 0 [dev 5 0; dev 6 0; dev 5 0; dev 5 1] 3 = Some (Wire [0; 1] 2) /\
  connected (link_of Brpc 0 [dev 5 0; dev 6 0; dev 5 0] 2) (link_of Brpc 1 [dev 5 0; dev 5 0; dev 6 0] 1) /\
  ~ connected (link_of Brpc 0 [dev 5 0; dev 6 0] 0) (link_of Brpc 1 [dev 5 0; dev 6 0] 1).
Proof. repeat split; vm_compute; congruence. Qed.

(** Two concurrent requests that reach two workers in different orders are wired
    crosswise: each request's SPU talks to the other request's. *)
Theorem C164_concurrent_requests_refuted : forall m a b ps c j1 j2,
  j1 <> j2 ->
  let r1 := Ex j1 ps c 0 in let r2 := Ex j2 ps c 0 in
  connected (link_of m a [r1; r2] 0) (link_of m b [r2; r1] 0) /\
  connected (link_of m a [r1; r2] 1) (link_of m b [r2; r1] 1) /\
  ~ connected (link_of m a [r1; r2] 0) (link_of m b [r2; r1] 1) /\
  ~ connected (link_of m a [r1; r2] 1) (link_of m b [r2; r1] 0).
Proof.
  intros m a b ps c j1 j2 Hne r1 r2.
  assert (Fa : Forall (on_device ps c) [r1; r2]) by (repeat constructor).
  assert (Fb : Forall (on_device ps c) [r2; r1]) by (repeat constructor).
  assert (N12 : pair_eqb (j1, 0) (j2, 0) = false).
  { unfold pair_eqb; simpl. rewrite andb_true_r. apply Nat.eqb_neq; exact Hne. }
  assert (N21 : pair_eqb (j2, 0) (j1, 0) = false).
  { unfold pair_eqb; simpl. rewrite andb_true_r. apply Nat.eqb_neq; auto. }
  repeat split.
  - rewrite (C101_connected_iff m a b ps c _ _ 0 0 r1 r2 Fa Fb eq_refl eq_refl).
    unfold arrival, asks, r1, r2; cbn [map firsts filter before job flags];
      repeat (rewrite ?N12, ?N21, ?pair_eqb_refl; cbn [negb filter before]); congruence.
  - rewrite (C101_connected_iff m a b ps c _ _ 1 1 r2 r1 Fa Fb eq_refl eq_refl).
    unfold arrival, asks, r1, r2; cbn [map firsts filter before job flags];
      repeat (rewrite ?N12, ?N21, ?pair_eqb_refl; cbn [negb filter before]); congruence.
  - rewrite (C101_connected_iff m a b ps c _ _ 0 1 r1 r1 Fa Fb eq_refl eq_refl).
    unfold arrival, asks, r1, r2; cbn [map firsts filter before job flags];
      repeat (rewrite ?N12, ?N21, ?pair_eqb_refl; cbn [negb filter before]); congruence.
  - rewrite (C101_connected_iff m a b ps c _ _ 1 0 r2 r2 Fa Fb eq_refl eq_refl).
    unfold arrival, asks, r1, r2; cbn [map firsts filter before job flags];
      repeat (rewrite ?N12, ?N21, ?pair_eqb_refl; cbn [negb filter before]); congruence.
Qed.
Print Assumptions C164_concurrent_requests_refuted.

(** A request that reaches the SPU at one worker and fails before it at another
    disconnects every later request on that device, for the rest of the
    processes' lives. *)
Theorem C164_failed_request_refuted : forall m a b ps c j0 js i j,
  NoDup (j0 :: js) -> nth_error js i = Some j ->
  ~ connected (link_of m a (map (fun k => Ex k ps c 0) (j0 :: js)) (S i))
              (link_of m b (map (fun k => Ex k ps c 0) js) i).
Proof.
  intros m a b ps c j0 js i j Hd Hj.
  assert (F : forall l, Forall (on_device ps c) (map (fun k => Ex k ps c 0) l)).
  { intros l; apply Forall_forall; intros e He. apply in_map_iff in He.
    destruct He as [k [<- _]]; split; reflexivity. }
  rewrite (C101_connected_iff m a b ps c _ _ (S i) i (Ex j ps c 0) (Ex j ps c 0) (F _) (F _)).
  - rewrite !map_map. unfold asks; cbn [job flags].
    assert (Inj : forall l, NoDup l -> NoDup (map (fun k : nat => (k, 0)) l)).
    { intros l; apply FinFun.Injective_map_NoDup. intros x y H; congruence. }
    unfold arrival.
    rewrite (firsts_of_nodup _ (Inj _ Hd)).
    inversion Hd as [|? ? Hn Hd']; subst.
    rewrite (firsts_of_nodup _ (Inj _ Hd')).
    cbn [map before]. replace (pair_eqb (j0, 0) (j, 0)) with false.
    + intros H; clear - H.
      induction (map (fun k : nat => (k, 0)) js) as [|p l IH]; simpl in H; [discriminate|].
      destruct (pair_eqb p (j, 0)); [discriminate | apply IH; lia].
    + symmetry. unfold pair_eqb; simpl. rewrite andb_true_r. apply Nat.eqb_neq.
      intros ->. apply Hn. eapply nth_error_In; eauto.
  - simpl. rewrite nth_error_map, Hj; reflexivity.
  - rewrite nth_error_map, Hj; reflexivity.
Qed.
Print Assumptions C164_failed_request_refuted.

(** Over brpc a process has one SPU device: every execution with another party
    list or link configuration, by any request, raises. *)
Theorem C164_second_device_refuted : forall me e e',
  parties e <> parties e' \/ link_cfg e <> link_cfg e' ->
  link_of Brpc me [e; e'] 1 = None.
Proof.
  intros me e e' H.
  assert (T : tkey_eqb (tkey_of Brpc me e) (tkey_of Brpc me e') = false).
  { destruct (tkey_eqb _ _) eqn:E; auto. apply tkey_eqb_eq in E. unfold tkey_of in E.
    injection E as _ _ E1 E2. destruct H; congruence. }
  unfold link_of, serve, get_or_create, start, rkey_of.
  cbn [find_r runtimes find_t templates listening]. unfold rkey_eqb. rewrite T.
  rewrite andb_false_r. reflexivity.
Qed.
Print Assumptions C164_second_device_refuted.

(** Over the communicator two configurations with the same parties use the same
    message names, also inside one request. *)
Theorem C164_shared_names_refuted : forall me j ps c1 c2 f,
  c1 <> c2 ->
  connected (link_of Channels me [Ex j ps c1 f; Ex j ps c2 f] 0)
            (link_of Channels me [Ex j ps c1 f; Ex j ps c2 f] 1).
Proof.
  intros me j ps c1 c2 f H.
  assert (T : tkey_eqb (tkey_of Channels me (Ex j ps c1 f)) (tkey_of Channels me (Ex j ps c2 f)) = false).
  { destruct (tkey_eqb _ _) eqn:E; auto. apply tkey_eqb_eq in E. unfold tkey_of in E. cbn in E. congruence. }
  unfold link_of, serve, get_or_create, start, rkey_of.
  cbn [find_r runtimes find_t templates listening]. unfold rkey_eqb. rewrite T.
  rewrite andb_false_r. reflexivity.
Qed.
Print Assumptions C164_shared_names_refuted.

Example C101_refuted_case :
  link_of Brpc 0 [Ex 1 [0; 1] 7 0; Ex 1 [0; 1] 8 0] 1 = None /\
  link_of Channels 0 [Ex 1 [0; 1] 7 0; Ex 1 [0; 1] 8 0] 1 = Some (Wire [0; 1] 0) /\
  link_of Brpc 1 (map (fun k => Ex k [0; 1] 7 0) [2; 3; 4]) 2 = Some (Wire [0; 1] 2) /\
  link_of Brpc 0 (map (fun k => Ex k [0; 1] 7 0) [1; 2; 3; 4]) 3 = Some (Wire [0; 1] 3).
Proof. repeat split; vm_compute; reflexivity. Qed.
