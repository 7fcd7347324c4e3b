From Coq Require Import List Arith ZArith Lia Bool.
From Verif Require Import TensorModel TensorSpec.
Import ListNotations.
Open Scope Z_scope.

Lemma mk_tensor_some : forall e s t, mk_tensor e s = Some t ->
  t = STens e s /\ Forall (fun d => d = -1 \/ 0 < d) s.
Proof.
  unfold mk_tensor; intros e s t H. destruct (forallb dim_ok s) eqn:E; inversion H; subst.
  split; auto. rewrite forallb_forall in E. apply Forall_forall. intros x Hx.
  apply E in Hx. unfold dim_ok in Hx. apply orb_true_iff in Hx. rewrite Z.eqb_eq, Z.ltb_lt in Hx. auto.
Qed.

Lemma np_shape_unwrap : forall v, (unwrap v).(sh) = np_shape v.
Proof. destruct v; reflexivity. Qed.

Lemma Forall2_len : forall A B (R : A -> B -> Prop) l m, Forall2 R l m -> length l = length m.
Proof. induction 1; simpl; auto. Qed.

Lemma Forall2_nth : forall A B (R : A -> B -> Prop) l m a b k, Forall2 R l m ->
  (k < length l)%nat -> R (nth k l a) (nth k m b).
Proof.
  intros A B R l m a b k H; revert k; induction H; simpl; intros; [lia|].
  destruct k; auto. apply IHForall2. lia.
Qed.

Lemma zmem_In : forall x l, zmem x l = true <-> In x l.
Proof.
  unfold zmem; intros. rewrite existsb_exists. split.
  - intros (y & H & E). apply Z.eqb_eq in E. subst; auto.
  - intros H; exists x; split; auto. apply Z.eqb_refl.
Qed.

Lemma In_zrange : forall x n, In x (zrange n) <-> 0 <= x < Z.of_nat n.
Proof.
  unfold zrange; intros. rewrite in_map_iff. split.
  - intros (k & E & H). apply in_seq in H. lia.
  - intros H. exists (Z.to_nat x). split; [lia|]. apply in_seq. lia.
Qed.

(** transpose *)
Lemma transpose_sound : forall t perm t' v v',
  conforms v t -> transpose_ae t perm = Some t' ->
  lift_arr (np_transpose perm (unwrap v)) = Ok v' -> conforms v' t'.
Proof.
  intros t perm t' v v' C T R. destruct t as [e s|]; [|discriminate]. simpl in T.
  destruct (Nat.eqb_spec (length perm) (length s)); [|discriminate].
  destruct (zset_eqb perm (zrange (length s))) eqn:E; [|discriminate].
  apply mk_tensor_some in T. destruct T as [-> _].
  unfold np_transpose in R. destruct (is_perm _ _); [|discriminate]. inversion R; subst; clear R.
  unfold conforms in *; simpl in *. rewrite np_shape_unwrap.
  unfold zset_eqb in E. apply andb_true_iff in E. destruct E as [E _].
  rewrite forallb_forall in E.
  assert (P : Forall (fun p => 0 <= p < Z.of_nat (length s)) perm).
  { apply Forall_forall. intros x Hx. apply E in Hx. apply zmem_In, In_zrange in Hx. auto. }
  clear E e0. induction P as [|p ps Hp P IH]; simpl; constructor; auto.
  unfold znth. apply Forall2_nth; auto. lia.
Qed.

Lemma transpose_progress : forall t perm t' v,
  conforms v t -> transpose_ae t perm = Some t' ->
  exists a, np_transpose perm (unwrap v) = Ok a.
Proof.
  intros t perm t' v C T. destruct t as [e s|]; [|discriminate]. simpl in T.
  destruct (Nat.eqb_spec (length perm) (length s)); [|discriminate].
  destruct (zset_eqb perm (zrange (length s))) eqn:E; [|discriminate].
  unfold np_transpose. rewrite np_shape_unwrap.
  assert (L : length (np_shape v) = length s). { symmetry. eapply Forall2_len; exact C. }
  unfold is_perm. rewrite L, e0, Nat.eqb_refl. unfold zset_eqb in E. apply andb_true_iff in E.
  destruct E as [_ ->]. simpl. eauto.
Qed.

(** reshape *)
Lemma conf_static : forall s ns, Forall2 conf_dim s ns -> Forall (fun d => 0 < d) s ->
  zprod s = zsize ns.
Proof.
  induction 1; intros F; inversion F; subst; simpl; auto.
  unfold zsize in *. simpl. rewrite Nat2Z.inj_mul, <- IHForall2 by auto.
  destruct H; [lia|]. subst. reflexivity.
Qed.

Lemma fully_static_iff : forall s, fully_static s = true <-> Forall (fun d => 0 < d) s.
Proof.
  unfold fully_static; intros. rewrite forallb_forall, Forall_forall.
  split; intros H x Hx; apply H in Hx; [apply Z.ltb_lt | apply Z.ltb_lt]; auto.
Qed.

Lemma known_nonneg : forall l : list Z,
  (forall x, In x l -> (x =? -1) || (0 <=? x) = true) ->
  0 <= zprod (filter (fun d => negb (d =? -1)) l).
Proof.
  induction l; intros Hl; simpl; [lia|]. pose proof (Hl a (or_introl eq_refl)).
  destruct (a =? -1); simpl in *; [apply IHl; intros; apply Hl; right; auto|].
  apply Z.mul_nonneg_nonneg; [lia|]. apply IHl; intros; apply Hl; right; auto.
Qed.

Lemma reshape_sound : forall t ns t' v v',
  conforms v t -> reshape_ae t ns = Some t' ->
  lift_arr (np_reshape ns (unwrap v)) = Ok v' -> conforms v' t'.
Proof.
  intros t ns t' v v' C T R. destruct t as [e s|]; [|discriminate].
  unfold np_reshape in R. rewrite np_shape_unwrap in R. unfold conforms in *. simpl in C.
  simpl in T.
  destruct (1 <? Z.of_nat (count_neg1 ns)) eqn:E1; [discriminate|].
  destruct (Nat.eqb (count_neg1 ns) 0) eqn:E0.
  - assert (T' : t' = STens e ns).
    { destruct (fully_static s).
      - destruct (zprod s =? zprod ns); [|discriminate]. apply mk_tensor_some in T; tauto.
      - apply mk_tensor_some in T; tauto. }
    subst t'. simpl.
    destruct (forallb _ ns && _) eqn:E2; [|discriminate]. inversion R; subst; simpl.
    apply andb_true_iff in E2. destruct E2 as [E2 _]. rewrite forallb_forall in E2.
    clear - E2. induction ns; simpl; constructor.
    + right. specialize (E2 a (or_introl eq_refl)). lia.
    + apply IHns. intros; apply E2; right; auto.
  - destruct (Nat.eqb (count_neg1 ns) 1) eqn:E3; [|discriminate].
    set (known := zprod (filter (fun d => negb (d =? -1)) ns)) in *.
    destruct (_ && _ && _) eqn:E2; [|discriminate]. inversion R; subst; clear R; simpl.
    apply andb_true_iff in E2. destruct E2 as [E2 M]. apply andb_true_iff in E2.
    destruct E2 as [E2 K]. rewrite forallb_forall in E2.
    destruct (fully_static s) eqn:FS.
    + destruct (known =? 0) eqn:K0; [discriminate|].
      destruct (negb (zprod s mod known =? 0)) eqn:M0; [discriminate|].
      apply mk_tensor_some in T. destruct T as [-> V]. simpl.
      apply fully_static_iff in FS. rewrite (conf_static _ _ C FS) in *.
      assert (KN : 0 <= known) by (apply known_nonneg; exact E2).
      assert (Q : 0 <= zsize (np_shape v) / known).
      { destruct (Z.eq_dec known 0) as [->|]; [rewrite Zdiv_0_r; lia|].
        apply Z.div_pos; [unfold zsize; lia | lia]. }
      clearbody known. revert Q V. generalize (zsize (np_shape v) / known). intros q Q V.
      clear - E2 V Q. induction ns as [|d ns IH]; simpl in *; [constructor|].
      inversion V; subst. constructor.
      * right. destruct (d =? -1) eqn:Ed; [lia|].
        specialize (E2 d (or_introl eq_refl)). rewrite Ed in E2. simpl in E2. lia.
      * apply IH; auto.
    + apply mk_tensor_some in T. destruct T as [-> V]. simpl.
      clearbody known. generalize (zsize (np_shape v) / known). intros q.
      clear - E2. induction ns as [|d ns IH]; simpl in *; [constructor|]. constructor.
      * destruct (d =? -1) eqn:Ed; [left; lia|]. right.
        specialize (E2 d (or_introl eq_refl)). rewrite Ed in E2. simpl in E2. lia.
      * apply IH; intros; apply E2; auto.
Qed.

Lemma reshape_progress : forall t ns t' v,
  conforms v t -> static_type t -> reshape_ae t ns = Some t' ->
  exists a, np_reshape ns (unwrap v) = Ok a.
Proof.
  intros t ns t' v C S T. destruct t as [e s|]; [|discriminate].
  unfold np_reshape. rewrite np_shape_unwrap. unfold conforms, static_type in *.
  cbn [type_shape] in C, S. simpl in T.
  rewrite (conf_static _ _ C S) in T. apply fully_static_iff in S. rewrite S in T.
  destruct (1 <? Z.of_nat (count_neg1 ns)) eqn:E1; [discriminate|].
  destruct (Nat.eqb (count_neg1 ns) 0) eqn:E0.
  - destruct (zsize (np_shape v) =? zprod ns) eqn:E; [|discriminate].
    apply mk_tensor_some in T. destruct T as [_ V].
    assert (A : forallb (fun d => 0 <=? d) ns = true).
    { apply forallb_forall. intros x Hx. rewrite Forall_forall in V.
      destruct (V x Hx) as [->|]; [|lia]. exfalso. apply Nat.eqb_eq in E0.
      unfold count_neg1 in E0. apply length_zero_iff_nil in E0.
      assert (In (-1) (filter (fun d => d =? -1) ns)) by (apply filter_In; auto).
      rewrite E0 in H. destruct H. }
    rewrite A, Z.eqb_sym, E. simpl. eauto.
  - assert (E3 : Nat.eqb (count_neg1 ns) 1 = true).
    { apply Nat.eqb_eq. apply Nat.eqb_neq in E0. lia. }
    rewrite E3. set (known := zprod (filter (fun d => negb (d =? -1)) ns)) in *.
    destruct (known =? 0) eqn:K; [discriminate|].
    destruct (negb (zsize (np_shape v) mod known =? 0)) eqn:M; [discriminate|].
    apply negb_false_iff in M. rewrite M.
    apply mk_tensor_some in T. destruct T as [_ V].
    assert (A : forallb (fun d => (d =? -1) || (0 <=? d)) ns = true).
    { apply forallb_forall. intros x Hx. rewrite Forall_forall in V.
      destruct (x =? -1) eqn:Ex; [reflexivity|]. simpl.
      specialize (V (if x =? -1 then zsize (np_shape v) / known else x)).
      rewrite Ex in V. destruct V; [|lia|lia].
      apply in_map_iff. exists x. rewrite Ex. auto. }
    rewrite A. simpl. eauto.
Qed.

(** concat *)
Lemma set_nth_length : forall A (l : list A) n x, length (set_nth n x l) = length l.
Proof. induction l; destruct n; simpl; auto. Qed.

Lemma nth_set_nth : forall A (l : list A) n k x d, (n < length l)%nat ->
  nth k (set_nth n x l) d = if Nat.eqb k n then x else nth k l d.
Proof.
  induction l; simpl; intros; [lia|]. destruct n; destruct k; simpl; auto.
  rewrite IHl by lia. reflexivity.
Qed.

Lemma Forall2_intro : forall A B (R : A -> B -> Prop) l m a b, length l = length m ->
  (forall k, (k < length l)%nat -> R (nth k l a) (nth k m b)) -> Forall2 R l m.
Proof.
  induction l; destruct m; simpl; intros; try discriminate; constructor.
  - apply (H0 O). lia.
  - eapply IHl; auto. intros. apply (H0 (S k)). lia.
Qed.

(** what [concat_dims] computes, dimension by dimension *)
Lemma concat_dims_spec : forall ax res s i r,
  concat_dims ax i res s = Some r ->
  length r = length res /\ length s = length res /\
  forall k, (k < length res)%nat ->
    if Nat.eqb (i + k) ax then nth k r 0 = nth k res 0
    else (nth k res 0 = -1 \/ nth k s 0 = -1 \/ nth k res 0 = nth k s 0) /\
         nth k r 0 = (if nth k s 0 =? -1 then -1 else nth k res 0).
Proof.
  induction res as [|x res IH]; destruct s as [|d s]; simpl; intros i r H; try discriminate.
  - inversion H; subst. simpl. repeat split; auto. intros; lia.
  - destruct (concat_dims ax (S i) res s) as [rest|] eqn:E; [|discriminate].
    apply IH in E. destruct E as (L1 & L2 & E).
    destruct (Nat.eqb i ax) eqn:A.
    + inversion H; subst; simpl. repeat split; auto.
      intros k Hk. destruct k; [rewrite Nat.add_0_r, A; reflexivity|].
      specialize (E k ltac:(lia)). replace (i + S k)%nat with (S i + k)%nat by lia. exact E.
    + destruct (negb (x =? -1) && negb (d =? -1) && negb (x =? d)) eqn:B; [discriminate|].
      inversion H; subst; simpl. repeat split; auto.
      intros k Hk. destruct k.
      * rewrite Nat.add_0_r, A. split; [|reflexivity].
        destruct (Z.eqb_spec x (-1)); auto. destruct (Z.eqb_spec d (-1)); auto.
        destruct (Z.eqb_spec x d); auto. discriminate.
      * specialize (E k ltac:(lia)). replace (i + S k)%nat with (S i + k)%nat by lia. exact E.
Qed.

Lemma same_but_spec : forall ax s t, same_but ax s t = true <->
  length s = length t /\ forall k, (k < length s)%nat -> k <> ax -> nth k s O = nth k t O.
Proof.
  unfold same_but; intros. rewrite andb_true_iff, Nat.eqb_eq, forallb_forall. split.
  - intros [L H]. split; auto. intros k Hk N. specialize (H k). rewrite in_seq in H.
    specialize (H ltac:(lia)). apply orb_true_iff in H. rewrite !Nat.eqb_eq in H. tauto.
  - intros [L H]. split; auto. intros k Hk. apply in_seq in Hk. apply orb_true_iff.
    rewrite !Nat.eqb_eq. destruct (Nat.eq_dec k ax); auto. right. apply H; auto. lia.
Qed.

(** running the loop of [_concat_ae] over further tensors whose run-time shapes
    agree with [first] outside the axis *)
Lemma concat_loop_sound : forall ax ts ss res cds first n res' cds',
  Forall2 (fun s (x : list nat) => Forall2 conf_dim s x) ts ss ->
  Forall (fun x => same_but ax first x = true) ss ->
  (ax < length res)%nat -> length res = length first ->
  (forall k, (k < length res)%nat -> k <> ax -> conf_dim (nth k res 0) (nth k first O)) ->
  conf_dim cds n ->
  concat_loop ax res cds ts = Some (res', cds') ->
  length res' = length first /\
  (forall k, (k < length res)%nat -> k <> ax -> conf_dim (nth k res' 0) (nth k first O)) /\
  conf_dim cds' (n + fold_right (fun x m => (nth ax x O + m)%nat) O ss).
Proof.
  induction ts as [|t ts IH]; intros ss res cds first n res' cds' F SB A L D C H;
    inversion F; subst; simpl in H.
  - inversion H; subst. simpl. rewrite Nat.add_0_r. auto.
  - destruct (Nat.eqb_spec (length t) (length res)) as [E|]; [|discriminate].
    destruct (concat_dims ax 0 res t) as [r|] eqn:Q; [|discriminate].
    apply concat_dims_spec in Q. destruct Q as (L1 & L2 & Q).
    inversion SB as [|? ? SB0 SB1]; subst. apply same_but_spec in SB0. destruct SB0 as [SL SD].
    match type of H with concat_loop _ _ ?c _ = _ => set (cds2 := c) in * end.
    eapply (IH l' r cds2 first (n + nth ax y O)%nat) in H; eauto; try lia.
    + destruct H as (K1 & K2 & K3). split; [lia|]. split.
      * intros k Hk N. apply K2; auto. lia.
      * simpl. rewrite Nat.add_assoc. exact K3.
    + intros k Hk N. specialize (Q k ltac:(lia)). simpl in Q.
      destruct (Nat.eqb_spec k ax); [congruence|]. destruct Q as [_ ->].
      destruct (Z.eqb_spec (nth k t 0) (-1)); [left; reflexivity|]. apply D; auto. lia.
    + assert (CD : conf_dim (nth ax t 0) (nth ax y O)) by (apply Forall2_nth; auto; lia).
      unfold cds2. destruct (Z.eqb_spec cds (-1)); [left; reflexivity|].
      destruct (Z.eqb_spec (nth ax t 0) (-1)); [left; reflexivity|]. simpl.
      right. destruct C as [|C]; [congruence|]. destruct CD as [|CD]; [congruence|].
      rewrite C, CD. lia.
Qed.

Lemma all_tensors_some : forall ts l, all_tensors ts = Some l ->
  map type_shape ts = map snd l /\ length ts = length l.
Proof.
  induction ts as [|t ts IH]; intros l H; simpl in H.
  - inversion H; subst; auto.
  - destruct t as [e s|]; [|discriminate]. destruct (all_tensors ts) as [l'|]; [|discriminate].
    inversion H; subst. destruct (IH _ eq_refl). simpl. split; congruence.
Qed.

Lemma Forall2_shapes : forall vs ts, Forall2 conforms vs ts ->
  Forall2 (fun s (x : list nat) => Forall2 conf_dim s x) (map type_shape ts) (map np_shape vs).
Proof. induction 1; simpl; constructor; auto. Qed.

Lemma np_concat_shapes : forall axis vs v',
  lift_arr (np_concat axis (map unwrap vs)) = Ok v' ->
  exists v0 vr, vs = v0 :: vr /\
    let ax := norm_axis axis (length (np_shape v0)) in
    0 <= ax < Z.of_nat (length (np_shape v0)) /\
    Forall (fun x => same_but (Z.to_nat ax) (np_shape v0) x = true) (map np_shape vr) /\
    np_shape v' = set_nth (Z.to_nat ax)
      (nth (Z.to_nat ax) (np_shape v0) O +
       fold_right (fun x m => (nth (Z.to_nat ax) x O + m)%nat) O (map np_shape vr))%nat
      (np_shape v0).
Proof.
  intros axis vs v' H. destruct vs as [|v0 vr]; [discriminate|].
  simpl in H. rewrite np_shape_unwrap in H.
  destruct (_ || _) eqn:B; [discriminate|].
  apply orb_false_iff in B. destruct B as [B1 B2].
  destruct (forallb _ _) eqn:F; [|discriminate]. inversion H; subst; clear H.
  exists v0, vr. split; auto. split; [lia|]. split.
  - rewrite forallb_forall in F. apply Forall_forall. intros x Hx.
    apply in_map_iff in Hx. destruct Hx as (w & <- & Hw).
    specialize (F (unwrap w)). rewrite np_shape_unwrap in F. apply F. apply in_map. auto.
  - simpl. f_equal. f_equal. clear. induction vr; simpl; auto. rewrite np_shape_unwrap. congruence.
Qed.

Lemma concat_sound : forall ts axis t' vs v',
  Forall2 conforms vs ts -> concat_ae ts axis = Some t' ->
  lift_arr (np_concat axis (map unwrap vs)) = Ok v' -> conforms v' t'.
Proof.
  intros ts axis t' vs v' C T R. apply np_concat_shapes in R.
  destruct R as (v0 & vr & -> & R). cbv zeta in R. destruct R as (B & SB & SH).
  unfold concat_ae in T.
  destruct (all_tensors ts) as [l|] eqn:AT; [|discriminate].
  apply all_tensors_some in AT. destruct AT as [AT _].
  apply Forall2_shapes in C. rewrite AT in C. clear AT.
  destruct l as [|[e first] rest]; [inversion C|].
  destruct (forallb _ rest); [|discriminate]. simpl in C. inversion C as [|? ? ? ? C0 CR]; subst.
  assert (L : length first = length (np_shape v0)) by (eapply Forall2_len; eauto).
  rewrite L in T. set (ax := norm_axis axis (length (np_shape v0))) in *.
  destruct (_ || _) eqn:B'; [discriminate|].
  destruct (concat_loop _ _ _ _) as [[res cds]|] eqn:CL; [|discriminate].
  apply mk_tensor_some in T. destruct T as [-> _].
  eapply concat_loop_sound in CL; eauto; try lia.
  2:{ intros. apply Forall2_nth; auto. }
  2:{ apply (Forall2_nth _ _ _ _ _ 0 O _ C0). lia. }
  destruct CL as (L1 & D & CD). unfold conforms. simpl. rewrite SH.
  eapply Forall2_intro with (a := 0) (b := O).
  - rewrite !set_nth_length. lia.
  - intros k Hk. rewrite set_nth_length in Hk. rewrite !nth_set_nth by lia.
    destruct (Nat.eqb_spec k (Z.to_nat ax)); auto. apply D; auto. lia.
Qed.

Lemma concat_loop_static : forall ax ts res cds res' cds',
  (ax < length res)%nat ->
  Forall (fun d => 0 < d) res -> 0 < cds -> Forall (Forall (fun d => 0 < d)) ts ->
  concat_loop ax res cds ts = Some (res', cds') ->
  res' = res /\ 0 < cds' /\
  Forall (fun s => length s = length res /\
    forall k, (k < length res)%nat -> k <> ax -> nth k s 0 = nth k res 0) ts.
Proof.
  induction ts as [|t ts IH]; intros res cds res' cds' A SR SC ST H; simpl in H.
  - inversion H; subst; auto.
  - destruct (Nat.eqb_spec (length t) (length res)) as [E|]; [|discriminate].
    destruct (concat_dims ax 0 res t) as [r|] eqn:Q; [|discriminate].
    apply concat_dims_spec in Q. destruct Q as (L1 & L2 & Q).
    inversion ST as [|? ? S0 S1]; subst.
    assert (P : forall l k, Forall (fun d => 0 < d) l -> (k < length l)%nat -> 0 < nth k l 0).
    { intros l k F Hk. rewrite Forall_forall in F. apply F. apply nth_In. auto. }
    assert (RR : r = res).
    { apply (nth_ext _ _ 0 0); auto. intros k Hk. rewrite L1 in Hk. specialize (Q k Hk).
      simpl in Q. destruct (Nat.eqb_spec k ax); auto. destruct Q as [_ ->].
      destruct (Z.eqb_spec (nth k t 0) (-1)) as [F|]; auto.
      specialize (P t k S0 ltac:(lia)). lia. }
    subst r. pose proof (P t ax S0 ltac:(lia)).
    destruct (Z.eqb_spec cds (-1)); [lia|]. destruct (Z.eqb_spec (nth ax t 0) (-1)); [lia|].
    simpl in H. apply IH in H; auto; try lia. destruct H as (-> & K1 & K2).
    repeat split; auto. constructor; auto. split; [lia|]. intros k Hk N.
    specialize (Q k Hk). simpl in Q. destruct (Nat.eqb_spec k ax); [congruence|].
    destruct Q as [Q _]. pose proof (P t k S0 ltac:(lia)). pose proof (P res k SR ltac:(lia)). lia.
Qed.

Lemma conf_static_eq : forall s ns, Forall2 conf_dim s ns -> Forall (fun d => 0 < d) s ->
  s = map Z.of_nat ns.
Proof.
  induction 1; intros F; inversion F; subst; simpl; auto. f_equal; auto. destruct H; lia.
Qed.

Lemma nth_map_nat : forall (l : list nat) k, nth k (map Z.of_nat l) 0 = Z.of_nat (nth k l O).
Proof. intros. change 0 with (Z.of_nat O). apply map_nth. Qed.

Lemma concat_progress : forall ts axis t' vs,
  Forall2 conforms vs ts -> Forall static_type ts -> concat_ae ts axis = Some t' ->
  exists a, np_concat axis (map unwrap vs) = Ok a.
Proof.
  intros ts axis t' vs C S T. unfold concat_ae in T.
  destruct (all_tensors ts) as [l|] eqn:AT; [|discriminate].
  apply all_tensors_some in AT. destruct AT as [AT _].
  apply Forall2_shapes in C. rewrite AT in C.
  assert (SS : Forall (Forall (fun d => 0 < d)) (map snd l)).
  { rewrite <- AT. clear - S. induction S; simpl; constructor; auto. }
  clear AT. destruct l as [|[e first] rest]; [discriminate|].
  destruct (forallb _ rest); [|discriminate].
  destruct vs as [|v0 vr]; [inversion C|]. simpl in C. inversion C as [|? w ? ws C0 CR]; subst.
  assert (L : length first = length (np_shape v0)) by (eapply Forall2_len; eauto).
  rewrite L in T. simpl. rewrite np_shape_unwrap.
  set (ax := norm_axis axis (length (np_shape v0))) in *.
  destruct (_ || _) eqn:B'; [discriminate|].
  destruct (concat_loop _ _ _ _) as [[res cds]|] eqn:CL; [|discriminate].
  simpl in SS. inversion SS as [|? ? S0 SR]; subst.
  apply concat_loop_static in CL; auto; try lia.
  2:{ rewrite Forall_forall in S0. apply S0. apply nth_In. lia. }
  destruct CL as (_ & _ & CL).
  assert (F : forallb (fun b => same_but (Z.to_nat ax) (np_shape v0) (sh b)) (map unwrap vr) = true).
  { apply forallb_forall. intros a Ha. apply in_map_iff in Ha. destruct Ha as (v & <- & Hv).
    rewrite np_shape_unwrap. apply same_but_spec.
    assert (exists s, In s (map snd rest) /\ Forall2 conf_dim s (np_shape v)).
    { clear - CR Hv. remember (map snd rest) as m. clear Heqm. revert m CR.
      induction vr; [destruct Hv|]. intros m CR. inversion CR; subst.
      destruct Hv as [<-|Hv]; [exists x; split; [left|]; auto|].
      destruct (IHvr Hv _ H3) as (s & I & J). exists s; split; [right|]; auto. }
    destruct H as (s & I & J). rewrite Forall_forall in CL, SR.
    destruct (CL _ I) as [Ls Q]. pose proof (conf_static_eq _ _ J (SR _ I)) as E1.
    pose proof (conf_static_eq _ _ C0 S0) as E0.
    assert (Lv : length s = length (np_shape v)) by (rewrite E1; apply map_length).
    split; [lia|]. intros k Hk N. specialize (Q k ltac:(lia) N).
    rewrite E1, E0, !nth_map_nat in Q. lia. }
  rewrite F. eauto.
Qed.

(** gather *)
Lemma Forall2_app_conf : forall a b x y,
  Forall2 conf_dim a x -> Forall2 conf_dim b y -> Forall2 conf_dim (a ++ b) (x ++ y).
Proof. intros; apply Forall2_app; auto. Qed.

Lemma Forall2_firstn : forall A B (R : A -> B -> Prop) k l m,
  Forall2 R l m -> Forall2 R (firstn k l) (firstn k m).
Proof. induction k; intros l m H; simpl; [constructor|]. destruct H; constructor; auto. Qed.

Lemma Forall2_skipn : forall A B (R : A -> B -> Prop) k l m,
  Forall2 R l m -> Forall2 R (skipn k l) (skipn k m).
Proof. induction k; intros l m H; simpl; auto. destruct H; [constructor|]; auto. Qed.

Lemma gather_sound : forall t u axis t' v w v',
  conforms v t -> conforms w u -> gather_ae t u axis = Some t' ->
  lift_arr (np_take (unwrap v) (unwrap w) axis) = Ok v' -> conforms v' t'.
Proof.
  intros t u axis t' v w v' C D T R. destruct t as [e s|]; [|discriminate].
  destruct u as [[bits sg|] s2|]; try discriminate. unfold gather_ae in T.
  destruct (Nat.eqb bits 32 || Nat.eqb bits 64); [|discriminate].
  unfold np_take in R. rewrite !np_shape_unwrap in R.
  unfold conforms in *. simpl in C, D.
  assert (L : length s = length (np_shape v)) by (eapply Forall2_len; eauto).
  rewrite L in T. destruct (_ || _); [discriminate|].
  apply mk_tensor_some in T. destruct T as [-> _].
  destruct (forallb _ _); [|discriminate]. inversion R; subst. simpl.
  apply Forall2_app; [apply Forall2_firstn; auto|]. apply Forall2_app; auto.
  exact (Forall2_skipn _ _ _ (S (Z.to_nat (norm_axis axis (length (np_shape v))))) _ _ C).
Qed.

Lemma gather_errors : forall t u axis t' v w err,
  conforms v t -> gather_ae t u axis = Some t' ->
  np_take (unwrap v) (unwrap w) axis = Err err -> err = EIndex.
Proof.
  intros t u axis t' v w err C T R. destruct t as [e s|]; [|discriminate].
  destruct u as [[bits sg|] s2|]; try discriminate. unfold gather_ae in T.
  destruct (Nat.eqb bits 32 || Nat.eqb bits 64); [|discriminate].
  unfold np_take in R. rewrite !np_shape_unwrap in R.
  unfold conforms in *. simpl in C.
  assert (L : length s = length (np_shape v)) by (eapply Forall2_len; eauto).
  rewrite L in T. destruct (_ || _); [discriminate|].
  destruct (forallb _ _); [discriminate|]. congruence.
Qed.

(** slice *)
Lemma slice_len_agree : forall n a b s, 0 < s -> 0 <= n ->
  slice_len_ae n a b s = snd (py_slice n a b s).
Proof.
  intros n a b s Hs Hn. unfold slice_len_ae, py_slice.
  destruct (Z.ltb_spec 0 s); [|lia]. cbv zeta. simpl.
  set (a1 := if a <? 0 then Z.max 0 (n + a) else a).
  set (a2 := Z.max 0 (Z.min a1 n)).
  assert (EA : (if a <? 0 then Z.max 0 (a + n) else Z.min a n) = a2).
  { unfold a2, a1. destruct (Z.ltb_spec a 0); lia. }
  set (b1 := if b <? 0 then Z.max 0 (n + b) else b).
  set (b2 := Z.max 0 (Z.min b1 n)).
  assert (EB : (if b <? 0 then Z.max 0 (b + n) else Z.min b n) = b2).
  { unfold b2, b1. destruct (Z.ltb_spec b 0); lia. }
  rewrite EA, EB. clearbody a2 b2.
  destruct (Z.leb_spec b2 a2); destruct (Z.ltb_spec a2 b2); try lia.
  replace (b2 - a2 + s - 1) with (b2 - a2 - 1 + 1 * s) by lia.
  rewrite Z.div_add by lia. reflexivity.
Qed.

Lemma py_slice_count_nonneg : forall n a b s, s <> 0 -> 0 <= snd (py_slice n a b s).
Proof.
  intros. unfold py_slice. destruct (0 <? s) eqn:E; cbv zeta; simpl.
  - match goal with |- 0 <= if ?x <? ?y then _ else _ => destruct (Z.ltb_spec x y); [|lia] end.
    match goal with |- 0 <= ?x / s + 1 => assert (0 <= x / s) by (apply Z.div_pos; lia); lia end.
  - match goal with |- 0 <= if ?x <? ?y then _ else _ => destruct (Z.ltb_spec x y); [|lia] end.
    match goal with |- 0 <= ?x / ?y + 1 => assert (0 <= x / y) by (apply Z.div_pos; lia); lia end.
Qed.

Lemma slices_sound : forall s starts stops strides d ns l,
  Forall2 conf_dim s ns ->
  slice_dims s starts stops strides = Some d ->
  np_slices ns starts stops strides = Ok l ->
  Forall2 conf_dim d (map (fun p => Z.to_nat (snd (fst p))) l).
Proof.
  induction s as [|x s IH]; intros starts stops strides d ns l C T R;
    destruct starts as [|a starts]; destruct stops as [|b stops]; destruct strides as [|st strides];
    simpl in T; try discriminate.
  - inversion C; subst. inversion T; subst. simpl in R. inversion R; subst. constructor.
  - inversion C as [|? n ? ns' C0 C1]; subst. simpl in R.
    destruct (slice_dims s starts stops strides) as [rest|] eqn:E; [|discriminate].
    destruct (Z.eqb_spec st 0); [discriminate|].
    destruct (np_slices ns' starts stops strides) as [r|] eqn:E'; [|discriminate].
    destruct (py_slice (Z.of_nat n) a b st) as [f c] eqn:P. inversion R; subst.
    simpl. destruct (Z.eqb_spec x (-1)).
    + inversion T; subst. constructor; [left; reflexivity | eapply IH; eauto].
    + destruct (Z.leb_spec st 0); [discriminate|]. inversion T; subst. constructor.
      * right. destruct C0 as [|C0]; [congruence|]. subst x.
        rewrite slice_len_agree, P by lia. simpl.
        pose proof (py_slice_count_nonneg (Z.of_nat n) a b st ltac:(lia)). rewrite P in H0. simpl in H0. lia.
      * eapply IH; eauto.
Qed.

Lemma slices_progress : forall s starts stops strides d ns,
  Forall2 conf_dim s ns -> Forall (fun x => 0 < x) s ->
  slice_dims s starts stops strides = Some d ->
  exists l, np_slices ns starts stops strides = Ok l.
Proof.
  induction s as [|x s IH]; intros starts stops strides d ns C S T;
    destruct starts as [|a starts]; destruct stops as [|b stops]; destruct strides as [|st strides];
    simpl in T; try discriminate.
  - inversion C; subst. simpl. eauto.
  - inversion C as [|? n ? ns' C0 C1]; subst. inversion S; subst.
    destruct (slice_dims s starts stops strides) as [rest|] eqn:E; [|discriminate].
    destruct (Z.eqb_spec x (-1)); [lia|]. destruct (Z.leb_spec st 0); [discriminate|].
    destruct (IH _ _ _ _ _ C1 H2 E) as (l & Hl). simpl.
    destruct (Z.eqb_spec st 0); [lia|]. rewrite Hl.
    destruct (py_slice _ _ _ _). eauto.
Qed.

Lemma slice_strides : forall (s starts stops : list Z) (strides : option (list Z)),
  Nat.eqb (length starts) (length s) && Nat.eqb (length stops) (length s) &&
  Nat.eqb (length (match strides with Some x => x | None => repeat 1 (length s) end)) (length s) = true ->
  match strides with Some ((_ :: _) as x) => x | _ => repeat 1 (length starts) end =
  match strides with Some x => x | None => repeat 1 (length s) end.
Proof.
  intros s starts stops strides H. rewrite !andb_true_iff, !Nat.eqb_eq in H. destruct H as [[H1 H2] H3].
  destruct strides as [[|x xs]|].
  - simpl in H3. rewrite H1, <- H3. reflexivity.
  - reflexivity.
  - rewrite H1. reflexivity.
Qed.

Lemma slice_sound : forall t a b s t' v v',
  conforms v t -> slice_ae t a b s = Some t' ->
  lift_arr (slice_impl (unwrap v) a b s) = Ok v' -> conforms v' t'.
Proof.
  intros t a b s t' v v' C T R. destruct t as [e sh0|]; [|discriminate]. unfold slice_ae in T.
  cbv zeta in T.
  destruct (_ && _) eqn:B in T; [|discriminate].
  destruct (slice_dims _ _ _ _) as [d|] eqn:E; [|discriminate].
  apply mk_tensor_some in T. destruct T as [-> _]. unfold slice_impl in R. cbv zeta in R.
  rewrite np_shape_unwrap, (slice_strides _ _ _ _ B) in R.
  destruct (np_slices _ _ _ _) as [l|] eqn:E'; [|discriminate]. inversion R; subst.
  unfold conforms. simpl. eapply slices_sound; eauto.
Qed.

Lemma slice_progress : forall t a b s t' v,
  conforms v t -> static_type t -> slice_ae t a b s = Some t' ->
  exists r, slice_impl (unwrap v) a b s = Ok r.
Proof.
  intros t a b s t' v C S T. destruct t as [e sh0|]; [|discriminate]. unfold slice_ae in T.
  cbv zeta in T.
  destruct (_ && _) eqn:B in T; [|discriminate].
  destruct (slice_dims _ _ _ _) as [d|] eqn:E; [|discriminate].
  unfold slice_impl. cbv zeta.
  rewrite np_shape_unwrap, (slice_strides _ _ _ _ B).
  destruct (slices_progress _ _ _ _ _ _ C S E) as (l & ->). eauto.
Qed.

(** elementwise *)
Lemma list_eqb_Z : forall a b : list Z, list_eqb Z.eqb a b = true <-> a = b.
Proof.
  induction a; destruct b; simpl; split; intros; try discriminate; auto.
  - apply andb_true_iff in H. destruct H as [H1 H2]. apply Z.eqb_eq in H1. apply IHa in H2. congruence.
  - inversion H; subst. rewrite Z.eqb_refl. apply IHa. reflexivity.
Qed.

Lemma list_eqb_nat : forall a b : list nat, list_eqb Nat.eqb a b = true <-> a = b.
Proof.
  induction a; destruct b; simpl; split; intros; try discriminate; auto.
  - apply andb_true_iff in H. destruct H as [H1 H2]. apply Nat.eqb_eq in H1. apply IHa in H2. congruence.
  - inversion H; subst. rewrite Nat.eqb_refl. apply IHa. reflexivity.
Qed.

Definition opt_nil (o : option (list Z)) : list Z := match o with Some s => s | None => [] end.

(** every tensor of positive rank has the shape the tracer settled on *)
Lemma lift_shapes_spec : forall ts acc r, lift_shapes acc ts = Some r ->
  (opt_nil acc <> [] -> opt_nil r = opt_nil acc) /\
  Forall (fun t => type_shape t = [] \/ type_shape t = opt_nil r) ts.
Proof.
  induction ts as [|t ts IH]; intros acc r H; simpl in H.
  - inversion H; subst. auto.
  - destruct (lift_shape acc t) as [acc'|] eqn:E; [|discriminate].
    apply IH in H. destruct H as [H1 H2].
    assert (Q : (opt_nil acc <> [] -> opt_nil acc' = opt_nil acc) /\
                (type_shape t = [] \/ type_shape t = opt_nil acc')).
    { unfold lift_shape in E. destruct t as [e s|e]; simpl.
      - destruct acc as [cur|]; simpl.
        + destruct (list_eqb Z.eqb cur s) eqn:E1; [apply list_eqb_Z in E1; inversion E; subst; simpl; auto|].
          destruct (list_eqb Z.eqb cur []) eqn:E2; [apply list_eqb_Z in E2; inversion E; subst; simpl; tauto|].
          destruct (list_eqb Z.eqb s []) eqn:E3; [apply list_eqb_Z in E3; inversion E; subst; simpl; auto|].
          discriminate.
        + inversion E; subst; simpl. tauto.
      - inversion E; subst. auto. }
    destruct Q as [Q1 Q2]. split.
    + intros N. rewrite <- (Q1 N). apply H1. rewrite (Q1 N). auto.
    + constructor; auto. destruct Q2 as [|Q2]; auto.
      destruct (opt_nil acc') eqn:E'; [left; auto|]. right. rewrite Q2. symmetry. apply H1. discriminate.
Qed.

Lemma elem_shape_spec : forall ts vs, Forall2 conforms vs ts ->
  (Forall (fun t => type_shape t = []) ts /\ elem_shape ts vs = []) \/
  (exists t v, In (v, t) (combine vs ts) /\ type_shape t <> [] /\
     elem_shape ts vs = np_shape v).
Proof.
  intros ts vs C. induction C as [|v t vs ts H C IH]; simpl; [left; split; constructor|].
  assert (K : type_shape t = [] \/ type_shape t <> []) by (destruct (type_shape t); [left|right]; congruence).
  destruct K as [K|K].
  - assert (E : elem_shape (t :: ts) (v :: vs) = elem_shape ts vs).
    { simpl. destruct t as [e s|e]; simpl in K; [subst s|]; reflexivity. }
    simpl in E. rewrite E. destruct IH as [[IH1 IH2]|(t' & v' & I & N & E')].
    + left. split; auto.
    + right. exists t', v'. auto.
  - right. exists t, v. split; [left; auto|]. split; auto.
    destruct t as [e s|e]; [|simpl in K; congruence]. simpl in K. destruct s as [|d s]; [congruence|].
    destruct v; [reflexivity|]. unfold conforms in H. simpl in H. inversion H.
Qed.

Lemma conforms_shape_nil : forall v t, conforms v t -> type_shape t = [] -> np_shape v = [].
Proof. intros v t H E. unfold conforms in H. rewrite E in H. inversion H. reflexivity. Qed.

Lemma conforms_shape_cons : forall v t, conforms v t -> type_shape t <> [] -> np_shape v <> [].
Proof. intros v t H E F. unfold conforms in H. rewrite F in H. inversion H. congruence. Qed.

Lemma Forall2_combine_in : forall A B (R : A -> B -> Prop) l m a b,
  Forall2 R l m -> In (a, b) (combine l m) -> R a b.
Proof.
  intros A B R l m a b H. induction H; simpl; intros []; auto. inversion H1; subst; auto.
Qed.

Lemma elementwise_type : forall ts e t', elementwise_ae ts e = Some t' ->
  Forall (fun t => type_shape t = [] \/ type_shape t = type_shape t') ts /\
  (Forall (fun t => type_shape t = []) ts -> type_shape t' = []).
Proof.
  intros ts e t' T. unfold elementwise_ae in T.
  destruct (lift_shapes None ts) as [r|] eqn:E; [|discriminate].
  assert (S : type_shape t' = opt_nil r).
  { destruct r; apply mk_tensor_some in T; destruct T as [-> _]; reflexivity. }
  rewrite S. split; [eapply lift_shapes_spec; eauto|].
  intros F. clear S T. assert (G : forall ts acc r, lift_shapes acc ts = Some r ->
    Forall (fun t => type_shape t = []) ts -> opt_nil acc = [] -> opt_nil r = []).
  { clear. induction ts as [|t ts IH]; intros acc r H F Z; simpl in H; [inversion H; subst; auto|].
    inversion F; subst. destruct (lift_shape acc t) as [acc'|] eqn:E; [|discriminate].
    eapply IH; eauto. unfold lift_shape in E. destruct t as [e s|e]; simpl in *.
    - subst s. destruct acc as [cur|]; simpl in Z; [subst cur|]; simpl in E; inversion E; subst; auto.
    - inversion E; subst; auto. }
  eapply G; eauto.
Qed.

Lemma elementwise_sound : forall f ts e t' vs v',
  Forall2 conforms vs ts -> elementwise_ae ts e = Some t' ->
  elementwise_impl f ts vs = Ok v' -> conforms v' t'.
Proof.
  intros f ts e t' vs v' C T R. destruct (elementwise_type _ _ _ T) as [T1 T2].
  unfold elementwise_impl in R.
  destruct (elem_shape_spec ts vs C) as [[A E]|(t & v & I & N & E)]; rewrite E in R.
  - destruct (f _); [|discriminate]. inversion R; subst. unfold conforms. rewrite (T2 A). constructor.
  - assert (Cv : conforms v t) by (eapply (Forall2_combine_in _ _ _ _ _ _ _ C I)).
    assert (Et : type_shape t = type_shape t').
    { rewrite Forall_forall in T1. destruct (T1 t); [|congruence|auto].
      eapply in_combine_r; eauto. }
    pose proof (conforms_shape_cons _ _ Cv N).
    destruct (np_shape v) as [|n ns] eqn:En; [congruence|].
    destruct (elem_loop _ _ _ _) as [l|]; [|discriminate]. inversion R; subst.
    unfold conforms in *. simpl. rewrite <- Et, <- En. exact Cv.
Qed.

Lemma all_idx_in : forall s i, In i (all_idx s) <-> in_shape s i = true.
Proof.
  induction s as [|n s IH]; intros i; simpl.
  - destruct i; split; auto; intros H; try discriminate. destruct H as [H|[]]; discriminate.
  - rewrite in_flat_map. split.
    + intros (k & Hk & H). apply in_map_iff in H. destruct H as (j & <- & Hj).
      apply in_seq in Hk. apply IH in Hj. rewrite Hj, andb_true_r. apply Nat.ltb_lt. lia.
    + destruct i as [|k j]; intros H; [discriminate|]. apply andb_true_iff in H.
      destruct H as [H1 H2]. apply Nat.ltb_lt in H1. exists k. split; [apply in_seq; lia|].
      apply in_map. apply IH. auto.
Qed.

Lemma elem_loop_lookup : forall f ts vs is l, elem_loop f ts vs is = Ok l ->
  forall i, In i is -> exists xs, elem_inputs ts vs i = Ok xs /\ f xs = Some (lookup_idx l i).
Proof.
  induction is as [|j is IH]; intros l H i Hi; [destruct Hi|]. simpl in H.
  destruct (elem_inputs ts vs j) as [xs|] eqn:E; [|discriminate].
  destruct (f xs) as [y|] eqn:F; [|discriminate].
  destruct (elem_loop f ts vs is) as [r|] eqn:L; [|discriminate]. inversion H; subst; clear H.
  simpl. destruct (list_eqb Nat.eqb i j) eqn:Q.
  - apply list_eqb_nat in Q. subst. eauto.
  - destruct Hi as [->|Hi]; [|eapply IH; eauto].
    exfalso. assert (list_eqb Nat.eqb i i = true) by (apply list_eqb_nat; auto). congruence.
Qed.

Lemma elem_inputs_ok : forall ts vs idx xs, elem_inputs ts vs idx = Ok xs -> Forall2 conforms vs ts ->
  xs = elems_at ts vs idx.
Proof.
  intros ts vs idx xs H C. revert xs H. induction C as [|v t vs ts Cv C IH]; intros xs H; simpl in *.
  - inversion H; auto.
  - destruct (elem_input t v idx) as [x|] eqn:E; [|discriminate].
    destruct (elem_inputs ts vs idx) as [r|]; [|discriminate]. inversion H; subst.
    f_equal; auto. destruct t as [e s|e]; [destruct s as [|d s]|]; destruct v as [a|x']; simpl in *;
      try (inversion E; subst; reflexivity).
    destruct (in_shape (sh a) idx); inversion E; reflexivity.
Qed.

(** arguments of positive rank that all have the shape [s] are read at every index *)
Lemma elem_inputs_total : forall ts vs s idx, Forall2 conforms vs ts ->
  Forall2 (fun v t => type_shape t <> [] -> np_shape v = s) vs ts ->
  in_shape s idx = true -> elem_inputs ts vs idx = Ok (elems_at ts vs idx).
Proof.
  intros ts vs s idx C. induction C as [|v t vs ts Cv C IH]; intros S I; simpl; auto.
  inversion S; subst. rewrite IH by auto.
  destruct t as [e sh0|e]; [destruct sh0 as [|d sh0]|]; destruct v as [a|x']; simpl in *; auto.
  - rewrite H2 by congruence. rewrite I. reflexivity.
  - unfold conforms in Cv. simpl in Cv. inversion Cv.
Qed.

Lemma elem_loop_errors : forall f ts vs is err, elem_loop f ts vs is = Err err ->
  (exists i, In i is /\ elem_inputs ts vs i = Err err) \/ err = EFn.
Proof.
  induction is as [|j is IH]; intros err H; simpl in H; [discriminate|].
  destruct (elem_inputs ts vs j) as [xs|e] eqn:E; [|inversion H; subst; left; exists j; simpl; auto].
  destruct (f xs); [|inversion H; auto].
  destruct (elem_loop f ts vs is) as [r|e] eqn:L; [discriminate|]. inversion H; subst.
  destruct (IH _ eq_refl) as [(i & I & J)|]; auto. left; exists i; simpl; auto.
Qed.

Lemma elementwise_pointwise : forall f ts vs s v',
  Forall2 conforms vs ts ->
  Exists (fun t => type_shape t <> []) ts ->
  Forall2 (fun v t => type_shape t <> [] -> np_shape v = s) vs ts ->
  elementwise_impl f ts vs = Ok v' ->
  np_shape v' = s /\
  forall idx, in_shape s idx = true -> f (elems_at ts vs idx) = Some ((unwrap v').(get) idx).
Proof.
  intros f ts vs s v' C X S R. unfold elementwise_impl in R.
  destruct (elem_shape_spec ts vs C) as [[A E]|(t & v & I & N & E)].
  { exfalso. rewrite Exists_exists in X. destruct X as (t & I & N). rewrite Forall_forall in A. auto. }
  assert (Cv : conforms v t) by (eapply (Forall2_combine_in _ _ _ _ _ _ _ C I)).
  assert (Es : np_shape v = s) by (exact (Forall2_combine_in _ _ _ _ _ _ _ S I N)).
  pose proof (conforms_shape_cons _ _ Cv N) as NN. rewrite E, Es in R. rewrite Es in NN.
  destruct s as [|n s]; [congruence|].
  destruct (elem_loop _ _ _ _) as [l|] eqn:L; [|discriminate]. inversion R; subst v'. simpl.
  split; auto. intros idx Hi.
  destruct (elem_loop_lookup _ _ _ _ _ L idx) as (xs & E1 & E2); [apply all_idx_in; auto|].
  rewrite (elem_inputs_total _ _ _ _ C S Hi) in E1. congruence.
Qed.

Lemma elementwise_scalar : forall f ts vs v',
  Forall2 conforms vs ts -> Forall (fun t => type_shape t = []) ts ->
  elementwise_impl f ts vs = Ok v' ->
  np_shape v' = [] /\ f (elems_at ts vs []) = Some ((unwrap v').(get) []).
Proof.
  intros f ts vs v' C A R. unfold elementwise_impl in R.
  destruct (elem_shape_spec ts vs C) as [[_ E]|(t & v & I & N & E)].
  2:{ exfalso. rewrite Forall_forall in A. apply N, A. eapply in_combine_r; eauto. }
  rewrite E in R.
  assert (Q : map (fun v => get (unwrap v) []) vs = elems_at ts vs []).
  { clear - C. induction C; simpl; auto. f_equal; auto. destruct x; simpl; auto.
    destruct (type_shape y); reflexivity. }
  rewrite Q in R. destruct (f _); [|discriminate]. inversion R; subst. simpl. auto.
Qed.

Lemma elementwise_errors : forall f ts vs s err,
  Forall2 conforms vs ts ->
  Forall2 (fun v t => type_shape t <> [] -> np_shape v = s) vs ts ->
  elementwise_impl f ts vs = Err err -> err = EFn.
Proof.
  intros f ts vs s err C S R. unfold elementwise_impl in R.
  destruct (elem_shape_spec ts vs C) as [[A E]|(t & v & I & N & E)]; rewrite E in R.
  - destruct (f _); [discriminate|]. congruence.
  - assert (Cv : conforms v t) by (eapply (Forall2_combine_in _ _ _ _ _ _ _ C I)).
    assert (Es : np_shape v = s) by (exact (Forall2_combine_in _ _ _ _ _ _ _ S I N)).
    pose proof (conforms_shape_cons _ _ Cv N) as NN. rewrite Es in *.
    destruct s as [|n s]; [congruence|].
    destruct (elem_loop _ _ _ _) as [l|e] eqn:L; [discriminate|]. inversion R; subst.
    apply elem_loop_errors in L. destruct L as [(i & Hi & Q)|]; auto.
    apply all_idx_in in Hi. rewrite (elem_inputs_total _ _ _ _ C S Hi) in Q. discriminate.
Qed.

(** ** Whole programs *)
Lemma pick_app : forall A (env ext : list A) xs l, pick env xs = Some l -> pick (env ++ ext) xs = Some l.
Proof.
  induction xs as [|x xs IH]; intros l H; simpl in *; auto.
  destruct (nth_error env x) as [a|] eqn:E; [|discriminate].
  destruct (pick env xs) as [r|]; [|discriminate]. inversion H; subst.
  rewrite (IH r eq_refl). rewrite nth_error_app1; [rewrite E; auto|].
  apply nth_error_Some. congruence.
Qed.

Lemma trace_prefix : forall p env tys, trace env p = Some tys -> exists ext, tys = env ++ ext.
Proof.
  induction p as [|o p IH]; intros env tys H; simpl in H.
  - inversion H; subst. exists []. rewrite app_nil_r. auto.
  - destruct (op_type env o); [|discriminate]. apply IH in H. destruct H as [ext ->].
    rewrite <- app_assoc. eauto.
Qed.

Lemma conf_nth : forall vs ts x v t, Forall2 conforms vs ts ->
  nth_error vs x = Some v -> nth_error ts x = Some t -> conforms v t.
Proof.
  intros vs ts x v t H. revert x. induction H; intros k; destruct k; simpl; intros; try discriminate.
  - congruence.
  - eauto.
Qed.

Lemma conf_nth_ex : forall vs ts x t, Forall2 conforms vs ts ->
  nth_error ts x = Some t -> exists v, nth_error vs x = Some v.
Proof.
  intros vs ts x t H E. assert (x < length vs)%nat.
  { rewrite (Forall2_len _ _ _ _ _ H). apply nth_error_Some. congruence. }
  destruct (nth_error vs x) eqn:Q; eauto. apply nth_error_None in Q. lia.
Qed.

Lemma conf_pick : forall vs ts xs ws us, Forall2 conforms vs ts ->
  pick vs xs = Some ws -> pick ts xs = Some us -> Forall2 conforms ws us.
Proof.
  intros vs ts xs ws us H. revert ws us. induction xs as [|x xs IH]; intros ws us A B; simpl in *.
  - inversion A; inversion B; constructor.
  - destruct (nth_error vs x) eqn:E1; [|discriminate]. destruct (pick vs xs); [|discriminate].
    destruct (nth_error ts x) eqn:E2; [|discriminate]. destruct (pick ts xs); [|discriminate].
    inversion A; inversion B; subst. constructor; auto. eapply conf_nth; eauto.
Qed.

Lemma conf_pick_ex : forall vs ts xs us, Forall2 conforms vs ts ->
  pick ts xs = Some us -> exists ws, pick vs xs = Some ws.
Proof.
  intros vs ts xs us H. revert us. induction xs as [|x xs IH]; intros us B; simpl in *; eauto.
  destruct (nth_error ts x) eqn:E2; [|discriminate]. destruct (pick ts xs); [|discriminate].
  destruct (conf_nth_ex _ _ _ _ H E2) as (v & ->). destruct (IH _ eq_refl) as (ws & ->). eauto.
Qed.

Lemma op_sound : forall env ext o t vs v,
  Forall2 conforms vs env -> op_type env o = Some t ->
  op_run (env ++ ext) vs o = Ok v -> conforms v t.
Proof.
  intros env ext o t vs v C T R. destruct o; simpl in T, R.
  - destruct (nth_error env x) eqn:E; [|discriminate]. destruct (nth_error vs x) eqn:E'; [|discriminate].
    eapply transpose_sound; eauto. eapply conf_nth; eauto.
  - destruct (nth_error env x) eqn:E; [|discriminate]. destruct (nth_error vs x) eqn:E'; [|discriminate].
    eapply reshape_sound; eauto. eapply conf_nth; eauto.
  - destruct (pick env xs) eqn:E; [|discriminate]. destruct (pick vs xs) eqn:E'; [|discriminate].
    eapply concat_sound; [eapply conf_pick; eauto | eauto | eauto].
  - destruct (nth_error env x) eqn:E; [|discriminate]. destruct (nth_error env ix) eqn:E2; [|discriminate].
    destruct (nth_error vs x) eqn:E3; [|discriminate]. destruct (nth_error vs ix) eqn:E4; [|discriminate].
    eapply (gather_sound s s0 axis t v0 v1); eauto; eapply conf_nth; eauto.
  - discriminate.
  - destruct (nth_error env x) eqn:E; [|discriminate]. destruct (nth_error vs x) eqn:E'; [|discriminate].
    eapply slice_sound; eauto. eapply conf_nth; eauto.
  - destruct (pick env xs) eqn:E; [|discriminate]. rewrite (pick_app _ _ _ _ _ E) in R.
    destruct (pick vs xs) eqn:E'; [|discriminate].
    eapply elementwise_sound; [eapply conf_pick; eauto | eauto | eauto].
Qed.

Lemma run_sound : forall p env tys vs vs',
  Forall2 conforms vs env -> trace env p = Some tys -> run tys vs p = Ok vs' ->
  Forall2 conforms vs' tys.
Proof.
  induction p as [|o p IH]; intros env tys vs vs' C T R; simpl in T, R.
  - inversion T; inversion R; subst; auto.
  - destruct (op_type env o) as [t|] eqn:E; [|discriminate].
    destruct (op_run tys vs o) as [v|] eqn:Q; [|discriminate].
    destruct (trace_prefix _ _ _ T) as [ext X].
    eapply IH; [|exact T|exact R]. apply Forall2_app; auto. constructor; auto.
    eapply op_sound; eauto. rewrite X, <- app_assoc in Q. exact Q.
Qed.

(** static types are closed under the typing rules *)
Lemma Forall_firstn_skipn : forall A (P : A -> Prop) l k, Forall P l ->
  Forall P (firstn k l) /\ Forall P (skipn k l).
Proof.
  intros A P l k H. rewrite <- (firstn_skipn k l) in H. apply Forall_app in H. auto.
Qed.

Lemma static_from_valid : forall s, Forall (fun d => d = -1 \/ 0 < d) s -> ~ In (-1) s ->
  Forall (fun d => 0 < d) s.
Proof.
  intros s H N. rewrite Forall_forall in *. intros x Hx. destruct (H x Hx); auto. subst. tauto.
Qed.

Lemma pick_Forall : forall A (P : A -> Prop) env xs l, Forall P env -> pick env xs = Some l -> Forall P l.
Proof.
  intros A P env xs. induction xs as [|x xs IH]; intros l H E; simpl in E.
  - inversion E; constructor.
  - destruct (nth_error env x) eqn:Q; [|discriminate]. destruct (pick env xs); [|discriminate].
    inversion E; subst. constructor; auto. apply nth_error_In in Q. rewrite Forall_forall in H. auto.
Qed.

Lemma op_static : forall env o t, Forall static_type env -> op_type env o = Some t -> static_type t.
Proof.
  intros env o t S T.
  assert (NS : forall x u, nth_error env x = Some u -> static_type u).
  { intros x u E. apply nth_error_In in E. rewrite Forall_forall in S. auto. }
  destruct o; simpl in T.
  - destruct (nth_error env x) as [[e s|]|] eqn:E; try discriminate. apply NS in E.
    unfold static_type in *. simpl in T, E.
    destruct (Nat.eqb_spec (length perm) (length s)); [|discriminate].
    destruct (zset_eqb perm (zrange (length s))) eqn:Z; [|discriminate].
    apply mk_tensor_some in T. destruct T as [-> _]. simpl.
    unfold zset_eqb in Z. apply andb_true_iff in Z. destruct Z as [Z _]. rewrite forallb_forall in Z.
    apply Forall_forall. intros d Hd. apply in_map_iff in Hd. destruct Hd as (p & <- & Hp).
    apply Z, zmem_In, In_zrange in Hp. rewrite Forall_forall in E. apply E. apply nth_In. lia.
  - destruct (nth_error env x) as [[e s|]|] eqn:E; try discriminate. apply NS in E.
    unfold static_type in *. simpl in T, E. pose proof E as E'. apply fully_static_iff in E'. rewrite E' in T.
    destruct (1 <? Z.of_nat (count_neg1 new_shape)) eqn:E1; [discriminate|].
    destruct (Nat.eqb (count_neg1 new_shape) 0) eqn:E0.
    + destruct (zprod s =? zprod new_shape); [|discriminate]. apply mk_tensor_some in T.
      destruct T as [-> V]. simpl. apply static_from_valid; auto. intros I.
      apply Nat.eqb_eq in E0. apply length_zero_iff_nil in E0.
      assert (In (-1) (filter (fun d => d =? -1) new_shape)) by (apply filter_In; auto).
      rewrite E0 in H. destruct H.
    + set (known := zprod (filter (fun d => negb (d =? -1)) new_shape)) in *.
      destruct (known =? 0) eqn:K; [discriminate|].
      destruct (negb (zprod s mod known =? 0)); [discriminate|].
      apply mk_tensor_some in T. destruct T as [-> V]. simpl.
      apply static_from_valid; auto. intros I.
      assert (KN : 0 <= known).
      { apply known_nonneg. intros d Hd. destruct (d =? -1) eqn:Ed; auto. simpl.
        rewrite Forall_forall in V. specialize (V d). destruct V; try lia.
        apply in_map_iff. exists d. rewrite Ed. auto. }
      assert (P : 0 < zprod s).
      { clear - E. induction E; simpl; [lia|]. apply Z.mul_pos_pos; auto. }
      apply in_map_iff in I. destruct I as (d & I & _).
      destruct (d =? -1) eqn:Ed; [|lia].
      pose proof (Z.div_pos (zprod s) known). lia.
  - destruct (pick env xs) as [ts|] eqn:E; [|discriminate].
    apply (pick_Forall _ _ _ _ _ S) in E. unfold concat_ae in T.
    destruct (all_tensors ts) as [l|] eqn:AT; [|discriminate].
    apply all_tensors_some in AT. destruct AT as [AT _].
    assert (SS : Forall (Forall (fun d => 0 < d)) (map snd l)).
    { rewrite <- AT. clear - E. induction E; simpl; constructor; auto. }
    destruct l as [|[e first] rest]; [discriminate|].
    destruct (forallb _ rest); [|discriminate]. cbv zeta in T.
    destruct (_ || _) eqn:B; [discriminate|].
    destruct (concat_loop _ _ _ _) as [[res cds]|] eqn:CL; [|discriminate].
    apply mk_tensor_some in T. destruct T as [-> _]. simpl in SS.
    inversion SS as [|? ? S0 SR]; subst.
    assert (LT : (Z.to_nat (norm_axis axis (length first)) < length first)%nat) by lia.
    apply concat_loop_static in CL; auto.
    2:{ rewrite Forall_forall in S0. apply S0. apply nth_In. auto. }
    destruct CL as (-> & P & _). unfold static_type. simpl.
    generalize (Z.to_nat (norm_axis axis (length first))). clear - S0 P.
    induction S0; destruct n; simpl; constructor; auto.
  - destruct (nth_error env x) as [[e s|e0]|] eqn:E; try discriminate;
      [|destruct (nth_error env ix) as [[|]|]; discriminate].
    destruct (nth_error env ix) as [[[bits sg|] s2|]|] eqn:E2; try discriminate.
    apply NS in E. apply NS in E2. unfold gather_ae in T.
    destruct (Nat.eqb bits 32 || Nat.eqb bits 64); [|discriminate]. cbv zeta in T.
    destruct (_ || _); [discriminate|]. apply mk_tensor_some in T. destruct T as [-> _].
    unfold static_type in *. cbn [type_shape] in *.
    apply Forall_app. split; [apply Forall_firstn_skipn; auto|].
    apply Forall_app. split; [exact E2|].
    exact (proj2 (Forall_firstn_skipn _ _ _ (Datatypes.S (Z.to_nat (norm_axis axis (length s)))) E)).
  - destruct (nth_error env x) as [[e s|e0]|] eqn:E; try discriminate;
      [|destruct (nth_error env ix) as [[|]|]; try destruct (nth_error env up); discriminate].
    destruct (nth_error env ix) as [[e2 s2|]|] eqn:E2;
      [|destruct (nth_error env up); discriminate | discriminate].
    destruct (nth_error env up) as [[e3 s3|]|] eqn:E3; try discriminate.
    simpl in T. destruct (ety_eqb e3 e); [|discriminate]. inversion T; subst. exact (NS _ _ E).
  - destruct (nth_error env x) as [[e s|]|] eqn:E; try discriminate. apply NS in E.
    unfold slice_ae in T. cbv zeta in T. destruct (_ && _); [|discriminate].
    destruct (slice_dims _ _ _ _) as [d|] eqn:D; [|discriminate].
    apply mk_tensor_some in T. destruct T as [-> V]. unfold static_type in *. simpl in *.
    apply static_from_valid; auto. clear V NS. revert D. generalize (match strides with Some s0 => s0 | None => repeat 1 (length s) end).
    intros st. revert starts stops st d. induction E; intros starts stops st d D;
      destruct starts; destruct stops; destruct st; simpl in D; try discriminate.
    + inversion D; subst. auto.
    + destruct (slice_dims l starts stops st) eqn:Q; [|discriminate].
      destruct (Z.eqb_spec x0 (-1)); [lia|]. destruct (z1 <=? 0) eqn:Z1; [discriminate|].
      inversion D; subst. intros [I|I]; [|eapply IHE; eauto].
      rewrite slice_len_agree in I by lia.
      pose proof (py_slice_count_nonneg x0 z z0 z1 ltac:(lia)). lia.
  - destruct (pick env xs) as [ts|] eqn:E; [|discriminate].
    apply (pick_Forall _ _ _ _ _ S) in E.
    pose proof (elementwise_type _ _ _ T) as [T1 T2].
    destruct (type_shape t) eqn:Q; [unfold static_type; rewrite Q; constructor|].
    unfold static_type. rewrite Q.
    assert (X : exists u, In u ts /\ type_shape u = z :: l).
    { clear - T1 T2. assert (D : Forall (fun u => type_shape u = []) ts \/ exists u, In u ts /\ type_shape u = z :: l).
      { clear T2. induction T1; [left; constructor|].
        destruct IHT1 as [IH|(u & I & U)]; [|right; exists u; simpl; auto].
        destruct H; [left; constructor; auto | right; exists x; simpl; auto]. }
      destruct D as [D|D]; auto. apply T2 in D. discriminate. }
    destruct X as (u & I & U). rewrite Forall_forall in E. specialize (E _ I). unfold static_type in E.
    rewrite U in E. exact E.
Qed.

Lemma static_same_shape : forall vs ts e t', Forall2 conforms vs ts -> Forall static_type ts ->
  elementwise_ae ts e = Some t' ->
  exists s, Forall2 (fun v t => type_shape t <> [] -> np_shape v = s) vs ts.
Proof.
  intros vs ts e t' C S T. destruct (elementwise_type _ _ _ T) as [T1 _].
  exists (map Z.to_nat (type_shape t')). clear T.
  induction C as [|v t vs ts Cv C IH]; constructor.
  - intros N. inversion S; inversion T1; subst. destruct H5 as [|H5]; [congruence|].
    rewrite <- H5, (conf_static_eq _ _ Cv H1), map_map.
    rewrite (map_ext _ (fun n => n)) by (intros; apply Nat2Z.id). rewrite map_id. reflexivity.
  - inversion S; inversion T1; subst. auto.
Qed.

Lemma op_no_shape_error : forall env ext o t vs err,
  Forall2 conforms vs env -> Forall static_type env -> op_type env o = Some t ->
  op_run (env ++ ext) vs o = Err err ->
  match o with
  | OGather _ _ _ => err = EIndex
  | OScatter _ _ _ _ => err = ENoImpl
  | OElem _ _ _ => err = EFn
  | _ => False
  end.
Proof.
  intros env ext o t vs err C S T R.
  assert (NS : forall x u, nth_error env x = Some u -> static_type u).
  { intros x u E. apply nth_error_In in E. rewrite Forall_forall in S. auto. }
  destruct o; simpl in T, R.
  - destruct (nth_error env x) eqn:E; [|discriminate].
    destruct (conf_nth_ex _ _ _ _ C E) as (v & Ev). rewrite Ev in R.
    destruct (transpose_progress _ _ _ v (conf_nth _ _ _ _ _ C Ev E) T) as (a & Q). rewrite Q in R. discriminate.
  - destruct (nth_error env x) eqn:E; [|discriminate].
    destruct (conf_nth_ex _ _ _ _ C E) as (v & Ev). rewrite Ev in R.
    destruct (reshape_progress _ _ _ v (conf_nth _ _ _ _ _ C Ev E) (NS _ _ E) T) as (a & Q). rewrite Q in R. discriminate.
  - destruct (pick env xs) eqn:E; [|discriminate].
    destruct (conf_pick_ex _ _ _ _ C E) as (ws & Ew). rewrite Ew in R.
    destruct (concat_progress _ _ _ ws (conf_pick _ _ _ _ _ C Ew E) (pick_Forall _ _ _ _ _ S E) T) as (a & Q).
    rewrite Q in R. discriminate.
  - destruct (nth_error env x) eqn:E; [|discriminate]. destruct (nth_error env ix) eqn:E2; [|discriminate].
    destruct (conf_nth_ex _ _ _ _ C E) as (v & Ev). destruct (conf_nth_ex _ _ _ _ C E2) as (w & Ew).
    rewrite Ev, Ew in R. destruct (np_take _ _ _) eqn:Q; [discriminate|]. simpl in R. inversion R; subst.
    eapply gather_errors; [|eauto|eauto]. eapply conf_nth; eauto.
  - congruence.
  - destruct (nth_error env x) eqn:E; [|discriminate].
    destruct (conf_nth_ex _ _ _ _ C E) as (v & Ev). rewrite Ev in R.
    destruct (slice_progress _ _ _ _ _ v (conf_nth _ _ _ _ _ C Ev E) (NS _ _ E) T) as (a & Q). rewrite Q in R. discriminate.
  - destruct (pick env xs) eqn:E; [|discriminate]. rewrite (pick_app _ _ _ _ _ E) in R.
    destruct (conf_pick_ex _ _ _ _ C E) as (ws & Ew). rewrite Ew in R.
    pose proof (conf_pick _ _ _ _ _ C Ew E) as Cw.
    destruct (static_same_shape _ _ _ _ Cw (pick_Forall _ _ _ _ _ S E) T) as (s & F).
    eapply elementwise_errors; eauto.
Qed.

Lemma run_no_shape_error : forall p env tys vs err,
  Forall2 conforms vs env -> Forall static_type env -> trace env p = Some tys ->
  run tys vs p = Err err ->
  Exists (fun o => match o with
    | OGather _ _ _ => err = EIndex
    | OScatter _ _ _ _ => err = ENoImpl
    | OElem _ _ _ => err = EFn
    | _ => False end) p.
Proof.
  induction p as [|o p IH]; intros env tys vs err C S T R; simpl in T, R; [discriminate|].
  destruct (op_type env o) as [t|] eqn:E; [|discriminate].
  destruct (trace_prefix _ _ _ T) as [ext X]. rewrite <- app_assoc in X. simpl in X.
  destruct (op_run tys vs o) as [v|e] eqn:Q.
  - apply Exists_cons_tl. eapply IH; [| |exact T|exact R].
    + apply Forall2_app; auto. constructor; auto. eapply op_sound; eauto. rewrite X in Q. exact Q.
    + apply Forall_app; split; auto. constructor; auto. eapply op_static; eauto.
  - apply Exists_cons_hd. inversion R; subst e.
    eapply op_no_shape_error; [exact C|exact S|exact E|]. rewrite X in Q. exact Q.
Qed.
