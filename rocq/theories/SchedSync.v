(** The synchronous loop with reference counting computes the meaning of the graph. *)
From Coq Require Import List Arith ZArith Bool Lia.
From Verif Require Import SchedSpec SchedModel SchedProofs.
Import ListNotations.

Definition cnt (l : list nat) (k : nat) : nat := count_occ Nat.eq_dec l k.

Lemma cnt_app l1 l2 k : cnt (l1 ++ l2) k = cnt l1 k + cnt l2 k.
Proof. apply count_occ_app. Qed.
Lemma cnt_cons a l k : cnt (a :: l) k = (if Nat.eqb k a then 1 else 0) + cnt l k.
Proof.
  unfold cnt. cbn. destruct (Nat.eq_dec a k), (Nat.eqb_spec k a); try lia; congruence.
Qed.
Lemma cnt_in l k : 0 < cnt l k <-> In k l.
Proof. unfold cnt. rewrite (count_occ_In Nat.eq_dec). lia. Qed.

Lemma bump_fold l : forall (c : counter) k,
  fold_left bump l c k =
    if Nat.eqb (cnt l k) 0 then c k
    else Some (match c k with Some z => z + Z.of_nat (cnt l k) | None => Z.of_nat (cnt l k) end)%Z.
Proof.
  induction l as [|a l IH]; intros c k; [reflexivity|]. cbn [fold_left]. rewrite IH, cnt_cons.
  unfold bump. destruct (Nat.eqb_spec k a) as [->|Hne].
  - replace (1 + cnt l a =? 0) with false by reflexivity. destruct (Nat.eqb_spec (cnt l a) 0) as [E0|E0].
    + rewrite E0. destruct (c a); f_equal; lia.
    + f_equal. destruct (c a); lia.
  - cbn [Nat.add]. reflexivity.
Qed.

(** total number of uses of value k in the graph *)
Definition total_uses (g : graph) (k : nat) : nat := cnt (concat (map oin (gops g))) k + cnt (gout g) k.

Lemma build_gc_spec g k : build_gc g k = if Nat.eqb (total_uses g k) 0 then None else Some (Z.of_nat (total_uses g k)).
Proof.
  unfold build_gc. rewrite !bump_fold. unfold total_uses.
  destruct (Nat.eqb_spec (cnt (gout g) k) 0) as [E1|E1], (Nat.eqb_spec (cnt (concat (map oin (gops g))) k) 0) as [E2|E2];
    destruct (Nat.eqb_spec (cnt (concat (map oin (gops g))) k + cnt (gout g) k) 0) as [E3|E3]; try lia; try reflexivity; f_equal; lia.
Qed.

Section Sync.
  Context {V E : Type}.
  Variable sem : nat -> option (list V -> V + E).
  Variable unpack : V -> option (list V).
  Notation venv := (@venv V).

  Lemma gc_sync_fold ks : forall (env : venv) (rc : counter) k,
    (forall z, rc k = Some z -> (1 <= z)%Z) ->
    let '(env', rc') := fold_left gc_sync ks (env, rc) in
    match rc k with
    | None => rc' k = None /\ env' k = env k
    | Some z => if (z <=? Z.of_nat (cnt ks k))%Z then rc' k = None /\ env' k = None
                else rc' k = Some (z - Z.of_nat (cnt ks k))%Z /\ env' k = env k
    end.
  Proof.
    induction ks as [|a ks IH]; intros env rc k Hz.
    - cbn. destruct (rc k) as [z|] eqn:Ez; [|auto]. specialize (Hz z eq_refl).
      destruct (Z.leb_spec z 0); [lia|]. split; [f_equal; lia|reflexivity].
    - cbn [fold_left].
      destruct (gc_sync (env, rc) a) as [env1 rc1] eqn:E1.
      assert (K : (k <> a \/ rc a = None -> rc1 k = rc k /\ env1 k = env k) /\
        (forall z, k = a -> rc a = Some z -> if Z.eqb (z - 1) 0 then rc1 k = None /\ env1 k = None
                                           else rc1 k = Some (z - 1)%Z /\ env1 k = env k)).
      { unfold gc_sync in E1. destruct (rc a) as [z|] eqn:Ea.
        - split.
          + intros [H|H]; [|discriminate]. destruct (Z.eqb (z - 1) 0); injection E1 as <- <-;
              unfold vdel, cset; destruct (Nat.eqb_spec k a); try congruence; auto.
          + intros z' -> Hz'. injection Hz' as <-. destruct (Z.eqb (z - 1) 0); injection E1 as <- <-;
              unfold vdel, cset; rewrite Nat.eqb_refl; auto.
        - injection E1 as <- <-. split; [auto|]. intros z _ H. discriminate. }
      destruct K as [K1 K2].
      assert (Hz1 : forall z, rc1 k = Some z -> (1 <= z)%Z).
      { intros z Hr. destruct (Nat.eq_dec k a) as [->|Hne].
        - destruct (rc a) as [z0|] eqn:Ea.
          + specialize (K2 z0 eq_refl eq_refl). specialize (Hz z0 eq_refl).
            destruct (Z.eqb_spec (z0 - 1) 0); destruct K2 as [K2 _]; rewrite K2 in Hr; [discriminate|].
            injection Hr as <-. lia.
          + destruct K1 as [K1 _]; [auto|]. rewrite K1 in Hr. discriminate.
        - destruct K1 as [K1 _]; [auto|]. rewrite K1 in Hr. auto. }
      specialize (IH env1 rc1 k Hz1). destruct (fold_left gc_sync ks (env1, rc1)) as [env' rc'].
      rewrite cnt_cons. destruct (Nat.eqb_spec k a) as [->|Hne].
      + destruct (rc a) as [z|] eqn:Ea.
        * specialize (K2 z eq_refl eq_refl). specialize (Hz z eq_refl).
          destruct (Z.eqb_spec (z - 1) 0) as [E0|E0]; destruct K2 as [K2 K3]; rewrite K2, K3 in IH.
          -- destruct (Z.leb_spec z (Z.of_nat (1 + cnt ks a))); [exact IH|lia].
          -- destruct (Z.leb_spec (z - 1) (Z.of_nat (cnt ks a))), (Z.leb_spec z (Z.of_nat (1 + cnt ks a))); try lia.
             ++ exact IH.
             ++ destruct IH as [I1 I2]. split; [rewrite I1; f_equal; lia|exact I2].
        * destruct K1 as [K1 K3]; [auto|]. rewrite K1, K3 in IH. exact IH.
      + destruct K1 as [K1 K3]; [auto|]. rewrite K1, K3 in IH. cbn [Nat.add]. exact IH.
  Qed.

  Lemma lookups_agree (e1 e2 : venv) l : forall rs, lookups e1 l = Some rs -> lookups e2 l = Some rs ->
    forall k, In k l -> e1 k = e2 k.
  Proof.
    induction l as [|a l IHl]; intros rs L1 L2 k Hk; [destruct Hk|].
    cbn in L1, L2. destruct (e1 a) as [x|] eqn:X1; [|discriminate]. destruct (lookups e1 l) as [xs|] eqn:X2; [|discriminate].
    destruct (e2 a) as [y|] eqn:Y1; [|discriminate]. destruct (lookups e2 l) as [ys|] eqn:Y2; [|discriminate].
    destruct Hk as [<-|Hk]; [congruence|]. apply (IHl xs); [reflexivity|congruence|exact Hk].
  Qed.

  (** Values consumed in the graph and no longer needed are gone; all others are kept. *)
  Definition gc_view (g : graph) (rest : list op) (full : venv) : venv := fun k =>
    if Nat.eqb (cnt (concat (map oin rest)) k + cnt (gout g) k) 0 && negb (Nat.eqb (total_uses g k) 0)
    then None else full k.
  Definition rc_view (g : graph) (rest : list op) : counter := fun k =>
    let u := cnt (concat (map oin rest)) k + cnt (gout g) k in
    if Nat.eqb u 0 then None else Some (Z.of_nat u).

  Lemma sync_loop_spec g ops1 : forall ops2 (env full : venv) (rc : counter) i defined,
    uses_defined defined ops1 ->
    NoDup (defined ++ concat (map oout ops1)) ->
    (forall k, In k defined -> full k <> None) ->
    (forall k, ~ In k defined -> cnt (concat (map oin (ops1 ++ ops2))) k + cnt (gout g) k = total_uses g k) ->
    (forall k, cnt (concat (map oin (ops1 ++ ops2))) k + cnt (gout g) k <= total_uses g k) ->
    (forall k, env k = gc_view g (ops1 ++ ops2) full k) ->
    (forall k, rc k = rc_view g (ops1 ++ ops2) k) ->
    match snd (meaning sem unpack full i ops1) with
    | [] => exists env' rc', sync_loop sem unpack env rc i ops1 = inl (env', rc') /\
              (forall k, env' k = gc_view g ops2 (fst (meaning sem unpack full i ops1)) k) /\
              (forall k, In k (defined ++ concat (map oout ops1)) -> fst (meaning sem unpack full i ops1) k <> None)
    | (_, e) :: _ => sync_loop sem unpack env rc i ops1 = inr e
    end.
  Proof.
    induction ops1 as [|o ops1 IH]; intros ops2 env full rc i defined HU Hnd Hfull Htot Hle Henv Hrc.
    - cbn. exists env, rc. split; [reflexivity|]. split; [exact Henv|]. intros k. rewrite app_nil_r. apply Hfull.
    - destruct HU as [U1 U2]. cbn [map concat app] in *.
      assert (Hl : lookups env (oin o) = lookups full (oin o)).
      { apply lookups_ext. intros k Hk. rewrite Henv. unfold gc_view. cbn [map concat app].
        assert (Hc : 0 < cnt (oin o ++ concat (map oin (ops1 ++ ops2))) k).
        { rewrite cnt_app. assert (0 < cnt (oin o) k) by (apply cnt_in; exact Hk). lia. }
        destruct (Nat.eqb_spec (cnt (oin o ++ concat (map oin (ops1 ++ ops2))) k + cnt (gout g) k) 0); [lia|reflexivity]. }
      destruct (lookups_all full (oin o)) as [args Ha]; [intros k Hk; apply Hfull, U1, Hk|].
      cbn [meaning sync_loop]. rewrite Hl, Ha.
      destruct (run_op sem unpack i o args) as [rs|e] eqn:Er.
      2:{ destruct (meaning sem unpack full (S i) ops1) as [F errs]. reflexivity. }
      destruct (NoDup_app_inv _ _ Hnd) as [N1 [N2 N3]]. destruct (NoDup_app_inv _ _ N2) as [M1 [M2 M3]].
      set (full1 := vset_all full (combine (oout o) rs)).
      destruct (fold_left gc_sync (oin o) (vset_all env (combine (oout o) rs), rc)) as [env1 rc1] eqn:Eg.
      specialize (IH ops2 env1 full1 rc1 (S i) (defined ++ oout o) U2).
      rewrite <- app_assoc in IH. specialize (IH Hnd).
      assert (G : forall k, env1 k = gc_view g (ops1 ++ ops2) full1 k /\ rc1 k = rc_view g (ops1 ++ ops2) k).
      { intros k. pose proof (gc_sync_fold (oin o) (vset_all env (combine (oout o) rs)) rc k) as K.
        rewrite Eg in K. rewrite Hrc in K. unfold rc_view in K. cbn [map concat app] in K. rewrite cnt_app in K.
        assert (Hv : vset_all env (combine (oout o) rs) k =
                     if Nat.eqb (cnt (oin o) k + cnt (concat (map oin (ops1 ++ ops2))) k + cnt (gout g) k) 0
                        && negb (Nat.eqb (total_uses g k) 0) then None else full1 k).
        { destruct (in_dec Nat.eq_dec k (oout o)) as [Hk|Hk].
          - assert (Hu : cnt (oin o ++ concat (map oin (ops1 ++ ops2))) k + cnt (gout g) k = total_uses g k).
            { apply Htot. intros Hd. apply (N3 k Hd). apply in_or_app. now left. }
            rewrite cnt_app in Hu. rewrite Hu.
            replace (Nat.eqb (total_uses g k) 0 && negb (Nat.eqb (total_uses g k) 0)) with false
              by (destruct (Nat.eqb (total_uses g k) 0); reflexivity).
            apply (lookups_agree _ _ (oout o) rs); [| |exact Hk];
              apply lookups_vset_all; try exact M1; eapply run_op_length; eassumption.
          - rewrite vset_all_combine_notin by exact Hk. rewrite Henv. unfold gc_view. cbn [map concat app]. rewrite cnt_app.
            unfold full1. rewrite vset_all_combine_notin by exact Hk. reflexivity. }
        rewrite Hv in K. unfold gc_view, rc_view.
        specialize (Hle k). rewrite cnt_app in Hle.
        set (u := cnt (concat (map oin (ops1 ++ ops2))) k) in *. set (c := cnt (oin o) k) in *. set (t := cnt (gout g) k) in *.
        clearbody u c t. clear - K Hle.
        destruct (Nat.eqb_spec (c + u + t) 0) as [E0|E0].
        - destruct K as [K1 K2]; [discriminate|]. rewrite K2, K1. destruct (Nat.eqb_spec (u + t) 0); [|lia].
          cbn [andb negb]. auto.
        - destruct (Nat.eqb_spec (total_uses g k) 0) as [E1|E1]; [lia|]. cbn [negb] in *. rewrite !andb_true_r in *. 
          specialize (K ltac:(intros z Hz; injection Hz as <-; lia)).
          destruct (Z.leb_spec (Z.of_nat (c + u + t)) (Z.of_nat c)) as [L|L]; destruct K as [K1 K2]; rewrite K2, K1.
          + destruct (Nat.eqb_spec (u + t) 0); [auto|lia].
          + destruct (Nat.eqb_spec (u + t) 0); [lia|]. cbn [andb]. split; [reflexivity|f_equal; lia]. }
      assert (Hs : forall k, In k (defined ++ oout o) -> full1 k <> None).
      { intros k Hk. destruct (in_dec Nat.eq_dec k (oout o)) as [Hk'|Hk'].
        - eapply lookups_some; [apply (lookups_vset_all (oout o) rs full M1); eapply run_op_length; eassumption|exact Hk'].
        - unfold full1. rewrite vset_all_combine_notin by exact Hk'. apply Hfull. apply in_app_or in Hk. tauto. }
      assert (Ht : forall k, ~ In k (defined ++ oout o) -> cnt (concat (map oin (ops1 ++ ops2))) k + cnt (gout g) k = total_uses g k).
      { intros k Hk. rewrite in_app_iff in Hk. rewrite <- (Htot k) by tauto. rewrite cnt_app.
        assert (cnt (oin o) k = 0); [|lia]. destruct (Nat.eq_dec (cnt (oin o) k) 0) as [|Hne]; [assumption|].
        exfalso. apply Hk. left. apply U1. apply cnt_in. lia. }
      assert (Hl' : forall k, cnt (concat (map oin (ops1 ++ ops2))) k + cnt (gout g) k <= total_uses g k).
      { intros k. specialize (Hle k). rewrite cnt_app in Hle. lia. }
      exact (IH Hs Ht Hl' (fun k => proj1 (G k)) (fun k => proj2 (G k))).
  Qed.

  (** From the start of the graph, for any split of the operations. *)
  Lemma sync_prefix g inputs ops1 ops2 : wf_graph g -> length inputs = length (gin g) -> gops g = ops1 ++ ops2 ->
    match snd (meaning sem unpack (input_env g inputs) 0 ops1) with
    | [] => exists env' rc', sync_loop sem unpack (input_env g inputs) (build_gc g) 0 ops1 = inl (env', rc') /\
              (forall k, env' k = gc_view g ops2 (fst (meaning sem unpack (input_env g inputs) 0 ops1)) k) /\
              (forall k, In k (gin g ++ concat (map oout ops1)) ->
                 fst (meaning sem unpack (input_env g inputs) 0 ops1) k <> None)
    | (_, e) :: _ => sync_loop sem unpack (input_env g inputs) (build_gc g) 0 ops1 = inr e
    end.
  Proof.
    intros wf wfi Hops. destruct wf as [W1 [W2 W3]].
    assert (HT : forall k, cnt (concat (map oin (ops1 ++ ops2))) k + cnt (gout g) k = total_uses g k)
      by (intros k; unfold total_uses; rewrite Hops; reflexivity).
    apply sync_loop_spec with (g := g) (ops2 := ops2) (defined := gin g).
    - rewrite Hops in W2. clear - W2. revert W2. generalize (gin g). induction ops1 as [|o ops1 IH]; intros d H; [exact I|].
      destruct H as [H1 H2]. split; [exact H1|]. apply IH, H2.
    - unfold all_values in W1. rewrite Hops, map_app, concat_app, app_assoc in W1. apply NoDup_app_inv in W1. tauto.
    - intros k. apply (env0_input g inputs); [exact (conj W1 (conj W2 W3))|exact wfi].
    - intros k _. apply HT.
    - intros k. rewrite HT. lia.
    - intros k. unfold gc_view. rewrite HT. destruct (Nat.eqb (total_uses g k) 0); reflexivity.
    - intros k. unfold rc_view. cbv zeta. rewrite HT. apply build_gc_spec.
  Qed.

  Lemma evaluate_sync_spec g inputs : wf_graph g -> length inputs = length (gin g) ->
    match failures sem unpack g inputs with
    | [] => exists outs, evaluate_sync sem unpack g inputs = inl outs /\
                         lookups (final_env sem unpack g inputs) (gout g) = Some outs
    | (_, e) :: _ => evaluate_sync sem unpack g inputs = inr e
    end.
  Proof.
    intros wf wfi. pose proof (sync_prefix g inputs (gops g) [] wf wfi (eq_sym (app_nil_r _))) as H.
    unfold failures, final_env, evaluate_sync. rewrite wfi, Nat.eqb_refl. cbn [negb].
    destruct (snd (meaning sem unpack (input_env g inputs) 0 (gops g))) as [|[j e] es].
    - destruct H as [env' [rc' [H1 [H2 H3]]]]. rewrite H1.
      set (F := fst (meaning sem unpack (input_env g inputs) 0 (gops g))) in *.
      destruct (lookups_all F (gout g)) as [outs Ho].
      { intros k Hk. apply H3. destruct wf as [_ [_ W3]]. apply W3, Hk. }
      exists outs. rewrite (lookups_ext env' F (gout g)), Ho; [auto|].
      intros k Hk. rewrite H2. unfold gc_view. assert (0 < cnt (gout g) k) by (apply cnt_in; exact Hk).
      destruct (Nat.eqb_spec (cnt (concat (map oin [])) k + cnt (gout g) k) 0); [lia|reflexivity].
    - rewrite H. reflexivity.
  Qed.
End Sync.
