(** Proof of the value round trip, C20. *)
From Coq Require Import List ZArith String Ascii Bool Lia PeanoNat.
From Verif Require Import Base64Model CtxModel CtxProofs SerdeModel SerdeSpec SerdeProofs SerdeGraph.
Import ListNotations.
Local Open Scope string_scope.
Local Open Scope list_scope.
Local Open Scope Z_scope.

Ltac allf H := apply all_Forall in H; rewrite Forall_forall in H.

Section Val.
  Variable float_int : Z -> option Z.
  Variable itemsize : string -> option Z.
  Notation dec := (from_json_at float_int itemsize).
  Notation wf := (wf_pv float_int itemsize).

  Lemma num_of_norm x : num_of float_int (norm x) = num_of float_int x.
  Proof. destruct x; reflexivity. Qed.
  Lemma key_eqb_tuple l m : key_eqb float_int (PTuple l) (PTuple m) =
    (fix go (l m : list pv) : bool :=
       match l, m with [], [] => true | x :: l', y :: m' => key_eqb float_int x y && go l' m' | _, _ => false end) l m.
  Proof. reflexivity. Qed.
  Lemma key_eqb_norm : forall a b, hashable a = true -> hashable b = true -> key_eqb float_int (norm a) (norm b) = key_eqb float_int a b.
  Proof.
    fix IH 1. intros a b Ha Hb. destruct a; cbn in Ha; try discriminate;
      destruct b; cbn in Hb; try discriminate; try reflexivity.
    cbn [norm]. rewrite !key_eqb_tuple. revert l0 Hb. induction l as [|x l IHl]; intros [|y m] Hb; cbn [map]; auto.
    cbn in Ha, Hb. apply andb_prop in Ha, Hb. destruct Ha as [Hx Hl], Hb as [Hy Hm]. rewrite IH by auto. now rewrite IHl.
  Qed.
  Lemma hashable_norm : forall a, hashable a = true -> hashable (norm a) = true.
  Proof.
    fix IH 1. intros a Ha. destruct a; cbn in *; try discriminate; auto.
    induction l as [|x l IHl]; cbn in *; auto. apply andb_prop in Ha. destruct Ha. rewrite IH; auto.
  Qed.

  Lemma dput_new k v d : (forall k', In k' (map fst d) -> key_eqb float_int k' k = false) -> dput float_int k v d = d ++ [(k, v)].
  Proof.
    induction d as [|[k' v'] d IH]; cbn; intros H; auto. rewrite (H k') by auto. now rewrite IH by auto.
  Qed.
  Lemma dict_of_ok l : forall d, keys_ok float_int (map fst (d ++ l)) -> dict_of float_int l d = Ok (PDict (d ++ l)).
  Proof.
    induction l as [|[k v] l IH]; intros d [H1 H2]; cbn; [now rewrite app_nil_r|].
    rewrite map_app in H1, H2. cbn in H1, H2. apply Forall_app in H1. destruct H1 as [H1 H3]. inversion_clear H3 as [|? ? Hk H4].
    rewrite Hk. rewrite dput_new.
    - rewrite IH; rewrite <- app_assoc; cbn [app]; auto. split; rewrite map_app; cbn; auto. apply Forall_app. auto.
    - clear -H2. induction d as [|[k' v'] d IHd]; cbn in *; [easy|]. inversion_clear H2 as [|? ? Ha Hb].
      intros k2 [<-|Hi]; [|now apply IHd]. rewrite Forall_forall in Ha. apply Ha. apply in_or_app. right. now left.
  Qed.
  Lemma keys_ok_norm ks : keys_ok float_int ks -> keys_ok float_int (map norm ks).
  Proof.
    intros [H1 H2]. split.
    - apply Forall_map. eapply Forall_impl; [|exact H1]. apply hashable_norm.
    - induction ks as [|k ks IH]; cbn; [constructor|]. inversion_clear H1 as [|? ? Hk H1']. inversion_clear H2 as [|? ? Ha Hb].
      constructor; auto. rewrite Forall_forall in *. intros y Hy. apply in_map_iff in Hy. destruct Hy as (z & <- & Hz).
      rewrite key_eqb_norm by auto. auto.
  Qed.
  Lemma str_keys items : existsb (fun p : pv * pv => negb (is_str (fst p))) items = false ->
    keys_ok float_int (map fst items) -> NoDup (map (fun p => str_of (fst p)) items).
  Proof.
    induction items as [|[k v] l IH]; cbn; intros E [H1 H2]; constructor.
    - apply orb_false_iff in E. destruct E as [E E']. destruct k; try discriminate. cbn.
      inversion_clear H2 as [|? ? Ha Hb]. intros Hi. apply in_map_iff in Hi. destruct Hi as ([k' v'] & Es & Hi).
      rewrite Forall_forall in Ha. assert (Hk : In k' (map fst l)) by (apply in_map_iff; exists (k', v'); auto).
      specialize (Ha _ Hk). cbn in Es.
      assert (is_str k' = true).
      { destruct (is_str k') eqn:Q; auto. rewrite <- E'. apply existsb_exists. exists (k', v'). cbn. now rewrite Q. }
      destruct k'; try discriminate. cbn in Es. subst. cbn in Ha. now rewrite String.eqb_refl in Ha.
    - apply IH; [now apply orb_false_iff in E|]. inversion_clear H1. inversion_clear H2. split; auto.
  Qed.

  Lemma nd_ok_ok d sh data : array_ok itemsize d sh data -> nd_ok itemsize d sh data = Ok tt.
  Proof.
    intros (k & Hk & Hp & Hs & Hl). unfold nd_ok. rewrite Hk, Hl.
    replace (k <=? 0) with false by (symmetry; apply Z.leb_gt; lia).
    rewrite Z.mod_mul, Z.div_mul by lia. cbn. rewrite Z.eqb_refl. cbn. rewrite orb_false_r.
    replace (existsb (fun x => x <? 0) sh) with false; auto. clear -Hs. symmetry.
    induction Hs; cbn; auto. rewrite IHHs. replace (x <? 0) with false; auto. symmetry. now apply Z.ltb_ge.
  Qed.
  Lemma mk_ndobj_ok sh items : Forall (fun x => 0 <= x) sh -> prod sh = Z.of_nat (List.length items) -> mk_ndobj sh items = Ok (PNdObj sh items).
  Proof.
    intros Hs Hl. unfold mk_ndobj. rewrite Hl, Z.eqb_refl.
    replace (existsb (fun x => x <? 0) sh) with false; auto. clear -Hs. symmetry.
    induction Hs; cbn; auto. rewrite IHHs. replace (x <? 0) with false; auto. symmetry. now apply Z.ltb_ge.
  Qed.

  Lemma var_ok n v : wf_ty (snd v) -> (depth (JObj [("name", JStr (fst v)); ("type", ty_to_json (snd v))]) <= S n)%nat ->
    var_from_json n (JObj [("name", JStr (fst v)); ("type", ty_to_json (snd v))]) = Ok v.
  Proof.
    intros W D. unfold var_from_json. cbn. rewrite ty_roundtrip_at; auto; [now destruct v|].
    assert (H := depth_in_obj "type" (ty_to_json (snd v)) [("name", JStr (fst v)); ("type", ty_to_json (snd v))] ltac:(cbn; auto)). lia.
  Qed.

  Definition opj (o : gop pv) : json := JObj
    [("opcode", JStr (g_opcode o)); ("inputs", JArr (map JStr (g_ins o)));
     ("outputs", JArr (map (fun v => JObj [("name", JStr (fst v)); ("type", ty_to_json (snd v))]) (g_outs o)));
     ("attrs", JObj (map (fun p => (fst p, to_json (snd p))) (g_attrs o)));
     ("regions", JArr (map to_json (g_regions o))); ("name", JStr (g_name o))].
  Definition nop (o : gop pv) : gop pv :=
    GOp (g_opcode o) (g_ins o) (g_outs o) (map (fun p => (fst p, norm (snd p))) (g_attrs o)) (map norm (g_regions o)) (g_name o).
  Lemma op_ok n (IH : forall x, wf x -> (depth (to_json x) <= n)%nat -> dec n (to_json x) = Ok (norm x)) o :
    all (fun v => wf_ty (snd v)) (g_outs o) -> all (fun p => wf (snd p)) (g_attrs o) -> NoDup (map fst (g_attrs o)) ->
    all wf (g_regions o) -> (depth (opj o) <= S n)%nat -> op_from_json n (dec n) (opj o) = Ok (nop o).
  Proof.
    intros W1 W2 Wn W3 D. allf W1. allf W2. allf W3.
    assert (DD : forall k j l, opj o = JObj l -> In (k, j) l -> (depth j <= n)%nat).
    { intros k j l E Hi. rewrite E in D. pose proof (depth_in_obj _ _ _ Hi). lia. }
    unfold op_from_json, opj. cbn [as_obj rbind jget jfind String.eqb Ascii.eqb Bool.eqb as_str as_arr].
    rewrite rmap_str. cbn [rbind].
    rewrite rmap_id.
    2:{ intros v Hv. apply var_ok; auto.
        assert (H1 : In (JObj [("name", JStr (fst v)); ("type", ty_to_json (snd v))])
                     (map (fun v => JObj [("name", JStr (fst v)); ("type", ty_to_json (snd v))]) (g_outs o))) by (apply in_map_iff; eauto).
        apply depth_in_arr in H1.
        assert (H2 := DD "outputs" _ _ eq_refl ltac:(cbn; auto 7) : (_ <= n)%nat). lia. }
    cbn [rbind].
    rewrite (rfields_map (dec n) to_json norm).
    2:{ intros p Hp. apply IH; auto.
        assert (H1 : In (fst p, to_json (snd p)) (map (fun p => (fst p, to_json (snd p))) (g_attrs o))) by (apply in_map_iff; eauto).
        apply depth_in_obj in H1.
        assert (H2 := DD "attrs" _ _ eq_refl ltac:(cbn; auto 7) : (_ <= n)%nat). lia. }
    cbn [rbind].
    rewrite (rmap_map (dec n) to_json norm).
    2:{ intros p Hp. apply IH; auto.
        assert (H1 : In (to_json p) (map to_json (g_regions o))) by (apply in_map_iff; eauto).
        apply depth_in_arr in H1.
        assert (H2 := DD "regions" _ _ eq_refl ltac:(cbn; auto 7) : (_ <= n)%nat). lia. }
    cbn [rbind]. unfold nop. rewrite sdict_nodup; auto. now rewrite map_map.
  Qed.

  Lemma flat_map_nop ops : flat_map g_outs (map nop ops) = flat_map g_outs ops.
  Proof. induction ops; cbn; congruence. Qed.
  Lemma built_graph_nop ins ops outs : built_graph ins ops outs -> built_graph ins (map nop ops) outs.
  Proof.
    unfold built_graph, graph_names. rewrite flat_map_nop. intros (H1 & H2 & H3 & H4 & H5).
    split; [auto|]. split; [|split; [auto|split; [|auto]]].
    - clear -H2. revert H2. generalize (map fst ins). induction ops as [|o ops IH]; cbn; intros l H; auto. destruct H. split; auto.
    - apply Forall_map. exact H4.
  Qed.

  Theorem value_roundtrip_at n : forall x, wf x -> (depth (to_json x) <= n)%nat -> dec n (to_json x) = Ok (norm x).
  Proof.
    induction n as [|n IH]; intros x W D; [pose proof (depth_pos (to_json x)); lia|].
    assert (DI : forall k j l, to_json x = JObj l -> In (k, j) l -> (depth j <= n)%nat).
    { intros k j l E Hi. rewrite E in D. pose proof (depth_in_obj _ _ _ Hi). lia. }
    assert (DL : forall k j l ll, to_json x = JObj l -> In (k, JArr ll) l -> In j ll -> (depth j < n)%nat).
    { intros k j l ll E Hi Hj. specialize (DI _ _ _ E Hi). pose proof (depth_in_arr _ _ Hj). lia. }
    assert (RL : forall k lx l, to_json x = JObj l -> In (k, JArr (map to_json lx)) l -> all wf lx -> rmap (dec n) (map to_json lx) = Ok (map norm lx)).
    { intros k lx l E Hi Ha. allf Ha. apply rmap_map. intros y Hy. apply IH; auto.
      apply Nat.lt_le_incl. eapply DL; eauto. apply in_map_iff; eauto. }
    destruct x; cbn [wf_pv] in W.
    - reflexivity.
    - reflexivity.
    - reflexivity.
    - reflexivity.
    - reflexivity.
    - reflexivity.
    - reflexivity.
    - cbn -[nd_ok mk_nd as_b64]. rewrite rmap_id by auto. cbn -[nd_ok mk_nd as_b64]. rewrite as_b64_ok. cbn -[nd_ok].
      unfold mk_nd. now rewrite nd_ok_ok.
    - destruct W as (Wi & Ws & Wl). specialize (RL "items" items _ eq_refl ltac:(cbn; auto) Wi).
      cbn -[mk_ndobj]. rewrite rmap_id by auto. cbn -[mk_ndobj]. rewrite RL. cbn -[mk_ndobj]. apply mk_ndobj_ok; auto. now rewrite map_length.
    - cbn -[nd_ok mk_nd as_b64]. rewrite rmap_id by auto. cbn -[nd_ok mk_nd as_b64]. rewrite as_b64_ok. cbn -[nd_ok].
      unfold mk_nd. now rewrite nd_ok_ok.
    - cbn -[as_b64]. now rewrite as_b64_ok.
    - cbn -[as_b64]. now rewrite as_b64_ok.
    - specialize (RL "items" l _ eq_refl ltac:(cbn; auto) W). cbn. now rewrite RL.
    - specialize (RL "items" l _ eq_refl ltac:(cbn; auto) W). cbn. now rewrite RL.
    - destruct W as [Wi Wk]. allf Wi.
      cbn [to_json] in *. destruct (existsb (fun p => negb (is_str (fst p))) items) eqn:E.
      + assert (R : rmap (pair_from_json (dec n)) (map (fun p => JArr [to_json (fst p); to_json (snd p)]) items)
                  = Ok (map (fun p => (norm (fst p), norm (snd p))) items)).
        { apply rmap_map. intros p Hp. cbn.
          assert (H0 := DL "pairs" (JArr [to_json (fst p); to_json (snd p)]) _ _ eq_refl ltac:(cbn; auto)
                          ltac:(apply in_map_iff; eauto)).
          destruct (Wi p Hp).
          rewrite IH by (auto; pose proof (depth_in_arr (to_json (fst p)) [to_json (fst p); to_json (snd p)] ltac:(cbn; auto)); lia).
          cbn. rewrite IH by (auto; pose proof (depth_in_arr (to_json (snd p)) [to_json (fst p); to_json (snd p)] ltac:(cbn; auto)); lia).
          reflexivity. }
        cbn -[pair_from_json dict_of]. rewrite R. cbn -[dict_of]. apply (dict_of_ok _ []). cbn. rewrite map_map.
        apply keys_ok_norm in Wk. now rewrite map_map in Wk.
      + assert (R : rfields (dec n) (map (fun p => (str_of (fst p), to_json (snd p))) items)
                    = Ok (map (fun p => (str_of (fst p), norm (snd p))) items)).
        { rewrite <- (map_map (fun p => (str_of (fst p), snd p)) (fun p => (fst p, to_json (snd p)))).
          rewrite (rfields_map (dec n) to_json norm).
          - now rewrite map_map.
          - intros q Hq. apply in_map_iff in Hq. destruct Hq as (p & <- & Hp). cbn. destruct (Wi p Hp). apply IH; auto.
            assert (H1 : In (str_of (fst p), to_json (snd p)) (map (fun p => (str_of (fst p), to_json (snd p))) items)) by (apply in_map_iff; eauto).
            apply depth_in_obj in H1.
            assert (H2 := DI "items" _ _ eq_refl ltac:(cbn; auto) : (depth (JObj _) <= n)%nat). lia. }
        cbn. rewrite R. cbn. rewrite sdict_nodup by (rewrite map_map; eapply str_keys; eauto).
        rewrite map_map. cbn. do 2 f_equal. apply map_ext_in. intros p Hp.
        assert (Q : is_str (fst p) = true).
        { destruct (is_str (fst p)) eqn:Q; auto. rewrite <- E. apply existsb_exists. exists p. now rewrite Q. }
        destruct (fst p); try discriminate. reflexivity.
    - cbn -[as_b64]. now rewrite as_b64_ok.
    - cbn [to_json norm] in *.
      assert (T := ty_roundtrip_at (S n) t W D).
      destruct t; cbn [ty_to_json tag] in *; unfold tag in *; cbn [app] in *;
        try (cbn -[ty_from_json]; rewrite T; reflexivity).
      destruct (nrows =? -1); cbn -[ty_from_json] in *; rewrite T; reflexivity.
    - destruct W as (Wi & Wo & Wg). allf Wi. allf Wo.
      change (to_json (PGraph ins ops outs)) with (tag "mplang.Graph"
       [("inputs", JArr (map (fun v => JObj [("name", JStr (fst v)); ("type", ty_to_json (snd v))]) ins));
        ("operations", JArr (map opj ops)); ("outputs", JArr (map JStr outs))]) in *.
      assert (G : graph_from_json n (dec n) [("inputs", JArr (map (fun v => JObj [("name", JStr (fst v)); ("type", ty_to_json (snd v))]) ins));
        ("operations", JArr (map opj ops)); ("outputs", JArr (map JStr outs)); ("_kind", JStr "mplang.Graph")] = Ok (PGraph ins (map nop ops) outs)).
      { unfold graph_from_json. cbn [jget jfind String.eqb Ascii.eqb Bool.eqb rbind as_arr].
        rewrite rmap_id.
        2:{ intros v Hv. apply var_ok; auto. apply Nat.lt_le_incl. apply Nat.lt_lt_succ_r.
            eapply (DL "inputs"); [reflexivity|cbn; auto|]. apply in_map_iff; eauto. }
        cbn [rbind]. rewrite (rmap_map _ _ nop).
        2:{ intros o Ho. destruct (Wo o Ho) as (W1 & W2 & W3 & W4). apply op_ok; auto.
            apply Nat.lt_le_incl. apply Nat.lt_lt_succ_r. eapply (DL "operations"); [reflexivity|cbn; auto|]. apply in_map_iff; eauto. }
        cbn [rbind]. rewrite rmap_str. cbn [rbind]. apply rebuild_built. now apply built_graph_nop. }
      unfold tag. cbn -[graph_from_json opj]. rewrite G. reflexivity.
    - cbn -[nd_ok mk_nd as_b64]. rewrite rmap_id by auto. cbn -[nd_ok mk_nd as_b64]. rewrite as_b64_ok. cbn -[nd_ok].
      now rewrite nd_ok_ok.
    - destruct W as (Wi & Ws & Wl). specialize (RL "items" items _ eq_refl ltac:(cbn; auto) Wi).
      cbn -[mk_ndobj]. rewrite rmap_id by auto. cbn -[mk_ndobj]. rewrite RL. cbn -[mk_ndobj]. rewrite mk_ndobj_ok; auto. now rewrite map_length.
    - cbn -[as_b64]. now rewrite as_b64_ok.
    - cbn -[as_b64]. now rewrite as_b64_ok.
    - cbn -[as_b64]. now rewrite as_b64_ok.
    - destruct W as [->|[->| ->]]; cbn -[as_b64]; now rewrite as_b64_ok.
    - cbn. rewrite IH; [reflexivity|auto|]. eapply DI; [reflexivity|cbn; auto].
  Qed.

  Theorem value_roundtrip x : wf x -> from_json float_int itemsize (to_json x) = Ok (norm x).
  Proof. intros W. apply value_roundtrip_at; auto. Qed.

  Lemma map_id_all {A} (P : A -> Prop) (f : A -> A) l : (forall x, P x -> f x = x) -> all P l -> map f l = l.
  Proof. intros H. induction l; cbn; auto. intros [? ?]. rewrite H, IHl; auto. Qed.
  Lemma norm_plain : forall x, plain x -> norm x = x.
  Proof.
    fix IH 1. intros x H. destruct x; cbn in *; try contradiction; auto.
    - f_equal. induction items; cbn in *; auto. destruct H. rewrite IH, IHitems; auto.
    - f_equal. induction l; cbn in *; auto. destruct H. rewrite IH, IHl; auto.
    - f_equal. induction l; cbn in *; auto. destruct H. rewrite IH, IHl; auto.
    - f_equal. induction items as [|[k v] items]; cbn in *; auto. destruct H as [[H1 H2] H3]. rewrite !IH, IHitems; auto.
    - f_equal. induction ops as [|[c i o a r m] ops]; cbn in *; auto. destruct H as [[H1 H2] H3]. rewrite IHops; auto. f_equal. f_equal.
      + clear -IH H1. induction a as [|[k v] a]; cbn in *; auto. destruct H1. rewrite IH, IHa; auto.
      + clear -IH H2. induction r; cbn in *; auto. destruct H2. rewrite IH, IHr; auto.
    - f_equal. induction items; cbn in *; auto. destruct H. rewrite IH, IHitems; auto.
    - f_equal. auto.
  Qed.
End Val.
