(** Reading back what json.dumps(sort_keys=True) wrote: the value with its dicts in key order. *)
From Coq Require Import List ZArith String Ascii Bool Lia PeanoNat Permutation.
From Verif Require Import Base64Model CtxModel SerdeModel SerdeSpec SerdeProofs SerdeGraph SerdeValue MorphModel MorphProofs SortKeys ProgramModel ProgramSpec.
Import ListNotations.
Local Open Scope string_scope.
Local Open Scope list_scope.
Local Open Scope Z_scope.

Lemma max_perm {A} (f : A -> nat) l l' : Permutation l l' -> fold_right (fun x m => Nat.max (f x) m) O l = fold_right (fun x m => Nat.max (f x) m) O l'.
Proof. induction 1; cbn; auto; lia. Qed.
Lemma json_ind' (P : json -> Prop) : P JNull -> (forall b, P (JBool b)) -> (forall z, P (JInt z)) -> (forall f, P (JFloat f)) -> (forall s, P (JStr s)) ->
  (forall l, (forall j, In j l -> P j) -> P (JArr l)) -> (forall l, (forall k j, In (k, j) l -> P j) -> P (JObj l)) -> forall j, P j.
Proof.
  intros H0 H1 H2 H3 H4 HA HO. fix IH 1. intros [|b|z|f|s|l|l]; [exact H0|exact (H1 b)|exact (H2 z)|exact (H3 f)|exact (H4 s)| |].
  - apply HA. induction l as [|x l IHl]; intros j Hj; [destruct Hj|]. destruct Hj as [<-|Hj]; [apply IH|exact (IHl j Hj)].
  - apply HO. induction l as [|[k x] l IHl]; intros k' j Hj; [destruct Hj|]. destruct Hj as [E|Hj]; [injection E as <- <-; apply IH|exact (IHl k' j Hj)].
Qed.
Lemma depth_sort : forall j, depth (sort_json j) = depth j.
Proof.
  apply (json_ind' (fun j => depth (sort_json j) = depth j)); try reflexivity.
  - intros l IH. cbn. f_equal. induction l as [|x l IHl]; [reflexivity|]. cbn. rewrite IH by (left; reflexivity). f_equal. apply IHl. intros j Hj. apply IH. right. exact Hj.
  - intros l IH. cbn. f_equal. rewrite <- (max_perm (fun p : string * json => depth (snd p)) _ _ (sort_perm (map (fun p => (fst p, sort_json (snd p))) l))).
    induction l as [|[k x] l IHl]; [reflexivity|]. cbn. rewrite (IH k x) by (left; reflexivity). f_equal. apply IHl. intros k' j Hj. apply (IH k'). right. exact Hj.
Qed.
Lemma sort_ints l : map sort_json (map JInt l) = map JInt l.
Proof. rewrite map_map. reflexivity. Qed.
Lemma sort_strs l : map sort_json (map JStr l) = map JStr l.
Proof. rewrite map_map. reflexivity. Qed.
(** reading the fields of a sorted object *)
Lemma sort_fields {A C} (f : json -> res C) (g : A -> json) (h : A -> C) (l : list (string * A)) :
  (forall p, In p l -> f (sort_json (g (snd p))) = Ok (h (snd p))) ->
  rfields f (sort_keys (map (fun p => (fst p, sort_json (snd p))) (map (fun p => (fst p, g (snd p))) l))) = Ok (sort_keys (map (fun p => (fst p, h (snd p))) l)).
Proof.
  intros H. rewrite map_map. cbn [fst snd]. rewrite (sort_map (fun a => sort_json (g a)) l), (sort_map h l).
  rewrite (rfields_map f (fun a => sort_json (g a)) h); [reflexivity|]. intros p Hp. apply H. apply (proj1 (sort_in l p)). exact Hp.
Qed.
Lemma canon_scalar t : is_scalar_ty (canon_ty t) = is_scalar_ty t. Proof. destruct t; reflexivity. Qed.

Lemma ty_sort_at n : forall t, wf_ty t -> (depth (ty_to_json t) <= n)%nat -> ty_from_json n (sort_json (ty_to_json t)) = Ok (canon_ty t).
Proof.
  induction n as [|n IH]; intros t W D; [pose proof (depth_pos (ty_to_json t)); lia|].
  assert (DI : forall k u l, ty_to_json t = JObj l -> In (k, ty_to_json u) l -> (depth (ty_to_json u) <= n)%nat).
  { intros k u l E Hi. rewrite E in D. pose proof (depth_in_obj _ _ _ Hi). lia. }
  destruct t; cbn [wf_ty] in W.
  - cbn. now apply mk_int_ok.
  - cbn. now apply mk_float_ok.
  - cbn. rewrite IH; [|tauto|eapply DI; [reflexivity|cbn; auto]]. destruct W as [[b ->] _]. reflexivity.
  - cbn. rewrite IH; [|tauto|eapply DI; [reflexivity|cbn; auto]]. cbn. unfold as_ints. cbn. rewrite sort_ints, rmap_id by auto. cbn. apply mk_tensor_ok. tauto.
  - cbn. rewrite IH; [|tauto|eapply DI; [reflexivity|cbn; auto]]. cbn. destruct W as (W & P & S). unfold mk_vector. rewrite canon_scalar.
    replace (size <=? 0) with false by (symmetry; apply Z.leb_gt; exact P). destruct S as [(b & s & ->)|[(b & ->)|(i & ->)]]; reflexivity.
  - destruct W as (Wn & Wa & Wr). apply all_Forall in Wa. rewrite Forall_forall in Wa.
    assert (F : rfields (ty_from_json n) (sort_keys (map (fun p => (fst p, sort_json (snd p))) (map (fun p => (fst p, ty_to_json (snd p))) schema)))
                = Ok (sort_keys (map (fun p => (fst p, canon_ty (snd p))) schema))).
    { apply sort_fields. intros p Hp. apply IH; auto. cbn in D.
      assert (L : (depth (ty_to_json (snd p)) < depth (JObj (map (fun p => (fst p, ty_to_json (snd p))) schema)))%nat)
        by (eapply (depth_in_obj (fst p)); apply in_map_iff; eauto).
      revert D L. destruct (nrows =? -1); cbn; lia. }
    assert (ND : NoDup (map fst (sort_keys (map (fun p => (fst p, canon_ty (snd p))) schema)))).
    { apply sort_nodup. rewrite map_map. exact Wn. }
    cbn. destruct (Z.eqb_spec nrows (-1)); cbn -[sort_keys]; rewrite F; cbn -[sort_keys]; rewrite sdict_nodup by auto; [now subst|apply mk_table_ok; auto].
  - cbn. now apply mk_custom_ok.
  - cbn. rewrite IH; [|tauto|eapply DI; [reflexivity|cbn; auto]]. reflexivity.
  - destruct parties as [l|]; cbn; (rewrite IH; [|tauto|eapply DI; [reflexivity|cbn; auto]]); cbn; auto.
    unfold as_ints. cbn. rewrite sort_ints. now rewrite rmap_id by auto.
  - reflexivity.
  - reflexivity.
  - reflexivity.
  - reflexivity.
  - reflexivity.
  - reflexivity.
  - cbn. rewrite IH; [|tauto|eapply DI; [reflexivity|cbn; auto]]. destruct W as (_ & e & m & ->). reflexivity.
  - cbn. rewrite IH; [|tauto|eapply DI; [reflexivity|cbn; auto]]. destruct W as (_ & e & m & ->). reflexivity.
  - reflexivity.
  - reflexivity.
  - reflexivity.
  - reflexivity.
Qed.

Lemma as_b64_ok' s : as_b64 (JStr (b64enc s)) = Ok s. Proof. exact (as_b64_ok s). Qed.
Section Val.
  Variable float_int : Z -> option Z.
  Variable itemsize : string -> option Z.
  Notation dec := (from_json_at float_int itemsize).
  Notation wf := (wf_pv float_int itemsize).

  Lemma canon_hashable : forall a, hashable a = true -> canon a = a.
  Proof.
    fix IH 1. intros a H. destruct a; cbn in H; try discriminate H; try reflexivity. cbn. f_equal.
    induction l as [|x l IHl]; cbn in *; [reflexivity|]. apply andb_prop in H. destruct H as [H1 H2]. rewrite IH, IHl; auto.
  Qed.

  Definition svar (v : string * ty) : json := JObj [("name", JStr (fst v)); ("type", sort_json (ty_to_json (snd v)))].
  Definition cvar (v : string * ty) : string * ty := (fst v, canon_ty (snd v)).
  Lemma svar_ok n v : wf_ty (snd v) -> (depth (JObj [("name", JStr (fst v)); ("type", ty_to_json (snd v))]) <= S n)%nat ->
    var_from_json n (svar v) = Ok (cvar v).
  Proof.
    intros W D. unfold var_from_json, svar. cbn. rewrite ty_sort_at; auto.
    assert (H := depth_in_obj "type" (ty_to_json (snd v)) [("name", JStr (fst v)); ("type", ty_to_json (snd v))] ltac:(cbn; auto)). lia.
  Qed.
  Lemma sort_vars l : map sort_json (map (fun v : string * ty => JObj [("name", JStr (fst v)); ("type", ty_to_json (snd v))]) l) = map svar l.
  Proof. rewrite map_map. reflexivity. Qed.

  Definition sopj (o : gop pv) : json := JObj
    [("attrs", JObj (sort_keys (map (fun p => (fst p, sort_json (snd p))) (map (fun p => (fst p, to_json (snd p))) (g_attrs o)))));
     ("inputs", JArr (map JStr (g_ins o))); ("name", JStr (g_name o)); ("opcode", JStr (g_opcode o));
     ("outputs", JArr (map svar (g_outs o)));
     ("regions", JArr (map (fun r => sort_json (to_json r)) (g_regions o)))].
  Lemma sort_opj o : sort_json (opj o) = sopj o.
  Proof. unfold opj, sopj. cbn -[sort_keys]. rewrite sort_strs, sort_vars, (map_map to_json). reflexivity. Qed.
  Definition cop (o : gop pv) : gop pv :=
    GOp (g_opcode o) (g_ins o) (map cvar (g_outs o)) (sort_keys (map (fun p => (fst p, norm (canon (snd p)))) (g_attrs o))) (map (fun r => norm (canon r)) (g_regions o)) (g_name o).
  Lemma sop_ok n (IH : forall x, wf x -> (depth (to_json x) <= n)%nat -> dec n (sort_json (to_json x)) = Ok (norm (canon x))) o :
    all (fun v => wf_ty (snd v)) (g_outs o) -> all (fun p => wf (snd p)) (g_attrs o) -> NoDup (map fst (g_attrs o)) ->
    all wf (g_regions o) -> (depth (opj o) <= S n)%nat -> op_from_json n (dec n) (sopj o) = Ok (cop o).
  Proof.
    intros W1 W2 Wn W3 D. allf W1. allf W2. allf W3.
    assert (DD : forall k j l, opj o = JObj l -> In (k, j) l -> (depth j <= n)%nat).
    { intros k j l E Hi. rewrite E in D. pose proof (depth_in_obj _ _ _ Hi). lia. }
    unfold op_from_json, sopj. cbn [as_obj rbind jget jfind String.eqb Ascii.eqb Bool.eqb as_str as_arr].
    rewrite rmap_str. cbn [rbind].
    rewrite (rmap_map _ svar cvar).
    2:{ intros v Hv. apply svar_ok; auto.
        assert (H1 : In (JObj [("name", JStr (fst v)); ("type", ty_to_json (snd v))])
                     (map (fun v => JObj [("name", JStr (fst v)); ("type", ty_to_json (snd v))]) (g_outs o))) by (apply in_map_iff; eauto).
        apply depth_in_arr in H1.
        assert (H2 := DD "outputs" _ _ eq_refl ltac:(cbn; auto 7) : (_ <= n)%nat). lia. }
    cbn [rbind].
    rewrite (sort_fields (dec n) to_json (fun a => norm (canon a))).
    2:{ intros p Hp. apply IH; auto.
        assert (H1 : In (fst p, to_json (snd p)) (map (fun p => (fst p, to_json (snd p))) (g_attrs o))) by (apply in_map_iff; eauto).
        apply depth_in_obj in H1.
        assert (H2 := DD "attrs" _ _ eq_refl ltac:(cbn; auto 7) : (_ <= n)%nat). lia. }
    cbn [rbind].
    rewrite (rmap_map (dec n) (fun r => sort_json (to_json r)) (fun r => norm (canon r))).
    2:{ intros p Hp. apply IH; auto.
        assert (H1 : In (to_json p) (map to_json (g_regions o))) by (apply in_map_iff; eauto).
        apply depth_in_arr in H1.
        assert (H2 := DD "regions" _ _ eq_refl ltac:(cbn; auto 7) : (_ <= n)%nat). lia. }
    cbn [rbind]. unfold cop. rewrite sdict_nodup; auto. apply sort_nodup. rewrite map_map. exact Wn.
  Qed.

  Lemma names_cvar (l : list (string * ty)) : map fst (map cvar l) = map fst l.
  Proof. rewrite map_map. apply map_ext. reflexivity. Qed.
  Lemma flat_map_cop ops : flat_map g_outs (map cop ops) = map cvar (flat_map g_outs ops).
  Proof. induction ops as [|o ops IH]; [reflexivity|]. cbn. rewrite IH, map_app. reflexivity. Qed.
  Lemma built_graph_cop ins ops outs : built_graph ins ops outs -> built_graph (map cvar ins) (map cop ops) outs.
  Proof.
    unfold built_graph, graph_names. rewrite flat_map_cop, <- map_app, !names_cvar, map_length. intros (H1 & H2 & H3 & H4 & H5).
    split; [auto|]. split; [|split; [auto|split; [|auto]]].
    - clear - H2. revert H2. generalize (map fst ins). induction ops as [|o ops IH]; cbn; intros l H; auto. destruct H as [H H']. split; auto. rewrite names_cvar. auto.
    - apply Forall_map. exact H4.
  Qed.

  Theorem sorted_roundtrip_at n : forall x, wf x -> (depth (to_json x) <= n)%nat -> dec n (sort_json (to_json x)) = Ok (norm (canon x)).
  Proof.
    induction n as [|n IH]; intros x W D; [pose proof (depth_pos (to_json x)); lia|].
    assert (DI : forall k j l, to_json x = JObj l -> In (k, j) l -> (depth j <= n)%nat).
    { intros k j l E Hi. rewrite E in D. pose proof (depth_in_obj _ _ _ Hi). lia. }
    assert (DL : forall k j l ll, to_json x = JObj l -> In (k, JArr ll) l -> In j ll -> (depth j < n)%nat).
    { intros k j l ll E Hi Hj. specialize (DI _ _ _ E Hi). pose proof (depth_in_arr _ _ Hj). lia. }
    assert (RL : forall k lx l, to_json x = JObj l -> In (k, JArr (map to_json lx)) l -> all wf lx -> rmap (dec n) (map sort_json (map to_json lx)) = Ok (map norm (map canon lx))).
    { intros k lx l E Hi Ha. allf Ha. rewrite map_map, (map_map canon norm). apply rmap_map. intros y Hy. apply IH; auto.
      apply Nat.lt_le_incl. eapply DL; eauto. apply in_map_iff; eauto. }
    destruct x; cbn [wf_pv] in W.
    - reflexivity.
    - reflexivity.
    - reflexivity.
    - reflexivity.
    - reflexivity.
    - reflexivity.
    - reflexivity.
    - cbn -[nd_ok mk_nd as_b64]. unfold as_ints. cbn -[nd_ok mk_nd as_b64]. rewrite sort_ints, rmap_id by auto. cbn -[nd_ok mk_nd as_b64]. rewrite as_b64_ok'. cbn -[nd_ok].
      unfold mk_nd. now rewrite nd_ok_ok.
    - destruct W as (Wi & Ws & Wl). specialize (RL "items" items _ eq_refl ltac:(cbn; auto) Wi).
      cbn -[mk_ndobj]. unfold as_ints. cbn -[mk_ndobj]. rewrite sort_ints, rmap_id by auto. cbn -[mk_ndobj]. rewrite RL. cbn -[mk_ndobj]. apply mk_ndobj_ok; auto. now rewrite !map_length.
    - cbn -[nd_ok mk_nd as_b64]. unfold as_ints. cbn -[nd_ok mk_nd as_b64]. rewrite sort_ints, rmap_id by auto. cbn -[nd_ok mk_nd as_b64]. rewrite as_b64_ok'. cbn -[nd_ok].
      unfold mk_nd. now rewrite nd_ok_ok.
    - cbn -[as_b64]. now rewrite as_b64_ok'.
    - cbn -[as_b64]. now rewrite as_b64_ok'.
    - specialize (RL "items" l _ eq_refl ltac:(cbn; auto) W). cbn. now rewrite RL.
    - specialize (RL "items" l _ eq_refl ltac:(cbn; auto) W). cbn. now rewrite RL.
    - destruct W as [Wi Wk]. allf Wi.
      cbn [to_json canon] in *. destruct (existsb (fun p => negb (is_str (fst p))) items) eqn:E.
      + assert (R : rmap (pair_from_json (dec n)) (map sort_json (map (fun p => JArr [to_json (fst p); to_json (snd p)]) items))
                  = Ok (map (fun p => (norm (fst p), norm (canon (snd p)))) items)).
        { rewrite map_map. apply rmap_map. intros p Hp. cbn.
          assert (H0 := DL "pairs" (JArr [to_json (fst p); to_json (snd p)]) _ _ eq_refl ltac:(cbn; auto)
                          ltac:(apply in_map_iff; eauto)).
          destruct (Wi p Hp).
          rewrite IH by (auto; pose proof (depth_in_arr (to_json (fst p)) [to_json (fst p); to_json (snd p)] ltac:(cbn; auto)); lia).
          cbn. rewrite IH by (auto; pose proof (depth_in_arr (to_json (snd p)) [to_json (fst p); to_json (snd p)] ltac:(cbn; auto)); lia).
          rewrite (canon_hashable (fst p)); [reflexivity|]. destruct Wk as [Wk _]. rewrite Forall_forall in Wk. apply Wk. apply in_map, Hp. }
        cbn -[pair_from_json dict_of]. rewrite R. cbn -[dict_of]. rewrite (dict_of_ok float_int _ []).
        * cbn. rewrite map_map. reflexivity.
        * cbn. rewrite map_map. apply keys_ok_norm in Wk. now rewrite map_map in Wk.
      + assert (R : rfields (dec n) (sort_keys (map (fun p => (fst p, sort_json (snd p))) (map (fun p => (str_of (fst p), to_json (snd p))) items)))
                    = Ok (sort_keys (map (fun p => (str_of (fst p), norm (canon (snd p)))) items))).
        { replace (map (fun p => (str_of (fst p), to_json (snd p))) items) with (map (fun p : string * pv => (fst p, to_json (snd p))) (map (fun p => (str_of (fst p), snd p)) items)) by (rewrite map_map; reflexivity).
          rewrite (sort_fields (dec n) to_json (fun a => norm (canon a))).
          - rewrite map_map. reflexivity.
          - intros q Hq. apply in_map_iff in Hq. destruct Hq as (p & <- & Hp). cbn. destruct (Wi p Hp). apply IH; auto.
            assert (H1 : In (str_of (fst p), to_json (snd p)) (map (fun p => (str_of (fst p), to_json (snd p))) items)) by (apply in_map_iff; eauto).
            apply depth_in_obj in H1.
            assert (H2 := DI "items" _ _ eq_refl ltac:(cbn; auto) : (depth (JObj _) <= n)%nat). lia. }
        match goal with |- context [sort_json ?J] => change (sort_json J) with (JObj [("_kind", JStr "_dict"); ("items", JObj (sort_keys (map (fun p => (fst p, sort_json (snd p))) (map (fun p => (str_of (fst p), to_json (snd p))) items))))]) end.
        cbn -[sort_keys]. rewrite R. cbn -[sort_keys]. rewrite sdict_nodup by (apply sort_nodup; rewrite map_map; eapply str_keys; eauto).
        rewrite map_map. cbn [fst snd norm].
        replace (map (fun p : pv * pv => (str_of (fst p), norm (canon (snd p)))) items) with (map (fun p : string * pv => (fst p, norm (snd p))) (map (fun p => (str_of (fst p), canon (snd p))) items)) by (rewrite map_map; reflexivity).
        rewrite (sort_map norm), map_map. reflexivity.
    - cbn -[as_b64]. now rewrite as_b64_ok'.
    - cbn [to_json norm canon] in *.
      assert (T := ty_sort_at (S n) t W D).
      destruct t; cbn [ty_to_json tag] in *; unfold tag in *; cbn [app] in *;
        try (cbn -[ty_from_json sort_keys] in *; cbn [sort_keys fold_right insert_key fst snd String.leb String.compare Ascii.compare N.compare Ascii.N_of_ascii] in *; cbn -[ty_from_json] in *; rewrite T; reflexivity).
      destruct (nrows =? -1); cbn -[ty_from_json] in *; rewrite T; reflexivity.
    - destruct W as (Wi & Wo & Wg). allf Wi. allf Wo.
      change (to_json (PGraph ins ops outs)) with (tag "mplang.Graph"
       [("inputs", JArr (map (fun v => JObj [("name", JStr (fst v)); ("type", ty_to_json (snd v))]) ins));
        ("operations", JArr (map opj ops)); ("outputs", JArr (map JStr outs))]) in *.
      assert (ES : sort_json (tag "mplang.Graph"
       [("inputs", JArr (map (fun v => JObj [("name", JStr (fst v)); ("type", ty_to_json (snd v))]) ins));
        ("operations", JArr (map opj ops)); ("outputs", JArr (map JStr outs))])
        = JObj [("_kind", JStr "mplang.Graph"); ("inputs", JArr (map svar ins)); ("operations", JArr (map sopj ops)); ("outputs", JArr (map JStr outs))]).
      { cbn -[opj]. rewrite sort_vars, sort_strs, map_map. rewrite (map_ext _ sopj sort_opj). reflexivity. }
      rewrite ES.
      assert (G : graph_from_json n (dec n) [("_kind", JStr "mplang.Graph"); ("inputs", JArr (map svar ins)); ("operations", JArr (map sopj ops)); ("outputs", JArr (map JStr outs))]
         = Ok (PGraph (map cvar ins) (map cop ops) outs)).
      { unfold graph_from_json. cbn [jget jfind String.eqb Ascii.eqb Bool.eqb rbind as_arr].
        rewrite (rmap_map _ svar cvar).
        2:{ intros v Hv. apply svar_ok; auto. apply Nat.lt_le_incl. apply Nat.lt_lt_succ_r.
            eapply (DL "inputs"); [reflexivity|cbn; auto|]. apply in_map_iff; eauto. }
        cbn [rbind]. rewrite (rmap_map _ sopj cop).
        2:{ intros o Ho. destruct (Wo o Ho) as (W1 & W2 & W3 & W4). apply sop_ok; auto.
            apply Nat.lt_le_incl. apply Nat.lt_lt_succ_r. eapply (DL "operations"); [reflexivity|cbn; auto|]. apply in_map_iff; eauto. }
        cbn [rbind]. rewrite rmap_str. cbn [rbind]. apply rebuild_built. now apply built_graph_cop. }
      cbn -[graph_from_json sopj]. rewrite G. cbn [norm canon]. f_equal. f_equal. rewrite map_map. apply map_ext. intros o. unfold cop. cbn [g_opcode g_ins g_outs g_attrs g_regions g_name].
      rewrite map_map, <- (sort_map norm), (map_map (fun p : string * pv => (fst p, canon (snd p)))). reflexivity.
    - cbn -[nd_ok mk_nd as_b64]. unfold as_ints. cbn -[nd_ok mk_nd as_b64]. rewrite sort_ints, rmap_id by auto. cbn -[nd_ok mk_nd as_b64]. rewrite as_b64_ok'. cbn -[nd_ok].
      now rewrite nd_ok_ok.
    - destruct W as (Wi & Ws & Wl). specialize (RL "items" items _ eq_refl ltac:(cbn; auto) Wi).
      cbn -[mk_ndobj]. unfold as_ints. cbn -[mk_ndobj]. rewrite sort_ints, rmap_id by auto. cbn -[mk_ndobj]. rewrite RL. cbn -[mk_ndobj]. rewrite mk_ndobj_ok; auto. now rewrite !map_length.
    - cbn -[as_b64]. now rewrite as_b64_ok'.
    - cbn -[as_b64]. now rewrite as_b64_ok'.
    - cbn -[as_b64]. now rewrite as_b64_ok'.
    - destruct W as [->|[->| ->]]; cbn -[as_b64]; now rewrite as_b64_ok'.
    - cbn. rewrite IH; [reflexivity|auto|]. eapply DI; [reflexivity|cbn; auto].
  Qed.
  Theorem sorted_roundtrip x : wf x -> from_json float_int itemsize (sort_json (to_json x)) = Ok (norm (canon x)).
  Proof. intros W. unfold from_json. rewrite depth_sort. apply sorted_roundtrip_at; auto. Qed.
End Val.
