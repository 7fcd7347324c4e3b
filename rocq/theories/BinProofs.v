(** Proofs for C21: the binary container. *)
From Coq Require Import List NArith ZArith String Ascii Bool Lia PeanoNat.
From Verif Require Import Base64Model CtxModel CtxProofs SerdeModel SerdeSpec SerdeProofs SerdeGraph SerdeValue BinModel.
Import ListNotations.
Local Open Scope string_scope.
Local Open Scope list_scope.
Local Open Scope nat_scope.

Lemma rfields_rmap {A} (f : json -> res A) l : rfields f l = rmap (fun p => v <- f (snd p) ;; Ok (fst p, v)) l.
Proof.
  induction l as [|[k j] l IH]; cbn; auto. rewrite IH. destruct (f j); cbn; auto.
Qed.

Section Thread.
  Context {A B C : Type} (f : A -> nat -> B * list string) (g : list string -> B -> res C) (h : A -> C) (D : B -> Prop).
  Lemma thread_ok l : forall i pre post,
    (forall x i pre post, In x l -> List.length pre = i -> D (fst (f x i)) -> g (pre ++ snd (f x i) ++ post) (fst (f x i)) = Ok (h x)) ->
    List.length pre = i -> (forall b, In b (fst (thread f l i)) -> D b) ->
    rmap (g (pre ++ snd (thread f l i) ++ post)) (fst (thread f l i)) = Ok (map h l).
  Proof using Type.
    induction l as [|x l IH]; intros i pre post H Hl HD; [reflexivity|].
    change (thread f (x :: l) i) with
      (let r := f x i in let r' := thread f l (i + List.length (snd r)) in (fst r :: fst r', snd r ++ snd r')) in *.
    cbn [fst snd rmap map] in *. rewrite <- app_assoc.
    rewrite H; [|now left|auto|apply HD; now left]. cbn [rbind].
    rewrite (app_assoc pre). rewrite IH; [reflexivity| | |].
    - intros. apply H; auto. now right.
    - rewrite app_length. lia.
    - intros b Hb. apply HD. now right.
  Qed.
  Lemma thread_cut l : forall i pre k,
    (forall x i pre post, In x l -> List.length pre = i -> D (fst (f x i)) -> g (pre ++ snd (f x i) ++ post) (fst (f x i)) = Ok (h x)) ->
    (forall x i pre k, In x l -> List.length pre = i -> D (fst (f x i)) -> k < List.length (snd (f x i)) ->
       g (pre ++ firstn k (snd (f x i))) (fst (f x i)) = IndexErr) ->
    List.length pre = i -> (forall b, In b (fst (thread f l i)) -> D b) -> k < List.length (snd (thread f l i)) ->
    rmap (g (pre ++ firstn k (snd (thread f l i)))) (fst (thread f l i)) = IndexErr.
  Proof using Type.
    induction l as [|x l IH]; intros i pre k H H2 Hl HD Hk; [cbn in Hk; lia|].
    change (thread f (x :: l) i) with
      (let r := f x i in let r' := thread f l (i + List.length (snd r)) in (fst r :: fst r', snd r ++ snd r')) in *.
    cbn [fst snd rmap map] in *. rewrite app_length in Hk. rewrite firstn_app.
    destruct (Nat.lt_ge_cases k (List.length (snd (f x i)))) as [Hlt|Hge].
    - replace (k - _) with 0 by lia. rewrite firstn_O, app_nil_r.
      rewrite H2; [reflexivity|now left|auto|apply HD; now left|auto].
    - rewrite (firstn_all2 (snd (f x i))) by lia. rewrite H; [|now left|auto|apply HD; now left]. cbn [rbind].
      rewrite (app_assoc pre). rewrite IH; [reflexivity| | | | |].
      + intros. apply H; auto. now right.
      + intros. apply H2; auto. now right.
      + rewrite app_length. lia.
      + intros b Hb. apply HD. now right.
      + lia.
  Qed.
End Thread.

Lemma nth_mid (pre post : list string) s : nth_error (pre ++ s :: post) (List.length pre) = Some s.
Proof. rewrite nth_error_app2 by lia. now rewrite Nat.sub_diag. Qed.
Lemma seg_ok pre s post : seg_of (pre ++ s :: post) (bref (List.length pre)) = Ok s.
Proof.
  unfold seg_of, bref. cbn. replace (Z.of_nat _ <? 0)%Z with false by (symmetry; apply Z.ltb_ge; lia).
  replace (Z.of_nat _ <? 0)%Z with false by (symmetry; apply Z.ltb_ge; lia). rewrite Nat2Z.id. now rewrite nth_mid.
Qed.
Lemma seg_cut pre (s : string) k : k < List.length [s] -> seg_of (pre ++ firstn k [s]) (bref (List.length pre)) = IndexErr.
Proof.
  cbn. intros H. replace k with 0 by lia. cbn. rewrite app_nil_r. unfold seg_of, bref. cbn.
  replace (Z.of_nat _ <? 0)%Z with false by (symmetry; apply Z.ltb_ge; lia).
  replace (Z.of_nat _ <? 0)%Z with false by (symmetry; apply Z.ltb_ge; lia). rewrite Nat2Z.id.
  replace (nth_error pre _) with (@None string); auto. symmetry. apply nth_error_None. lia.
Qed.

Lemma depth_pair a b : depth a < depth (JArr [a; b]) /\ depth b < depth (JArr [a; b]).
Proof. split; apply depth_in_arr; cbn; auto. Qed.

Section Bin.
  Variable float_int : Z -> option Z.
  Variable itemsize : string -> option Z.
  Notation bd := (bdec float_int itemsize).
  Notation wf := (wf_pv float_int itemsize).

  Definition ok_at n x := forall i pre post, List.length pre = i -> depth (fst (benc x i)) <= n ->
    bd (pre ++ snd (benc x i) ++ post) n (fst (benc x i)) = Ok (norm x).
  Definition cut_at n x := forall i pre k, List.length pre = i -> depth (fst (benc x i)) <= n -> k < List.length (snd (benc x i)) ->
    bd (pre ++ firstn k (snd (benc x i))) n (fst (benc x i)) = IndexErr.

  (** kinds handled by from_json decode the same way *)
  Lemma bdec_json segs n x : snd (benc x 0) = [] -> fst (benc x 0) = to_json x ->
    match x with PList _ | PTuple _ | PDict _ | PNdObj _ _ | PTensorObj _ _ | PNd _ _ _ | PBytes _ | PTable _ | PTensorVal _ _ _ | PTableVal _ => False | _ => True end ->
    wf x -> depth (to_json x) <= n -> bd segs n (to_json x) = Ok (norm x).
  Proof.
    intros Hs Hj Hx W D. rewrite <- (value_roundtrip_at float_int itemsize n x W D).
    destruct n as [|m]; [reflexivity|].
    destruct x; try contradiction; try (cbn in Hj; discriminate); try (cbn in Hs; discriminate); try reflexivity.
    destruct t; try reflexivity. unfold to_json, ty_to_json, tag; fold ty_to_json. destruct (nrows =? -1)%Z; reflexivity.
  Qed.

  Lemma bin_at n : forall x, wf x -> ok_at n x /\ cut_at n x.
  Proof.
    induction n as [|m IH]; intros x W.
    { split; intros i pre; intros; exfalso; pose proof (depth_pos (fst (benc x i))); lia. }
    assert (LEAF : forall x, wf x -> (forall i, snd (benc x i) = []) -> (forall i, fst (benc x i) = to_json x) ->
      match x with PList _ | PTuple _ | PDict _ | PNdObj _ _ | PTensorObj _ _ | PNd _ _ _ | PBytes _ | PTable _ | PTensorVal _ _ _ | PTableVal _ => False | _ => True end ->
      ok_at (S m) x /\ cut_at (S m) x).
    { intros y Wy Hs Hj Hm. split; intros i pre; rewrite Hj, ?Hs; intros.
      - apply bdec_json; auto.
      - cbn in *. lia. }
    (* nested lists *)
    assert (LO : forall l i pre post, all wf l -> List.length pre = i -> (forall b, In b (fst (thread benc l i)) -> depth b <= m) ->
       rmap (bd (pre ++ snd (thread benc l i) ++ post) m) (fst (thread benc l i)) = Ok (map norm l)).
    { intros l i pre post Wl Hp Hd. allf Wl.
      apply (thread_ok benc (fun s => bd s m) norm (fun b => depth b <= m)); auto.
      intros y i' pre' post' Hy Hp' Hd'. now apply (IH y (Wl y Hy)). }
    assert (LC : forall l i pre k, all wf l -> List.length pre = i -> (forall b, In b (fst (thread benc l i)) -> depth b <= m) ->
       k < List.length (snd (thread benc l i)) ->
       rmap (bd (pre ++ firstn k (snd (thread benc l i))) m) (fst (thread benc l i)) = IndexErr).
    { intros l i pre k Wl Hp Hd Hk. allf Wl.
      apply (thread_cut benc (fun s => bd s m) norm (fun b => depth b <= m)); auto.
      - intros y i' pre' post' Hy Hp' Hd'. now apply (IH y (Wl y Hy)).
      - intros y i' pre' k' Hy Hp' Hd'. now apply (IH y (Wl y Hy)). }
    assert (DL : forall j l k ll, j = JObj l -> depth j <= S m -> In (k, JArr ll) l -> forall b, In b ll -> depth b <= m).
    { intros j l k ll -> Hd Hi b Hb. apply depth_in_obj in Hi. apply depth_in_arr in Hb. lia. }
    destruct x; try (apply LEAF; auto; fail); cbn [wf_pv] in W.
    - (* PNd *) split; intros i pre; intros; subst; cbn -[nd_ok mk_nd seg_of bref firstn].
      + rewrite seg_ok. cbn -[nd_ok]. rewrite rmap_id by auto. cbn -[nd_ok]. unfold mk_nd. now rewrite nd_ok_ok.
      + rewrite seg_cut; auto.
    - (* PNdObj *) destruct W as (Wi & Ws & Wl). split; intros i pre; intros; cbn [benc fst snd] in *.
      + cbn -[mk_ndobj thread benc]. rewrite rmap_id by auto. cbn -[mk_ndobj thread benc].
        rewrite LO; auto; [|eapply (DL _ _ "items"); [reflexivity|eauto|cbn; auto]]. cbn -[mk_ndobj]. apply mk_ndobj_ok; auto. now rewrite map_length.
      + cbn -[mk_ndobj thread benc firstn]. rewrite rmap_id by auto. cbn -[mk_ndobj thread benc firstn].
        rewrite LC; auto; eapply (DL _ _ "items"); [reflexivity|eauto|cbn; auto].
    - (* PArrayLike *) split; intros i pre; intros; subst; cbn -[nd_ok mk_nd seg_of bref firstn].
      + rewrite seg_ok. cbn -[nd_ok]. rewrite rmap_id by auto. cbn -[nd_ok]. unfold mk_nd. now rewrite nd_ok_ok.
      + rewrite seg_cut; auto.
    - (* PTable *) split; intros i pre; intros; subst; cbn -[seg_of bref firstn]; [rewrite seg_ok|rewrite seg_cut]; auto.
    - (* PFrame *) split; intros i pre; intros; subst; cbn -[seg_of bref firstn]; [rewrite seg_ok|rewrite seg_cut]; auto.
    - (* PList *) split; intros i pre; intros; cbn [benc fst snd] in *; cbn -[thread benc firstn].
      + rewrite LO; auto. eapply (DL _ _ "items"); [reflexivity|eauto|cbn; auto].
      + rewrite LC; auto. eapply (DL _ _ "items"); [reflexivity|eauto|cbn; auto].
    - (* PTuple *) split; intros i pre; intros; cbn [benc fst snd] in *; cbn -[thread benc firstn].
      + rewrite LO; auto. eapply (DL _ _ "items"); [reflexivity|eauto|cbn; auto].
      + rewrite LC; auto. eapply (DL _ _ "items"); [reflexivity|eauto|cbn; auto].
    - (* PDict *) destruct W as [Wi Wk]. allf Wi.
      destruct (existsb (fun p => negb (is_str (fst p))) items) eqn:E.
      + set (F := fun (p : pv * pv) i => let a := benc (fst p) i in let b := benc (snd p) (i + List.length (snd a)) in
             (JArr [fst a; fst b], snd a ++ snd b)).
        assert (P1 : forall p i pre post, In p items -> List.length pre = i -> depth (fst (F p i)) <= m ->
            pair_from_json (bd (pre ++ snd (F p i) ++ post) m) (fst (F p i)) = Ok (norm (fst p), norm (snd p))).
        { intros p i pre post Hp Hl Hd. destruct (Wi p Hp) as [Wa Wb]. unfold F in *. cbn [fst snd] in *. cbn [pair_from_json].
          pose proof (depth_pair (fst (benc (fst p) i)) (fst (benc (snd p) (i + List.length (snd (benc (fst p) i)))))) as [Da Db].
          rewrite <- app_assoc. rewrite (proj1 (IH _ Wa)) by lia. cbn [rbind].
          rewrite (app_assoc pre). rewrite (proj1 (IH _ Wb)) by (rewrite ?app_length; lia). reflexivity. }
        assert (P2 : forall p i pre k, In p items -> List.length pre = i -> depth (fst (F p i)) <= m -> k < List.length (snd (F p i)) ->
            pair_from_json (bd (pre ++ firstn k (snd (F p i))) m) (fst (F p i)) = IndexErr).
        { intros p i pre k Hp Hl Hd Hk. destruct (Wi p Hp) as [Wa Wb]. unfold F in *. cbn [fst snd] in *. cbn [pair_from_json].
          pose proof (depth_pair (fst (benc (fst p) i)) (fst (benc (snd p) (i + List.length (snd (benc (fst p) i)))))) as [Da Db].
          rewrite app_length in Hk. rewrite firstn_app.
          destruct (Nat.lt_ge_cases k (List.length (snd (benc (fst p) i)))) as [Hlt|Hge].
          - replace (k - _) with 0 by lia. rewrite firstn_O, app_nil_r. rewrite (proj2 (IH _ Wa)) by lia. reflexivity.
          - rewrite (firstn_all2 (snd (benc (fst p) i))) by lia. rewrite (proj1 (IH _ Wa)) by lia. cbn [rbind].
            rewrite (app_assoc pre). rewrite (proj2 (IH _ Wb)) by (rewrite ?app_length; lia). reflexivity. }
        split; [intros i pre post Hl Hd; cbn [benc] in Hd |- *; rewrite E in Hd |- *; fold F in Hd |- *; cbn [fst snd] in Hd |- *
               |intros i pre k Hl Hd Hk; cbn [benc] in Hd, Hk |- *; rewrite E in Hd, Hk |- *; fold F in Hd, Hk |- *; cbn [fst snd] in Hd, Hk |- *].
        * cbn -[thread F firstn pair_from_json dict_of].
          rewrite (thread_ok F (fun s => pair_from_json (bd s m)) (fun p => (norm (fst p), norm (snd p))) (fun b => depth b <= m)); auto;
            [|eapply (DL _ _ "pairs"); [reflexivity|eauto|cbn; auto]].
          cbn -[dict_of]. apply (dict_of_ok _ _ []). cbn. rewrite map_map. apply keys_ok_norm in Wk. now rewrite map_map in Wk.
        * cbn -[thread F firstn pair_from_json dict_of].
          rewrite (thread_cut F (fun s => pair_from_json (bd s m)) (fun p => (norm (fst p), norm (snd p))) (fun b => depth b <= m)); auto.
          eapply (DL _ _ "pairs"); [reflexivity|eauto|cbn; auto].
      + set (F := fun (p : pv * pv) i => let b := benc (snd p) i in ((str_of (fst p), fst b), snd b)).
        assert (P1 : forall p i pre post, In p items -> List.length pre = i -> depth (snd (fst (F p i))) <= m ->
            (v <- bd (pre ++ snd (F p i) ++ post) m (snd (fst (F p i))) ;; Ok (fst (fst (F p i)), v)) = Ok (str_of (fst p), norm (snd p))).
        { intros p i pre post Hp Hl Hd. destruct (Wi p Hp) as [Wa Wb]. unfold F in *. cbn [fst snd] in *.
          rewrite (proj1 (IH _ Wb)) by lia. reflexivity. }
        assert (P2 : forall p i pre k, In p items -> List.length pre = i -> depth (snd (fst (F p i))) <= m -> k < List.length (snd (F p i)) ->
            (v <- bd (pre ++ firstn k (snd (F p i))) m (snd (fst (F p i))) ;; Ok (fst (fst (F p i)), v)) = IndexErr).
        { intros p i pre k Hp Hl Hd Hk. destruct (Wi p Hp) as [Wa Wb]. unfold F in *. cbn [fst snd] in *.
          rewrite (proj2 (IH _ Wb)) by lia. reflexivity. }
        assert (DD : forall i, depth (btag "_dict" [("items", JObj (fst (thread F items i)))]) <= S m ->
                 forall b : string * json, In b (fst (thread F items i)) -> depth (snd b) <= m).
        { intros i Hd [b1 b2] Hb. apply depth_in_obj in Hb. cbn [snd].
          assert (Q := depth_in_obj "items" (JObj (fst (thread F items i))) [("_kind", JStr "_dict"); ("items", JObj (fst (thread F items i)))] ltac:(cbn; auto)).
          unfold btag in Hd. lia. }
        split; [intros i pre post Hl Hd; cbn [benc] in Hd |- *; rewrite E in Hd |- *; fold F in Hd |- *; cbn [fst snd] in Hd |- *
               |intros i pre k Hl Hd Hk; cbn [benc] in Hd, Hk |- *; rewrite E in Hd, Hk |- *; fold F in Hd, Hk |- *; cbn [fst snd] in Hd, Hk |- *].
        * cbn -[thread F firstn]. rewrite rfields_rmap.
          rewrite (thread_ok F (fun s p => v <- bd s m (snd p) ;; Ok (fst p, v)) (fun p => (str_of (fst p), norm (snd p))) (fun b => depth (snd b) <= m)); auto; try exact (DD i Hd).
          cbn. rewrite sdict_nodup by (rewrite map_map; eapply str_keys; eauto).
          rewrite map_map. cbn. do 2 f_equal. apply map_ext_in. intros p Hp.
          assert (Q : is_str (fst p) = true).
          { destruct (is_str (fst p)) eqn:Q; auto. rewrite <- E. apply existsb_exists. exists p. now rewrite Q. }
          destruct (fst p); try discriminate. reflexivity.
        * cbn -[thread F firstn]. rewrite rfields_rmap.
          rewrite (thread_cut F (fun s p => v <- bd s m (snd p) ;; Ok (fst p, v)) (fun p => (str_of (fst p), norm (snd p))) (fun b => depth (snd b) <= m)); auto; try exact (DD i Hd).
    - (* PBytes *) split; intros i pre; intros; subst; cbn -[seg_of bref firstn]; [rewrite seg_ok|rewrite seg_cut]; auto.
    - (* PTensorVal *) split; intros i pre; intros; subst; cbn -[nd_ok seg_of bref firstn]; rewrite rmap_id by auto; cbn -[nd_ok seg_of bref firstn].
      + rewrite seg_ok. cbn -[nd_ok]. now rewrite nd_ok_ok.
      + rewrite seg_cut; auto.
    - (* PTensorObj *) destruct W as (Wi & Ws & Wl). split; intros i pre; intros; cbn [benc fst snd] in *.
      + cbn -[mk_ndobj thread benc]. rewrite rmap_id by auto. cbn -[mk_ndobj thread benc].
        rewrite LO; auto; [|eapply (DL _ _ "items"); [reflexivity|eauto|cbn; auto]]. cbn -[mk_ndobj].
        rewrite mk_ndobj_ok; auto. now rewrite map_length.
      + cbn -[mk_ndobj thread benc firstn]. rewrite rmap_id by auto. cbn -[mk_ndobj thread benc firstn].
        rewrite LC; auto; eapply (DL _ _ "items"); [reflexivity|eauto|cbn; auto].
    - (* PTableVal *) split; intros i pre; intros; subst; cbn -[seg_of bref firstn]; [rewrite seg_ok|rewrite seg_cut]; auto.
  Qed.
End Bin.
