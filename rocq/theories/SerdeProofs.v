(** Proofs for C20, C22, C25. *)
From Coq Require Import List ZArith String Ascii Bool Lia PeanoNat.
From Verif Require Import Base64Model CtxModel CtxProofs SerdeModel SerdeSpec.
Import ListNotations.
Local Open Scope string_scope.
Local Open Scope list_scope.
Local Open Scope Z_scope.

(** ** Generic *)
Lemma all_Forall {A} (P : A -> Prop) l : all P l <-> Forall P l.
Proof. induction l; cbn; split; intros; try constructor; try inversion H; subst; try tauto; now apply IHl. Qed.

Lemma rmap_map {A B C} (f : B -> res C) (g : A -> B) (h : A -> C) l :
  (forall x, In x l -> f (g x) = Ok (h x)) -> rmap f (map g l) = Ok (map h l).
Proof.
  induction l; cbn; intros H; auto. rewrite H by auto. cbn. rewrite IHl by auto. reflexivity.
Qed.
Lemma rmap_id {A B} (f : B -> res A) (g : A -> B) l :
  (forall x, In x l -> f (g x) = Ok x) -> rmap f (map g l) = Ok l.
Proof. intros H. rewrite (rmap_map f g (fun x => x)) by auto. now rewrite map_id. Qed.
Lemma rfields_map {A C} (f : json -> res C) (g : A -> json) (h : A -> C) (l : list (string * A)) :
  (forall p, In p l -> f (g (snd p)) = Ok (h (snd p))) ->
  rfields f (map (fun p => (fst p, g (snd p))) l) = Ok (map (fun p => (fst p, h (snd p))) l).
Proof.
  induction l as [|[k v] l]; cbn; intros H; auto. pose proof (H (k, v) (or_introl eq_refl)) as E. cbn in E. rewrite E. cbn. rewrite IHl by auto. reflexivity.
Qed.

Lemma sput_new {A} k (v : A) d : ~ In k (map fst d) -> sput k v d = d ++ [(k, v)].
Proof.
  induction d as [|[k' v'] d]; cbn; intros H; auto.
  destruct (String.eqb_spec k' k); [exfalso; auto|]. now rewrite IHd by auto.
Qed.
Lemma sdict_nodup {A} (l : list (string * A)) : NoDup (map fst l) -> sdict l = l.
Proof.
  unfold sdict. intros H. change l with ([] ++ l) at 2. revert H. change (map fst l) with (map fst ([] ++ l) : list string).
  generalize (@nil (string * A)) as d. induction l as [|[k v] l]; cbn; intros d H; [now rewrite app_nil_r|].
  rewrite sput_new.
  - rewrite IHl; rewrite <- app_assoc; auto.
  - rewrite map_app in H. cbn in H. apply NoDup_remove in H. intros Hi. apply H. apply in_or_app. auto.
Qed.

Lemma depth_pos j : (1 <= depth j)%nat. Proof. destruct j; cbn; lia. Qed.
Lemma depth_in_arr j l : In j l -> (depth j < depth (JArr l))%nat.
Proof.
  cbn. intros H. apply Nat.lt_succ_r. induction l; cbn in *; [easy|]. destruct H as [<-|H]; [lia|]. specialize (IHl H). lia.
Qed.
Lemma depth_in_obj k j l : In (k, j) l -> (depth j < depth (JObj l))%nat.
Proof.
  cbn. intros H. apply Nat.lt_succ_r. induction l; cbn in *; [easy|]. destruct H as [->|H]; [cbn; lia|]. specialize (IHl H). lia.
Qed.

Lemma as_ints_ok l : as_ints (JArr (map JInt l)) = Ok l.
Proof. unfold as_ints. cbn. apply rmap_id. auto. Qed.
Lemma as_b64_ok s : as_b64 (b64 s) = Ok s.
Proof. unfold as_b64, b64. cbn. now rewrite b64_roundtrip. Qed.
Lemma rmap_str l : rmap as_str (map JStr l) = Ok l.
Proof. apply rmap_id. auto. Qed.

(** ** Constructors of types accept exactly the documented ranges *)
Lemma is_pow2_iff z : is_pow2 z = true <-> exists k, 0 <= k /\ z = 2 ^ k.
Proof.
  unfold is_pow2. rewrite andb_true_iff, Z.ltb_lt, Z.eqb_eq. split.
  - intros [Hp Hl]. exists (Z.log2 z). split; [apply Z.log2_nonneg|].
    destruct (Z.eq_dec z (2 ^ Z.log2 z)) as [|Hne]; auto. exfalso.
    pose proof (Z.log2_spec z Hp) as [L U].
    assert (T : Z.testbit (Z.land z (z - 1)) (Z.log2 z) = true).
    { rewrite Z.land_spec, Z.bit_log2 by auto. cbn.
      replace (Z.log2 z) with (Z.log2 (z - 1)).
      - apply Z.bit_log2. pose proof (Z.pow_pos_nonneg 2 (Z.log2 z) ltac:(lia) (Z.log2_nonneg z)). lia.
      - apply Z.log2_unique; [apply Z.log2_nonneg|]. lia. }
    rewrite Hl, Z.bits_0 in T. discriminate.
  - intros (k & Hk & ->). split; [apply Z.pow_pos_nonneg; lia|].
    replace (2 ^ k - 1) with (Z.ones k) by (rewrite Z.ones_equiv; lia).
    rewrite Z.land_ones by auto. apply Z.mod_same. apply Z.pow_nonzero; lia.
Qed.
Lemma all_space_false k : all_space k = false <-> exists a c b, k = a +++ String c b /\ is_space c = false.
Proof.
  induction k as [|c k IH]; cbn.
  - split; [discriminate|]. intros (a & c & b & H & _). destruct a; discriminate.
  - destruct (is_space c) eqn:E; cbn.
    + rewrite IH. split.
      * intros (a & c' & b & -> & H). exists (String c a), c', b. auto.
      * intros (a & c' & b & H & Hc). destruct a as [|a1 a2]; cbn in H; injection H as H1 H2; subst; [congruence|]. exists a2, c', b. auto.
    + split; auto. intros _. exists "", c, k. auto.
Qed.
Lemma mk_int_ok b s t : mk_int b s = Ok t <-> t = TInt b s /\ exists k, 0 <= k /\ b = 2 ^ k.
Proof. unfold mk_int. rewrite <- is_pow2_iff. destruct (is_pow2 b); split; intros H; try congruence; try (destruct H; congruence). injection H as <-; auto. Qed.
Lemma mk_float_ok b t : mk_float b = Ok t <-> t = TFloat b /\ (b = 16 \/ b = 32 \/ b = 64 \/ b = 128).
Proof.
  unfold mk_float. destruct (existsb (Z.eqb b) [16; 32; 64; 128]) eqn:E.
  - cbn in E. rewrite !orb_true_iff, !Z.eqb_eq in E. split; [intros H; injection H as <-; split; [auto|intuition congruence]|now intros [-> _]].
  - cbn in E. rewrite !orb_false_iff, !Z.eqb_neq in E. split; [discriminate|]. intros [_ H]. exfalso. intuition congruence.
Qed.
Lemma mk_complex_ok i t : mk_complex i = Ok t <-> t = TComplex i /\ exists b, i = TFloat b.
Proof.
  unfold mk_complex. split.
  - destruct i; cbn; intros H; try discriminate. injection H as <-. eauto.
  - intros [-> [b ->]]. reflexivity.
Qed.
Lemma mk_tensor_ok e sh t : mk_tensor e sh = Ok t <-> t = TTensor e sh /\ Forall (fun d => d = -1 \/ 0 < d) sh.
Proof.
  unfold mk_tensor. assert (E : existsb (fun d => (d <? -1) || (d =? 0)) sh = false <-> Forall (fun d => d = -1 \/ 0 < d) sh).
  { induction sh; cbn; [split; auto|]. rewrite !orb_false_iff, IHsh, Forall_cons_iff, Z.ltb_ge, Z.eqb_neq. intuition lia. }
  rewrite <- E. destruct (existsb _ sh); split; intros H; try congruence; try (destruct H; congruence). injection H as <-; auto.
Qed.
Lemma mk_vector_ok e n t : mk_vector e n = Ok t <->
  t = TVector e n /\ 0 < n /\ ((exists b s, e = TInt b s) \/ (exists b, e = TFloat b) \/ exists i, e = TComplex i).
Proof.
  unfold mk_vector. assert (E : is_scalar_ty e = true <-> ((exists b s, e = TInt b s) \/ (exists b, e = TFloat b) \/ exists i, e = TComplex i)).
  { split.
    - destruct e; cbn; intros H; try discriminate; eauto 6.
    - intros [(b & s & ->)|[(b & ->)|(i & ->)]]; reflexivity. }
  rewrite <- E. destruct (is_scalar_ty e); cbn; [|split; [discriminate|intros (_ & _ & H); discriminate]].
  destruct (n <=? 0) eqn:L; [split; [discriminate|lia]|]. split; [intros H; injection H as <-; repeat split; lia|intros (-> & _); auto].
Qed.
Lemma mk_table_ok sch n t : mk_table sch n = Ok t <-> t = TTable sch n /\ (n = -1 \/ 0 < n).
Proof.
  unfold mk_table. destruct ((n <? -1) || (n =? 0)) eqn:E; split; intros H.
  - discriminate.
  - exfalso. destruct H as [_ H]. rewrite orb_true_iff, Z.ltb_lt, Z.eqb_eq in E. lia.
  - injection H as <-. split; auto. rewrite orb_false_iff, Z.ltb_ge, Z.eqb_neq in E. lia.
  - destruct H as [-> _]. reflexivity.
Qed.
Lemma mk_custom_ok k t : mk_custom k = Ok t <-> t = TCustom k /\ exists a c b, k = a +++ String c b /\ is_space c = false.
Proof.
  unfold mk_custom. rewrite <- all_space_false. destruct (all_space k); split; intros H; try discriminate; try (destruct H; congruence).
  injection H as <-; auto.
Qed.

Ltac kinds := cbn [String.eqb Ascii.eqb Bool.eqb existsb type_kinds orb].
Ltac unj := cbn [jget jfind kind_of as_str as_int as_bool as_obj as_arr rbind String.eqb Ascii.eqb Bool.eqb fst snd tag btag app].

Lemma ty_roundtrip_at n : forall t, wf_ty t -> (depth (ty_to_json t) <= n)%nat -> ty_from_json n (ty_to_json t) = Ok t.
Proof.
  induction n as [|n IH]; intros t W D; [pose proof (depth_pos (ty_to_json t)); lia|].
  assert (DI : forall k u l, ty_to_json t = JObj l -> In (k, ty_to_json u) l -> (depth (ty_to_json u) <= n)%nat).
  { intros k u l E Hi. rewrite E in D. pose proof (depth_in_obj _ _ _ Hi). lia. }
  destruct t; cbn [wf_ty] in W.
  - unfold ty_to_json, tag. cbn. now apply mk_int_ok.
  - cbn. now apply mk_float_ok.
  - cbn. rewrite IH; [|tauto|eapply DI; [reflexivity|cbn; auto]]. cbn. apply mk_complex_ok. tauto.
  - cbn. rewrite IH; [|tauto|eapply DI; [reflexivity|cbn; auto]]. cbn. rewrite rmap_id by auto. cbn. apply mk_tensor_ok. tauto.
  - cbn. rewrite IH; [|tauto|eapply DI; [reflexivity|cbn; auto]]. cbn. apply mk_vector_ok. tauto.
  - destruct W as (Wn & Wa & Wr). apply all_Forall in Wa. rewrite Forall_forall in Wa.
    assert (F : rfields (ty_from_json n) (map (fun p => (fst p, ty_to_json (snd p))) schema) = Ok schema).
    { rewrite (rfields_map (ty_from_json n) ty_to_json (fun x => x)).
      - f_equal. rewrite <- (map_id schema) at 2. apply map_ext. now intros [? ?].
      - intros p Hp. apply IH; auto. cbn in D.
        assert (L : (depth (ty_to_json (snd p)) < depth (JObj (map (fun p => (fst p, ty_to_json (snd p))) schema)))%nat)
          by (eapply (depth_in_obj (fst p)); apply in_map_iff; eauto).
        revert D L. destruct (nrows =? -1); cbn; lia. }
    cbn. destruct (Z.eqb_spec nrows (-1)); cbn; rewrite F; cbn; rewrite sdict_nodup by auto; [now subst|apply mk_table_ok; auto].
  - cbn. now apply mk_custom_ok.
  - cbn. rewrite IH; [|tauto|eapply DI; [reflexivity|cbn; auto]]. reflexivity.
  - cbn. rewrite IH; [|tauto|eapply DI; [reflexivity|cbn; auto]]. cbn. destruct parties; cbn; auto.
    unfold as_ints. cbn. now rewrite rmap_id by auto.
  - reflexivity.
  - reflexivity.
  - reflexivity.
  - reflexivity.
  - reflexivity.
  - reflexivity.
  - cbn. rewrite IH; [|tauto|eapply DI; [reflexivity|cbn; auto]]. destruct W as (_ & e & m & ->). reflexivity.
  - cbn. rewrite IH; [|tauto|eapply DI; [reflexivity|cbn; auto]]. destruct W as (_ & e & m & ->). reflexivity.
  - reflexivity.
  - reflexivity.
  - reflexivity.
  - reflexivity.
Qed.

(** what the decoder accepts as a type is well formed *)
Lemma sdict_in {A} (l : list (string * A)) : forall d p, In p (fold_left (fun d p => sput (fst p) (snd p) d) l d) -> In p l \/ In p d.
Proof.
  induction l as [|[k v] l IH]; cbn; auto. intros d p H. apply IH in H. destruct H as [H|H]; auto.
  cut ((k, v) = p \/ In p d); [tauto|]. clear -H. induction d as [|[k' v'] d]; cbn in *; [tauto|].
  destruct (String.eqb_spec k' k); cbn in H; [subst; tauto|]. tauto.
Qed.
Lemma sput_keys {A} k (v : A) d : NoDup (map fst d) -> NoDup (map fst (sput k v d)).
Proof.
  intros H. induction d as [|[k' v'] d IH]; cbn; [repeat constructor; auto|].
  destruct (String.eqb_spec k' k); cbn; [now subst|]. cbn in H. inversion_clear H as [|? ? N H']. constructor; auto.
  intros Hi. apply in_map_iff in Hi. destruct Hi as ([k2 v2] & E & Hi). cbn in E. subst k2.
  assert (Q : In (k', v2) (fold_left (fun d p => sput (fst p) (snd p) d) [(k, v)] d)) by exact Hi.
  apply sdict_in in Q. destruct Q as [[Q|[]]|Q]; [congruence|]. apply N. apply in_map_iff. exists (k', v2). auto.
Qed.
Lemma sdict_keys {A} (l : list (string * A)) : NoDup (map fst (sdict l)).
Proof.
  unfold sdict. assert (H : NoDup (map fst (@nil (string * A)))) by constructor. revert H. generalize (@nil (string * A)).
  induction l; cbn; auto. intros d H. apply IHl. now apply sput_keys.
Qed.

Lemma ty_from_json_wf n : forall j t, ty_from_json n j = Ok t -> wf_ty t.
Proof.
  induction n as [|n IH]; intros j t H; [discriminate|].
  assert (RF : forall l s, rfields (ty_from_json n) l = Ok s -> all (fun p => wf_ty (snd p)) s).
  { induction l as [|[k v] l IHl]; cbn; intros s Hs; [injection Hs as <-; constructor|].
    destruct (ty_from_json n v) eqn:E; cbn in Hs; try discriminate.
    destruct (rfields (ty_from_json n) l) eqn:E2; cbn in Hs; try discriminate. injection Hs as <-. cbn. split; [eauto|]. now apply IHl. }
  cbn in H. destruct j; try discriminate. destruct (kind_of l) as [k| | | |]; cbn in H; try discriminate.
  destruct k as [| | | |k| |]; try discriminate.
  repeat match type of H with
  | (if ?c then _ else _) = Ok _ => destruct c
  end; try discriminate;
  repeat match type of H with
  | rbind ?r _ = Ok _ => let E := fresh "E" in destruct r eqn:E; cbn [rbind] in H; try discriminate
  | match ?x with _ => _ end = Ok _ => let E := fresh "E" in destruct x eqn:E; try discriminate
  end;
  try (injection H as <-; cbn; eauto; fail).
  - apply mk_int_ok in H. destruct H as [-> H]. exact H.
  - apply mk_float_ok in H. destruct H as [-> H]. exact H.
  - apply mk_complex_ok in H. destruct H as [-> H]. cbn. eauto.
  - apply mk_tensor_ok in H. destruct H as [-> H]. cbn. eauto.
  - apply mk_vector_ok in H. destruct H as [-> H]. cbn. split; eauto.
  - apply mk_table_ok in H. destruct H as [-> H]. cbn. split; [apply sdict_keys|]. split; auto.
    apply all_Forall. apply Forall_forall. intros p Hp. apply sdict_in in Hp. destruct Hp as [Hp|[]].
    specialize (RF _ _ E1). apply all_Forall in RF. rewrite Forall_forall in RF. auto.
  - injection H as <-. cbn. split; [apply sdict_keys|]. split; auto.
    apply all_Forall. apply Forall_forall. intros p Hp. apply sdict_in in Hp. destruct Hp as [Hp|[]].
    specialize (RF _ _ E1). apply all_Forall in RF. rewrite Forall_forall in RF. auto.
  - apply mk_custom_ok in H. destruct H as [-> H]. exact H.
  - unfold mk_plain in H. destruct a0; try discriminate. injection H as <-. cbn. split; [|eauto]. eapply (IH _ _ E0).
  - unfold mk_cipher in H. destruct a0; try discriminate. injection H as <-. cbn. split; [|eauto]. eapply (IH _ _ E0).
Qed.
