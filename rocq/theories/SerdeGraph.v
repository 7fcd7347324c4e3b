(** Proofs for C25: Graph.from_json rebuilds a graph made by add_input/add_op/add_output. *)
From Coq Require Import List ZArith String Ascii Bool Lia PeanoNat.
From Verif Require Import CtxModel CtxProofs SerdeModel SerdeSpec SerdeProofs.
Import ListNotations.
Local Open Scope string_scope.
Local Open Scope list_scope.

Lemma NoDup_app_remove_r {A} (l m : list A) : NoDup (l ++ m) -> NoDup l.
Proof.
  induction l; cbn; intros H; constructor; inversion_clear H; auto. intros Hi. apply H0. apply in_or_app; auto.
Qed.

(** the builder after creating the values [N], [c] of them as operation outputs *)
Definition bld (N : list (string * ty)) (c : nat) : builder :=
  Builder N (combine (map fst N) (seq 0 (List.length N))) c.

Lemma sfind_combine_none (N : list string) k a : ~ In k N -> sfind k (combine N (seq a (List.length N))) = None.
Proof.
  revert a. induction N as [|x N IH]; cbn; intros a H; auto. destruct (String.eqb_spec x k); [exfalso; auto|]. now apply IH; auto.
Qed.
Lemma sfind_combine (N : list string) k a i : NoDup N -> nth_error N i = Some k ->
  sfind k (combine N (seq a (List.length N))) = Some (a + i)%nat.
Proof.
  revert a i. induction N as [|x N IH]; intros a i Hn Hi; [destruct i; discriminate|].
  inversion_clear Hn as [|? ? Hx Hn']. cbn. destruct i as [|i]; cbn in Hi.
  - injection Hi as ->. rewrite String.eqb_refl. f_equal. lia.
  - destruct (String.eqb_spec x k).
    + subst. exfalso. apply Hx. eapply nth_error_In; eauto.
    + rewrite (IH (S a) i) by auto. f_equal. lia.
Qed.
Lemma combine_snoc {A B} (l : list A) (m : list B) x y : List.length l = List.length m -> combine (l ++ [x]) (m ++ [y]) = combine l m ++ [(x, y)].
Proof. revert m. induction l; destruct m; cbn; intros H; try discriminate; auto. f_equal. auto. Qed.

Lemma add_value_bld N c name t : ~ In name (map fst N) -> add_value (bld N c) name t = Ok (bld (N ++ [(name, t)]) c).
Proof.
  intros H. unfold add_value, bld. cbn [vals vnames vctr]. rewrite <- (map_length fst N) at 1.
  rewrite sfind_combine_none by auto. f_equal. unfold bld. f_equal.
  rewrite map_app, app_length, seq_app. cbn. now rewrite combine_snoc by (rewrite map_length, seq_length; auto).
Qed.
Lemma add_inputs_bld ins : forall N c, NoDup (map fst (N ++ ins)) -> add_inputs (bld N c) ins = Ok (bld (N ++ ins) c).
Proof.
  induction ins as [|[x t] ins IH]; intros N c H; cbn; [now rewrite app_nil_r|].
  rewrite add_value_bld.
  - cbn. rewrite IH; rewrite <- app_assoc; auto.
  - rewrite map_app in H. cbn in H. apply NoDup_remove in H. intros Hi. apply H. apply in_or_app; auto.
Qed.
Lemma add_outputs_bld outs : forall N c,
  map fst outs = map (fun k => "%" +++ show k) (seq c (List.length outs)) -> NoDup (map fst (N ++ outs)) ->
  add_outputs (bld N c) (map snd outs) = Ok (bld (N ++ outs) (c + List.length outs)).
Proof.
  induction outs as [|[x t] outs IH]; intros N c E H; cbn [add_outputs map snd]; [cbn; now rewrite app_nil_r, Nat.add_0_r|].
  cbn [map List.length seq fst] in E. injection E as E1 E2. unfold fresh_name. cbn [vctr bld append]. rewrite <- E1.
  change (Builder (vnames (bld N c)) (vals (bld N c)) (S c)) with (bld N (S c)).
  rewrite add_value_bld.
  - cbn [rbind]. rewrite IH; [rewrite <- app_assoc; cbn [app List.length]; do 2 f_equal; lia|auto|now rewrite <- app_assoc].
  - rewrite map_app in H. cbn in H. apply NoDup_remove in H. intros Hi. apply H. apply in_or_app; auto.
Qed.
Lemma renames_bld (N : list (string * ty)) (c : nat) names : forall i,
  (forall j x, nth_error names j = Some x -> exists t, nth_error N (i + j) = Some (x, t)) ->
  renames (bld N c) i names = Ok (bld N c).
Proof.
  induction names as [|x names IH]; intros i H; cbn; auto.
  destruct (H 0%nat x eq_refl) as [t Ht]. rewrite Nat.add_0_r in Ht. unfold rename. cbn [vnames bld]. rewrite Ht, String.eqb_refl.
  cbn. apply IH. intros j y Hj. replace (S i + j)%nat with (i + S j)%nat by lia. now apply H.
Qed.
Lemma nth_error_map_fst (N : list (string * ty)) i x : nth_error (map fst N) i = Some x -> exists t, nth_error N i = Some (x, t).
Proof.
  rewrite nth_error_map. destruct (nth_error N i) as [[y t]|]; cbn; intros H; [|discriminate]. injection H as ->. eauto.
Qed.
(** the position of a name *)
Fixpoint posn (k : string) (N : list string) : nat :=
  match N with [] => 0%nat | x :: N' => if String.eqb x k then 0%nat else S (posn k N') end.
Lemma posn_nth k N : In k N -> nth_error N (posn k N) = Some k.
Proof.
  induction N; cbn; [easy|]. intros H. destruct (String.eqb_spec a k); [now subst|]. cbn. destruct H; [easy|auto].
Qed.
Lemma lookup_bld N c k : NoDup (map fst N) -> In k (map fst N) -> lookup (bld N c) k = Ok (posn k (map fst N)).
Proof.
  intros Hn Hi. unfold lookup. cbn [vals bld]. rewrite <- (map_length fst N).
  rewrite (sfind_combine (map fst N) k 0 (posn k (map fst N))); auto using posn_nth.
Qed.
Lemma posn_app k N M : In k N -> posn k (N ++ M) = posn k N.
Proof. induction N; cbn; [easy|]. intros H. destruct (String.eqb_spec a k); auto. destruct H; [easy|]. now rewrite IHN. Qed.

Definition built_op (o : gop pv) (ins outs : list nat) : bop :=
  (GOp (g_opcode o) (g_ins o) (g_outs o) (g_attrs o) (g_regions o) (g_name o), ins, outs).

Lemma build_op_bld N c k o :
  NoDup (map fst (N ++ g_outs o)) -> incl (g_ins o) (map fst N) -> g_name o <> "" ->
  map fst (g_outs o) = map (fun k => "%" +++ show k) (seq c (List.length (g_outs o))) ->
  build_op (bld N c) k o = Ok (bld (N ++ g_outs o) (c + List.length (g_outs o)),
     built_op o (map (fun x => posn x (map fst N)) (g_ins o)) (seq (List.length N) (List.length (g_outs o)))).
Proof.
  intros Hn Hi Hm Ho. unfold build_op.
  assert (Hn' : NoDup (map fst N)) by (rewrite map_app in Hn; now apply NoDup_app_remove_r in Hn).
  assert (E : rmap (lookup (bld N c)) (g_ins o) = Ok (map (fun x => posn x (map fst N)) (g_ins o))).
  { rewrite <- (map_id (g_ins o)) at 1. apply rmap_map. intros x Hx. apply lookup_bld; auto. }
  rewrite E. cbn [rbind]. rewrite add_outputs_bld by auto. cbn [rbind vnames bld].
  fold (bld (N ++ g_outs o) (c + List.length (g_outs o))).
  rewrite renames_bld.
  - cbn [rbind]. destruct (String.eqb_spec (g_name o) ""); [easy|]. reflexivity.
  - intros j x Hj. apply nth_error_map_fst in Hj. destruct Hj as [t Hj]. exists t.
    rewrite nth_error_app2 by lia. now replace (List.length N + j - List.length N)%nat with j by lia.
Qed.

Lemma scoped_incl {A} (ops : list (gop A)) : forall known, scoped known ops -> Forall (fun o => incl (g_ins o) (known ++ map fst (flat_map g_outs ops))) ops.
Proof.
  induction ops as [|o ops IH]; cbn; intros known H; constructor.
  - intros x Hx. apply in_or_app. left. now apply H.
  - destruct H as [_ H]. apply IH in H. eapply Forall_impl; [|exact H]. intros o' Ho'. cbn in Ho'.
    now rewrite map_app, app_assoc.
Qed.

Fixpoint built_ops (all : list string) (base : nat) (ops : list (gop pv)) : list bop :=
  match ops with
  | [] => []
  | o :: ops' => built_op o (map (fun x => posn x all) (g_ins o)) (seq base (List.length (g_outs o)))
                 :: built_ops all (base + List.length (g_outs o)) ops'
  end.
Lemma build_ops_bld ops : forall N c k,
  NoDup (map fst (N ++ flat_map g_outs ops)) -> scoped (map fst N) ops -> Forall (fun o => g_name o <> "") ops ->
  map fst (flat_map g_outs ops) = map (fun k => "%" +++ show k) (seq c (List.length (flat_map g_outs ops))) ->
  build_ops (bld N c) k ops = Ok (bld (N ++ flat_map g_outs ops) (c + List.length (flat_map g_outs ops)),
     built_ops (map fst (N ++ flat_map g_outs ops)) (List.length N) ops).
Proof.
  induction ops as [|o ops IH]; intros N c k Hn Hs Hm Ho; cbn [build_ops flat_map built_ops].
  - cbn. rewrite app_nil_r, Nat.add_0_r. reflexivity.
  - cbn [flat_map] in *. inversion_clear Hm as [|? ? Hm1 Hm2]. cbn [scoped] in Hs. destruct Hs as [Hs1 Hs2].
    rewrite map_app, app_length, seq_app, map_app in Ho.
    apply app_eq_app in Ho as Hq.
    assert (Ho1 : map fst (g_outs o) = map (fun k => "%" +++ show k) (seq c (List.length (g_outs o)))).
    { apply (f_equal (firstn (List.length (g_outs o)))) in Ho.
      rewrite !firstn_app, !map_length, !seq_length, !Nat.sub_diag, !firstn_O, !app_nil_r in Ho.
      rewrite !firstn_all2 in Ho; auto; rewrite ?map_length, ?seq_length; lia. }
    assert (Ho2 : map fst (flat_map g_outs ops) = map (fun k => "%" +++ show k) (seq (c + List.length (g_outs o)) (List.length (flat_map g_outs ops)))).
    { rewrite Ho1 in Ho. now apply app_inv_head in Ho. }
    rewrite app_assoc in Hn.
    assert (Hn1 : NoDup (map fst (N ++ g_outs o))) by (rewrite map_app in Hn; now apply NoDup_app_remove_r in Hn).
    rewrite build_op_bld by auto. cbn [rbind fst snd].
    rewrite IH; auto; [|now rewrite map_app].
    cbn [rbind fst snd]. rewrite !app_length, !app_assoc, Nat.add_assoc. do 3 f_equal.
    unfold built_op. do 2 f_equal. apply map_ext_in. intros x Hx.
    rewrite <- app_assoc, map_app. now rewrite posn_app by auto.
Qed.

Lemma name_of_bld N c i p : nth_error N i = Some p -> name_of (bld N c) i = p.
Proof. intros H. unfold name_of. cbn. now apply nth_error_nth. Qed.
Lemma names_seq (A B C : list (string * ty)) c :
  map (name_of (bld (A ++ B ++ C) c)) (seq (List.length A) (List.length B)) = B.
Proof.
  revert A. induction B as [|b B IH]; intros A; cbn [List.length seq map]; auto. f_equal.
  - apply name_of_bld. rewrite nth_error_app2 by lia. now rewrite Nat.sub_diag.
  - specialize (IH (A ++ [b])). rewrite <- app_assoc in IH. rewrite app_length in IH. cbn in IH.
    rewrite Nat.add_1_r in IH. exact IH.
Qed.
Lemma names_posn N c l : incl l (map fst N) -> map (fun x => fst (name_of (bld N c) x)) (map (fun x => posn x (map fst N)) l) = l.
Proof.
  intros H. rewrite map_map. rewrite <- (map_id l) at 2. apply map_ext_in. intros x Hx.
  destruct (nth_error_map_fst N (posn x (map fst N)) x (posn_nth _ _ (H x Hx))) as [t Ht].
  now rewrite (name_of_bld _ _ _ _ Ht).
Qed.
Lemma built_ops_back (ins : list (string * ty)) (ops : list (gop pv)) c : forall A,
  Forall (fun o => incl (g_ins o) (map fst (A ++ flat_map g_outs ops))) ops ->
  map (fun o => let '(g, i, u) := (o : bop) in
     GOp (g_opcode g) (map (fun x => fst (name_of (bld (A ++ flat_map g_outs ops) c) x)) i)
       (map (name_of (bld (A ++ flat_map g_outs ops) c)) u) (g_attrs g) (g_regions g) (g_name g))
    (built_ops (map fst (A ++ flat_map g_outs ops)) (List.length A) ops) = ops.
Proof.
  induction ops as [|o ops IH]; intros A H; cbn [built_ops map flat_map]; auto. inversion_clear H as [|? ? H1 H2]. f_equal.
  - unfold built_op. cbn [flat_map] in H1. rewrite names_posn by auto. rewrite names_seq. now destruct o.
  - specialize (IH (A ++ g_outs o)). rewrite <- app_assoc, app_length in IH. apply IH. exact H2.
Qed.

Theorem rebuild_built ins ops outs : built_graph ins ops outs -> rebuild ins ops outs = Ok (PGraph ins ops outs).
Proof.
  intros (Hn & Hs & Ho & Hm & Hu). unfold rebuild, graph_names in *.
  change (Builder [] [] 0) with (bld [] 0).
  rewrite add_inputs_bld by (cbn; rewrite map_app in Hn; now apply NoDup_app_remove_r in Hn).
  cbn [rbind app]. rewrite build_ops_bld by auto. cbn [rbind fst snd].
  assert (E : rmap (add_out (bld (ins ++ flat_map g_outs ops) (0 + List.length (flat_map g_outs ops)))) outs
              = Ok (map (fun x => posn x (map fst (ins ++ flat_map g_outs ops))) outs)).
  { rewrite <- (map_id outs) at 1. apply rmap_map. intros x Hx. apply lookup_bld; auto. }
  rewrite E. cbn [rbind]. do 2 f_equal.
  - apply (names_seq [] ins (flat_map g_outs ops)).
  - apply built_ops_back; auto. apply scoped_incl in Hs. eapply Forall_impl; [|exact Hs]. cbn. intros o Ho'. now rewrite map_app.
  - now apply names_posn.
Qed.
