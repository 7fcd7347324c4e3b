(** Proofs for C53. *)
From Coq Require Import List ZArith String Ascii Bool Lia Permutation.
From Verif Require Import CtxModel SerdeModel SerdeSpec SerdeProofs MorphModel MorphProofs SortKeys ExecKeyModel ExecKeySpec TyStrProofs.
Import ListNotations.
Local Open Scope string_scope.
Local Open Scope list_scope.
Local Open Scope nat_scope.

(* ---------------------------------------------------------------- numbering *)
Lemma find_pos_nth x : forall env i, find_pos x env = Some i -> nth_error env i = Some x.
Proof.
  induction env as [|y env IH]; intros i H; cbn in H; [discriminate H|]. destruct (String.eqb_spec y x) as [->|]; [injection H as <-; reflexivity|].
  destruct (find_pos x env) as [j|]; [|discriminate H]. injection H as <-. exact (IH j eq_refl).
Qed.
Lemma find_pos_in x : forall env, In x env -> exists i, find_pos x env = Some i.
Proof.
  induction env as [|y env IH]; cbn; [intros []|]. intros [-> |H]; [rewrite String.eqb_refl; eauto|]. destruct (String.eqb y x); [eauto|]. destruct (IH H) as (i & ->). cbn. eauto.
Qed.
Lemma find_pos_none x : forall env, ~ In x env -> find_pos x env = None.
Proof. induction env as [|y env IH]; cbn; intros H; [reflexivity|]. destruct (String.eqb_spec y x) as [->|]; [tauto|]. rewrite IH; [reflexivity|tauto]. Qed.
Lemma nth_find_pos x : forall env i, NoDup env -> nth_error env i = Some x -> find_pos x env = Some i.
Proof.
  intros env i ND H. destruct (find_pos_in x env (nth_error_In _ _ H)) as (j & Hj). rewrite Hj. f_equal. apply find_pos_nth in Hj.
  apply (proj1 (NoDup_nth_error env) ND); [apply nth_error_Some; congruence|congruence].
Qed.

Section Rename.
  Variable r : string -> string.
  Variable D : list string.
  Hypothesis inj : forall x y, In x D -> In y D -> r x = r y -> x = y.
  Lemma find_pos_map x : In x D -> forall env, incl env D -> find_pos (r x) (map r env) = find_pos x env.
  Proof.
    intros Hx. induction env as [|y env IH]; intros I; cbn; [reflexivity|]. rewrite IH by (intros z Hz; apply I; right; exact Hz).
    destruct (String.eqb_spec (r y) (r x)) as [E|E], (String.eqb_spec y x) as [E'|E']; auto; exfalso; [apply E', inj; [apply I; left; reflexivity|exact Hx|exact E]|congruence].
  Qed.
  Lemma index_map env x : incl env D -> In x D -> index (map r env) (r x) = (map r (fst (index env x)), snd (index env x)) /\ incl (fst (index env x)) D.
  Proof.
    intros I Hx. unfold index. rewrite find_pos_map by assumption. destruct (find_pos x env); cbn [fst snd]; [auto|]. rewrite map_app, map_length. split; [reflexivity|].
    intros y Hy. apply in_app_iff in Hy. destruct Hy as [Hy|[<-|[]]]; auto.
  Qed.
  Lemma index_list_map l : forall env, incl env D -> incl l D -> index_list (map r env) (map r l) = (map r (fst (index_list env l)), snd (index_list env l)) /\ incl (fst (index_list env l)) D.
  Proof.
    induction l as [|x l IH]; intros env I Il; cbn [map index_list]; [auto|].
    destruct (index_map env x I (Il x (or_introl eq_refl))) as [E1 I1]. rewrite E1. destruct (index env x) as [env1 i1]. cbn [fst snd] in *.
    destruct (IH env1 I1 (fun y Hy => Il y (or_intror Hy))) as [E2 I2]. rewrite E2. destruct (index_list env1 l) as [env2 is2]. auto.
  Qed.
  Lemma index_lists_map ls : forall env, incl env D -> incl (List.concat ls) D -> index_lists (map r env) (map (map r) ls) = (map r (fst (index_lists env ls)), snd (index_lists env ls)) /\ incl (fst (index_lists env ls)) D.
  Proof.
    induction ls as [|l ls IH]; intros env I Il; cbn [map index_lists]; [auto|].
    destruct (index_list_map l env I (fun y Hy => Il y (in_or_app _ _ _ (or_introl Hy)))) as [E1 I1]. rewrite E1. destruct (index_list env l) as [env1 i1]. cbn [fst snd] in *.
    destruct (IH env1 I1 (fun y Hy => Il y (in_or_app _ _ _ (or_intror Hy)))) as [E2 I2]. rewrite E2. destruct (index_lists env1 ls) as [env2 is2]. auto.
  Qed.
End Rename.

Lemma graph_ind (P : pv -> Prop) : (forall ins ops outs, (forall o x, In o ops -> In x (g_regions o) -> P x) -> P (PGraph ins ops outs)) ->
  (forall x, (forall ins ops outs, x <> PGraph ins ops outs) -> P x) -> forall x, P x.
Proof.
  intros HG HO. fix IH 1. intros x. destruct x as [| | | | | | | | | | | | | | | | |ins ops outs| | | | | | |]; try (apply HO; intros; discriminate). apply HG.
  induction ops as [|[c i u a rg m] ops IHo]; intros o x Ho Hx; [destruct Ho|]. destruct Ho as [<-|Ho]; [|exact (IHo o x Ho Hx)]. cbn in Hx. clear - IH Hx. induction rg as [|y rg IHr]; [destruct Hx|]. destruct Hx as [<-|Hx]; [apply IH|exact (IHr Hx)].
Qed.
Section K.
Variable sha : string -> string.
Variable dump : json -> string.
Variable ptrs : list pv -> string.
Notation stable := (stable sha dump ptrs). Notation fingerprint := (fingerprint sha dump ptrs). Notation op_fp := (op_fp sha dump ptrs).

Definition op_rel (r : string -> string) (o o' : gop pv) : Prop :=
  g_opcode o' = g_opcode o /\ g_ins o' = map r (g_ins o) /\ g_outs o' = map (fun v => (r (fst v), snd v)) (g_outs o)
  /\ Permutation (g_attrs o) (g_attrs o') /\ NoDup (map fst (g_attrs o)) /\ Forall2 alpha (g_regions o) (g_regions o').
Lemma jtypes_map r l : jtypes (map (fun v : string * ty => (r (fst v), snd v)) l) = jtypes l.
Proof. unfold jtypes. rewrite map_map. reflexivity. Qed.
Lemma op_fp_rel r o o' is regs : op_rel r o o' -> op_fp o' is regs = op_fp o is regs.
Proof. intros (E1 & E2 & E3 & E4 & E5 & _). unfold ExecKeyModel.op_fp. rewrite E1, E3, jtypes_map, (sort_unique _ _ E5 E4). reflexivity. Qed.

Lemma fingerprint_alpha : forall g h, alpha g h -> fingerprint g = fingerprint h.
Proof.
  apply (graph_ind (fun g => forall h, alpha g h -> fingerprint g = fingerprint h)); [|intros x N h H; destruct H as [r ins ins' ops ops' outs outs']; elim (N ins ops outs); reflexivity].
  intros ins ops outs IH h H. inversion H as [r ins0 ins' ops0 ops' outs0 outs' INJ Ei HF Eo Eg Eh]. subst ins0 ops0 outs0 h. clear H.
  assert (Forall2 (op_rel r) ops ops') as HR by exact HF.
  assert (map (fun o => map fingerprint (g_regions o)) ops = map (fun o => map fingerprint (g_regions o)) ops') as ER.
  { clear - IH HF. induction HF as [|o o' ops ops' Ho HF IHo]; [reflexivity|]. cbn [map]. f_equal; [|apply IHo; intros p x Hp; apply IH; right; exact Hp].
    destruct Ho as (_ & _ & _ & _ & _ & Hr). assert (forall x, In x (g_regions o) -> forall h, alpha x h -> fingerprint x = fingerprint h) as IHr by (intros x; apply IH; left; reflexivity). clear - IHr Hr.
    induction Hr as [|x y l l' Hx Hl IHl]; [reflexivity|]. cbn [map]. f_equal; [apply IHr; [left; reflexivity|exact Hx]|apply IHl; intros z Hz; apply IHr; right; exact Hz]. }
  clear IH HF. subst ins' outs'.
  set (D := map fst (graph_names ins ops) ++ flat_map g_ins ops ++ outs) in *.
  assert (map g_ins ops' = map (map r) (map g_ins ops)) as EI.
  { clear - HR. induction HR as [|o o' ops ops' Ho HR IH]; [reflexivity|]. cbn [map]. rewrite IH. destruct Ho as (_ & -> & _). reflexivity. }
  assert (flat_map (fun o => map fst (g_outs o)) ops' = map r (flat_map (fun o => map fst (g_outs o)) ops)) as EU.
  { clear - HR. induction HR as [|o o' ops ops' Ho HR IH]; [reflexivity|]. cbn [flat_map]. rewrite IH, map_app. destruct Ho as (_ & _ & -> & _). rewrite !map_map. reflexivity. }
  assert (incl (map fst ins ++ flat_map (fun o => map fst (g_outs o)) ops) D) as ID.
  { intros x Hx. apply in_app_iff. left. unfold graph_names. rewrite map_app. apply in_app_iff in Hx. apply in_app_iff. destruct Hx as [Hx|Hx]; [left; exact Hx|right]. apply in_flat_map in Hx. destruct Hx as (o & Ho & Hx). apply in_map_iff in Hx. destruct Hx as (v & <- & Hv). apply in_map. apply in_flat_map. eauto. }
  destruct (index_list_map r D INJ _ [] (incl_nil_l D) ID) as [E1 I1].
  assert (graph_env (map (fun v => (r (fst v), snd v)) ins) ops' = map r (graph_env ins ops)) as EE.
  { unfold graph_env. rewrite EU, map_map. cbn [fst]. cbn [map] in E1. rewrite map_app, map_map in E1. rewrite E1. reflexivity. }
  destruct (index_lists_map r D INJ (map g_ins ops) (graph_env ins ops) I1) as [E2 I2].
  { intros x Hx. apply in_app_iff. right. apply in_app_iff. left. rewrite flat_map_concat_map. exact Hx. }
  cbn [ExecKeyModel.fingerprint]. rewrite EE, EI, E2, <- ER, jtypes_map. destruct (index_lists (graph_env ins ops) (map g_ins ops)) as [env is]. cbn [fst snd] in *.
  destruct (index_list_map r D INJ outs env I2) as [E3 _]; [intros x Hx; apply in_app_iff; right; apply in_app_iff; right; exact Hx|]. rewrite E3. cbn [snd].
  f_equal. f_equal. f_equal. f_equal. f_equal. clear - HR. revert is. generalize (map (fun o => map fingerprint (g_regions o)) ops). induction HR as [|o o' ops ops' Ho HR IH]; intros regs is; [reflexivity|]. destruct is as [|i is]; [reflexivity|]. destruct regs as [|g regs]; [reflexivity|]. cbn [zip3]. rewrite (op_fp_rel r o o' i g Ho), IH. reflexivity.
Qed.

(* ---------------------------------------------------------------- separation *)
Hypothesis sha_inj : forall a b, sha a = sha b -> a = b.

Lemma all_some_map_inj : forall (l : list pv), all exact l -> (forall x, In x l -> forall y, exact y -> stable x = stable y -> x = y) ->
  forall m, all exact m -> all_some (map stable l) = all_some (map stable m) -> all_some (map stable l) <> None -> l = m.
Proof.
  induction l as [|x l IH]; intros E HI [|y m] E' H N; cbn [map all_some] in *.
  - reflexivity.
  - destruct (stable y); [|discriminate H]. destruct (all_some (map stable m)); discriminate H.
  - destruct (stable x); [|congruence]. destruct (all_some (map stable l)); discriminate H.
  - destruct E as [Ex El], E' as [Ey Em]. destruct (stable x) as [jx|] eqn:Sx; [|congruence]. destruct (stable y) as [jy|] eqn:Sy; [|destruct (all_some (map stable l)); [discriminate H|cbn in N; congruence]].
    destruct (all_some (map stable l)) as [jl|] eqn:Sl; [|cbn in N; congruence]. destruct (all_some (map stable m)) as [jm|] eqn:Sm; [|discriminate H]. cbn in H. injection H as <- <-.
    f_equal; [apply HI; [left; reflexivity|exact Ey|congruence]|apply IH; [exact El|intros z Hz; apply HI; right; exact Hz|exact Em|congruence|discriminate]].
Qed.
Lemma exact_some : forall x, exact x -> exists j, stable x = Some j.
Proof.
  fix IH 1. intros x E. destruct x; cbn in E; try contradiction; cbn [ExecKeyModel.stable]; eauto.
  assert (exists js, all_some (map stable l) = Some js) as (js & ->); [|cbn; eauto].
  induction l as [|x l IHl]; cbn [map all_some]; [eauto|]. destruct E as [Ex El]. destruct (IH x Ex) as (j & ->). destruct (IHl El) as (js & ->). cbn. eauto.
Qed.
Lemma map_inj {A B : Type} (f : A -> B) : (forall x y, f x = f y -> x = y) -> forall l l', map f l = map f l' -> l = l'.
Proof. intros H. induction l as [|x l IH]; intros [|y l'] E; try discriminate E; [reflexivity|]. cbn in E. injection E as E1 E2. f_equal; auto. Qed.
Lemma stable_inj : forall x, exact x -> forall y, exact y -> stable x = stable y -> x = y.
Proof.
  fix IH 1. intros x E y E' H. destruct x; cbn in E; try contradiction; destruct y; cbn in E'; try contradiction; cbn [ExecKeyModel.stable] in H;
    try discriminate H; try (injection H as ->; reflexivity);
    try (destruct (all_some (map stable l)); discriminate H).
  - injection H as E1 E2 E3. apply sha_inj in E3. apply (map_inj JInt) in E2; [|intros a b Q; injection Q as ->; reflexivity]. subst. reflexivity.
  - assert (all_some (map stable l) <> None) as N.
    { destruct (exact_some (PList l) E) as (j & Hj). cbn in Hj. destruct (all_some (map stable l)); [discriminate|discriminate Hj]. }
    f_equal. apply (all_some_map_inj l); auto.
    + clear - IH E. intros x Hx. induction l as [|a l IHl]; [destruct Hx|]. destruct E as [Ea El]. destruct Hx as [<-|Hx]; [intros y Ey; apply IH; assumption|apply IHl; assumption].
    + destruct (all_some (map stable l)), (all_some (map stable l0)); cbn in H; congruence.
  - injection H as _ E1. apply sha_inj in E1. subst. reflexivity.
Qed.

Definition enc (p : string * pv) : list json := match stable (snd p) with Some v => [JArr [JStr (fst p); v]] | None => [] end.
Lemma attrs_inj (s : list (string * pv)) : forall s', NoDup (map fst s) ->
  all (fun p => snd p = PNone \/ exact (snd p)) s -> all (fun p => snd p = PNone \/ exact (snd p)) s' ->
  map (fun p => JStr (fst p)) s = map (fun p => JStr (fst p)) s' -> flat_map enc s = flat_map enc s' -> s = s'.
Proof.
  assert (forall (s : list (string * pv)) k v js, flat_map enc s = JArr [JStr k; v] :: js -> In k (map fst s)) as HK.
  { clear s. induction s as [|[k' v'] s IH]; intros k v js H; [discriminate H|]. cbn [flat_map] in H. unfold enc in H at 1. cbn [fst snd] in H. cbn [map fst]. destruct (stable v'); cbn [app] in H; [injection H as <- _ _; left; reflexivity|right; eauto]. }
  induction s as [|[k v] s IH]; intros [|[k' v'] s'] ND A A' K F; try discriminate K; [reflexivity|]. cbn in K. injection K as <- K. destruct A as [Av As], A' as [Av' As']. cbn [snd fst] in *.
  cbn [map fst] in ND. inversion ND as [|? ? N1 ND1]; subst. assert (map fst s = map fst s') as EK by (apply (map_inj JStr); [intros a b Q; injection Q as ->; reflexivity|rewrite !map_map; exact K]).
  cbn [flat_map] in F. unfold enc in F at 1 3. cbn [snd fst] in F.
  destruct Av as [-> |Av], Av' as [-> |Av'].
  - cbn in F. f_equal. apply IH; auto.
  - exfalso. destruct (exact_some v' Av') as (j & Hj). rewrite Hj in F. cbn in F. apply N1. exact (HK _ _ _ _ F).
  - exfalso. destruct (exact_some v Av) as (j & Hj). rewrite Hj in F. cbn in F. apply N1. rewrite EK. symmetry in F. exact (HK _ _ _ _ F).
  - destruct (exact_some v Av) as (j & Hj), (exact_some v' Av') as (j' & Hj'). rewrite Hj, Hj' in F. cbn in F. injection F as <- F. rewrite (stable_inj v Av v' Av') by congruence. f_equal. apply IH; auto.
Qed.

Lemma index_list_closed l : forall env, incl l env -> fst (index_list env l) = env /\ map Some (snd (index_list env l)) = map (fun x => find_pos x env) l.
Proof.
  induction l as [|x l IH]; intros env I; cbn [index_list map]; [auto|]. unfold index. destruct (find_pos_in x env (I x (or_introl eq_refl))) as (i & Hi). rewrite Hi.
  destruct (IH env (fun y Hy => I y (or_intror Hy))) as [E1 E2]. destruct (index_list env l) as [env1 is]. cbn [fst snd map] in *. rewrite E2. auto.
Qed.
Lemma index_lists_closed ls : forall env, incl (List.concat ls) env -> fst (index_lists env ls) = env /\ map (map Some) (snd (index_lists env ls)) = map (map (fun x => find_pos x env)) ls.
Proof.
  induction ls as [|l ls IH]; intros env I; cbn [index_lists map]; [auto|]. destruct (index_list_closed l env (fun y Hy => I y (in_or_app _ _ _ (or_introl Hy)))) as [E1 E2]. destruct (index_list env l) as [env1 is]. cbn [fst snd] in E1, E2. subst env1.
  destruct (IH env (fun y Hy => I y (in_or_app _ _ _ (or_intror Hy)))) as [E3 E4]. destruct (index_lists env ls) as [env2 iss]. cbn [fst snd map] in *. rewrite E2, E4. auto.
Qed.
Lemma index_list_fresh l : forall env, NoDup (env ++ l) -> fst (index_list env l) = env ++ l.
Proof.
  induction l as [|x l IH]; intros env ND; cbn [index_list]; [symmetry; apply app_nil_r|]. unfold index.
  rewrite find_pos_none by (apply NoDup_remove_2 in ND; intros H; apply ND, in_app_iff; left; exact H). rewrite (app_assoc env [x] l : env ++ x :: l = (env ++ [x]) ++ l) in *.
  specialize (IH (env ++ [x]) ND). destruct (index_list (env ++ [x]) l). exact IH.
Qed.
Lemma graph_env_names ins ops : NoDup (map fst (graph_names ins ops)) -> graph_env ins ops = map fst (@graph_names pv ins ops).
Proof.
  intros ND. unfold graph_env, graph_names in *. rewrite map_app in *. assert (flat_map (fun o : gop pv => map fst (g_outs o)) ops = map fst (flat_map g_outs ops)) as E.
  { clear. induction ops as [|o ops IH]; cbn; [reflexivity|]. rewrite map_app, IH. reflexivity. }
  rewrite E. apply (index_list_fresh _ []). exact ND.
Qed.
Lemma jnats_inj a b : jnats a = jnats b -> a = b.
Proof. intros H. injection H as H. revert H. apply map_inj. intros x y Q. injection Q as Q. lia. Qed.
Lemma jtypes_inj a : forall b, all (fun v => clear (snd v)) a -> all (fun v => clear (snd v)) b -> jtypes a = jtypes b -> map snd a = map (@snd string ty) b.
Proof.
  unfold jtypes. induction a as [|x a IH]; intros [|y b] C C' H; try discriminate H; [reflexivity|]. cbn in H. injection H as H1 H2. destruct C as [Cx Ca], C' as [Cy Cb]. cbn [map]. f_equal; [apply ty_str_clear; assumption|]. apply IH; auto. congruence.
Qed.
Definition good_op (o : gop pv) : Prop := all (fun v => clear (snd v)) (g_outs o) /\ NoDup (map fst (g_attrs o)) /\ all (fun p => snd p = PNone \/ exact (snd p)) (g_attrs o) /\ all good (g_regions o).
(** what equal entries say about two operations *)
Definition op_sim (o o' : gop pv) (i i' : list nat) : Prop :=
  g_opcode o' = g_opcode o /\ i = i' /\ map snd (g_outs o) = map snd (g_outs o') /\ Permutation (g_attrs o) (g_attrs o') /\ map fingerprint (g_regions o) = map fingerprint (g_regions o').
Lemma all_perm {A} (P : A -> Prop) l l' : Permutation l l' -> all P l -> all P l'.
Proof. intros H A0. apply all_Forall in A0. apply all_Forall. exact (Permutation_Forall H A0). Qed.
Lemma op_fp_inj o o' i i' : good_op o -> good_op o' -> op_fp o i (map fingerprint (g_regions o)) = op_fp o' i' (map fingerprint (g_regions o')) -> op_sim o o' i i'.
Proof.
  intros (C & ND & A & _) (C' & ND' & A' & _) H. unfold ExecKeyModel.op_fp in H. injection H as E1 E2 E3 E4 E5 E6. split; [auto|]. split; [apply jnats_inj; unfold jnats; congruence|]. split; [apply jtypes_inj; auto; unfold jtypes; congruence|]. split; [|exact E6].
  assert (sort_keys (g_attrs o) = sort_keys (g_attrs o')) as E.
  { apply attrs_inj; [apply sort_nodup, ND|exact (all_perm _ _ _ (sort_perm _) A)|exact (all_perm _ _ _ (sort_perm _) A')|exact E4|exact E5]. }
  rewrite (sort_perm (g_attrs o)), E. symmetry. apply sort_perm.
Qed.
Lemma zip3_inj ops : forall ops' is is', Forall good_op ops -> Forall good_op ops' -> List.length is = List.length ops -> List.length is' = List.length ops' ->
  zip3 op_fp ops is (map (fun o => map fingerprint (g_regions o)) ops) = zip3 op_fp ops' is' (map (fun o => map fingerprint (g_regions o)) ops') ->
  is = is' /\ Forall2 (fun o o' => op_sim o o' [] []) ops ops'.
Proof.
  induction ops as [|o ops IH]; intros [|o' ops'] [|i is] [|i' is'] G G' L L' H; try discriminate L; try discriminate L'; cbn [map zip3] in H; try discriminate H; [auto|].
  assert (forall (a b : json) l l', a :: l = b :: l' -> a = b /\ l = l') as CI by (intros a b l l' Q; injection Q as -> ->; auto). apply CI in H. destruct H as [H1 H2]. inversion G; subst. inversion G'; subst. cbn in L, L'. destruct (IH ops' is is') as [-> HF]; auto.
  assert (op_sim o o' i i') as S by (apply op_fp_inj; auto). destruct S as (S1 & -> & S2 & S3 & S4). split; [reflexivity|]. constructor; [|exact HF]. repeat split; auto.
Qed.

Lemma nth_error_ext {A} : forall (l l' : list A), (forall i, nth_error l i = nth_error l' i) -> l = l'.
Proof. induction l as [|x l IH]; intros [|y l'] H; [reflexivity|discriminate (H 0)|discriminate (H 0)|]. pose proof (H 0) as E. injection E as ->. f_equal. apply IH. intros i. exact (H (S i)). Qed.
Section TwoEnvs.
  Variables N N' : list string.
  Hypothesis ND : NoDup N. Hypothesis ND' : NoDup N'. Hypothesis LN : List.length N = List.length N'.
  Definition ren (x : string) : string := match find_pos x N with Some i => nth i N' x | None => x end.
  Lemma ren_nth i x : nth_error N i = Some x -> nth_error N' i = Some (ren x).
  Proof. intros H. unfold ren. rewrite (nth_find_pos x N i ND H). apply nth_error_nth'. rewrite <- LN. apply nth_error_Some. congruence. Qed.
  Lemma ren_inj x y : In x N -> In y N -> ren x = ren y -> x = y.
  Proof.
    intros Hx Hy E. apply In_nth_error in Hx. apply In_nth_error in Hy. destruct Hx as (i & Hi), Hy as (j & Hj). pose proof (ren_nth i x Hi) as A. pose proof (ren_nth j y Hj) as B.
    assert (i = j) as -> by (apply (proj1 (NoDup_nth_error N') ND'); [apply nth_error_Some; congruence|congruence]). congruence.
  Qed.
  Lemma ren_all : map ren N = N'.
  Proof.
    apply nth_error_ext. intros i. rewrite nth_error_map. destruct (nth_error N i) as [x|] eqn:E; cbn; [symmetry; apply ren_nth, E|]. symmetry. apply nth_error_None. rewrite <- LN. apply nth_error_None, E.
  Qed.
  Lemma ren_pos x x' : In x N -> find_pos x N = find_pos x' N' -> x' = ren x.
  Proof. intros Hx E. destruct (find_pos_in x N Hx) as (i & Hi). rewrite Hi in E. symmetry in E. apply find_pos_nth in Hi. apply find_pos_nth in E. pose proof (ren_nth i x Hi). congruence. Qed.
  Lemma ren_list l : forall l', incl l N -> map (fun x => find_pos x N) l = map (fun x => find_pos x N') l' -> l' = map ren l.
  Proof. induction l as [|x l IH]; intros [|x' l'] I H; try discriminate H; [reflexivity|]. cbn in H. injection H as H1 H2. cbn [map]. rewrite <- (ren_pos x x'), <- (IH l'); auto; [intros y Hy; apply I; right; exact Hy|apply I; left; reflexivity]. Qed.
End TwoEnvs.
Lemma app_inj_len {A} (a : list A) : forall b c d, List.length a = List.length c -> a ++ b = c ++ d -> a = c /\ b = d.
Proof. induction a as [|x a IH]; intros b [|y c] d L H; try discriminate L; cbn in *; [auto|]. injection L as L. injection H as <- H. destruct (IH b c d L H). subst. auto. Qed.
Lemma pair_list (l : list (string * ty)) : forall (l' : list (string * ty)) (f : string -> string), map f (map fst l) = map fst l' -> map snd l = map snd l' -> l' = map (fun v => (f (fst v), snd v)) l.
Proof. induction l as [|[x t] l IH]; intros [|[x' t'] l'] f H H'; cbn in *; try discriminate; [reflexivity|]. injection H as <- H. injection H' as <- H'. f_equal. apply IH; auto. Qed.

Lemma fingerprint_inj : forall g h, good g -> good h -> fingerprint g = fingerprint h -> alpha g h.
Proof.
  apply (graph_ind (fun g => forall h, good g -> good h -> fingerprint g = fingerprint h -> alpha g h)); [|intros x N h G; destruct x; try contradiction G; elim (N ins ops outs); reflexivity].
  intros ins ops outs IH h G G' H. destruct h as [| | | | | | | | | | | | | | | | |ins' ops' outs'| | | | | | |]; try contradiction.
  cbn [good] in G, G'. destruct G as (ND & CL & Ci & Go), G' as (ND' & CL' & Ci' & Go').
  cbn [ExecKeyModel.fingerprint] in H. rewrite (graph_env_names ins ops ND), (graph_env_names ins' ops' ND') in H.
  set (N := map fst (graph_names ins ops)) in *. set (N' := map fst (graph_names ins' ops')) in *.
  destruct (index_lists_closed (map g_ins ops) N) as [E1 E2]; [intros x Hx; apply CL, in_app_iff; left; rewrite flat_map_concat_map; exact Hx|].
  destruct (index_lists_closed (map g_ins ops') N') as [E1' E2']; [intros x Hx; apply CL', in_app_iff; left; rewrite flat_map_concat_map; exact Hx|].
  destruct (index_lists N (map g_ins ops)) as [env is], (index_lists N' (map g_ins ops')) as [env' is']. cbn [fst snd] in E1, E1', E2, E2'. subst env env'.
  destruct (index_list_closed outs N) as [_ E3]; [intros x Hx; apply CL, in_app_iff; right; exact Hx|].
  destruct (index_list_closed outs' N') as [_ E3']; [intros x Hx; apply CL', in_app_iff; right; exact Hx|].
  assert (Forall good_op ops) as GO by (apply all_Forall; exact Go). assert (Forall good_op ops') as GO' by (apply all_Forall; exact Go').
  injection H as H1 H2 H3.
  assert (map snd ins = map snd ins') as T by (apply jtypes_inj; auto; unfold jtypes; congruence).
  assert (List.length is = List.length ops) as L1 by (apply (f_equal (@List.length _)) in E2; rewrite !map_length in E2; exact E2).
  assert (List.length is' = List.length ops') as L1' by (apply (f_equal (@List.length _)) in E2'; rewrite !map_length in E2'; exact E2').
  destruct (zip3_inj ops ops' is is' GO GO' L1 L1' H2) as [<- HS].
  assert (snd (index_list N outs) = snd (index_list N' outs')) as EO by (apply jnats_inj; unfold jnats; congruence). rewrite EO in E3. rewrite E3 in E3'.
  assert (Forall2 (fun o o' => List.length (g_outs o) = List.length (g_outs o')) ops ops') as LO.
  { clear - HS. induction HS as [|o o' ops ops' S HS IH2]; constructor; auto. destruct S as (_ & _ & S & _). apply (f_equal (@List.length _)) in S. rewrite !map_length in S. exact S. }
  assert (List.length (flat_map g_outs ops) = List.length (flat_map g_outs ops')) as LF.
  { clear - LO. induction LO as [|o o' ops ops' S HS IH2]; cbn [flat_map]; [reflexivity|]. rewrite !app_length. lia. }
  assert (List.length ins = List.length ins') as LI by (apply (f_equal (@List.length _)) in T; rewrite !map_length in T; exact T).
  assert (List.length N = List.length N') as LN by (unfold N, N', graph_names; rewrite !map_length, !app_length; lia).
  set (r := ren N N'). pose proof (ren_all N N' ND LN) as RA. change (ren N N') with r in RA.
  assert (map r (map fst ins) = map fst ins' /\ map r (map fst (flat_map g_outs ops)) = map fst (flat_map g_outs ops')) as [RI RO].
  { unfold N, N', graph_names in RA. rewrite !map_app in RA. apply app_inj_len in RA; [exact RA|rewrite !map_length; exact LI]. }
  apply (Alpha r).
  - intros x y Hx Hy. apply (ren_inj N N' ND ND' LN); [apply in_app_iff in Hx; destruct Hx as [Hx|Hx]; [exact Hx|exact (CL x Hx)]|apply in_app_iff in Hy; destruct Hy as [Hy|Hy]; [exact Hy|exact (CL y Hy)]].
  - exact (pair_list ins ins' r RI T).
  - assert (Forall2 (fun o o' => g_ins o' = map r (g_ins o)) ops ops') as FI.
    { assert (incl (flat_map g_ins ops) N) as I by (intros x Hx; apply CL, in_app_iff; left; exact Hx). rewrite E2 in E2'. unfold r. clear - E2' I ND ND' LN. clearbody N N'. revert ops' E2' I. induction ops as [|o ops IHo]; intros [|o' ops'] E I; try discriminate E; constructor.
      - cbn in E. injection E as E _. apply (ren_list N N' ND LN); [|exact E]. intros x Hx. apply I. cbn. apply in_app_iff. left. exact Hx.
      - cbn in E. injection E as _ E. apply IHo; [exact E|]. intros x Hx. apply I. cbn. apply in_app_iff. right. exact Hx. }
    assert (Forall2 (fun o o' => g_outs o' = map (fun v => (r (fst v), snd v)) (g_outs o)) ops ops') as FO.
    { clearbody r. clear - RO HS LO. revert RO. induction HS as [|o o' ops ops' S HS IH2]; intros RO; constructor; inversion LO as [|? ? ? ? Lo LO']; subst; cbn [flat_map] in RO; rewrite !map_app in RO; apply app_inj_len in RO; try (rewrite !map_length; exact Lo); destruct RO as [RO1 RO2]; [|apply IH2; assumption].
      destruct S as (_ & _ & S & _). apply pair_list; [exact RO1|exact S]. }
    clearbody r. clear - IH HS FI FO GO GO'. revert ops' HS FI FO GO'. induction ops as [|o ops IHo]; intros ops' HS FI FO GO'; inversion HS as [|? o' ? ops1 S1 S2]; subst; [constructor|].
    inversion FI; subst. inversion FO; subst. inversion GO as [|? ? G1 G2]; subst. inversion GO' as [|? ? G1' G2']; subst. constructor; [|apply IHo; auto; intros p x Hp; apply IH; right; exact Hp].
    destruct S1 as (S1 & _ & _ & S3 & S4). destruct G1 as (_ & G1 & _ & Gr), G1' as (_ & _ & _ & Gr').
    split; [exact S1|]. split; [assumption|]. split; [assumption|]. split; [exact S3|]. split; [exact G1|]. 
    assert (forall x, In x (g_regions o) -> forall h, good x -> good h -> fingerprint x = fingerprint h -> alpha x h) as IHr by (intros x; apply IH; left; reflexivity). clear - IHr S4 Gr Gr'. revert S4 Gr Gr' IHr. generalize (g_regions o) (g_regions o').
    induction l as [|x rg IHl]; intros [|y l] S4 Gr Gr' IHr; try discriminate S4; [constructor|]. cbn in S4. injection S4 as S5 S6. destruct Gr as [Gx Gl], Gr' as [Gy Gm]. constructor; [apply IHr; auto; left; reflexivity|apply IHl; auto; intros z Hz; apply IHr; right; exact Hz].
  - apply (ren_list N N' ND LN); [intros x Hx; apply CL, in_app_iff; right; exact Hx|exact E3'].
Qed.
End K.
