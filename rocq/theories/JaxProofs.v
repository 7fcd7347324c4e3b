(** Proofs about [tensor.run_jax] (model in JaxModel.v). *)
From Coq Require Import String.
From Coq Require Import List ZArith Bool Arith Lia.
From Verif Require Import JaxSpec JaxModel.
Import ListNotations.

Lemma dt_eqb_eq : forall a b, dt_eqb a b = true <-> a = b.
Proof. intros a b; destruct a, b; simpl; split; intros; congruence. Qed.
Lemma dt_eqb_refl : forall a, dt_eqb a a = true.
Proof. intros a; apply dt_eqb_eq; reflexivity. Qed.
Lemma zlist_eqb_eq : forall a b, zlist_eqb a b = true <-> a = b.
Proof.
  induction a as [|x a IH]; intros [|y b]; simpl; split; intros H; try congruence.
  - apply andb_true_iff in H; destruct H as [H1 H2].
    apply Z.eqb_eq in H1; apply IH in H2; congruence.
  - injection H as -> ->; rewrite Z.eqb_refl; simpl; apply IH; reflexivity.
Qed.
Lemma ty_eqb_eq : forall s t, ty_eqb s t = true <-> s = t.
Proof.
  intros [a b] [c d]; unfold ty_eqb; simpl; rewrite andb_true_iff, dt_eqb_eq, zlist_eqb_eq.
  split; [intros [-> ->]; reflexivity | intros H; injection H; auto].
Qed.
Lemma tys_eqb_eq : forall a b, tys_eqb a b = true <-> a = b.
Proof.
  induction a as [|x a IH]; intros [|y b]; simpl; split; intros H; try congruence.
  - apply andb_true_iff in H; destruct H as [H1 H2].
    apply ty_eqb_eq in H1; apply IH in H2; congruence.
  - injection H as -> ->. rewrite (proj2 (ty_eqb_eq y y) eq_refl); simpl; apply IH; reflexivity.
Qed.

Lemma cast_dt : forall J d a, a_dt (cast J d a) = d.
Proof.
  intros J d a; unfold cast; destruct (dt_eqb (a_dt a) d) eqn:E; simpl; auto.
  apply dt_eqb_eq; auto.
Qed.
Lemma cast_shape : forall J d a, a_shape (cast J d a) = a_shape a.
Proof. intros J d a; unfold cast; destruct (dt_eqb (a_dt a) d); reflexivity. Qed.
Lemma cast_same : forall J a, cast J (a_dt a) a = a.
Proof. intros J a; unfold cast; rewrite dt_eqb_refl; reflexivity. Qed.
Lemma canon_canon : forall b d, canon b (canon b d) = canon b d.
Proof. intros [] []; reflexivity. Qed.

(** *** keep maps *)
Lemma positions_lt : forall keep n i, In i (positions n keep) -> n <= i < n + length keep.
Proof.
  induction keep as [|[] ks IH]; simpl; intros n i H; [contradiction| |].
  - destruct H as [<-|H]; [lia | apply IH in H; lia].
  - apply IH in H; lia.
Qed.
Lemma positions_length : forall keep n, length (positions n keep) <= length keep.
Proof. induction keep as [|[] ks IH]; simpl; intros n; [lia| |]; specialize (IH (S n)); lia. Qed.
Lemma positions_all : forall keep n, length (positions n keep) = length keep ->
  keep = map (fun _ => true) keep.
Proof.
  induction keep as [|[] ks IH]; simpl; intros n H; auto.
  - f_equal; apply (IH (S n)); lia.
  - pose proof (positions_length ks (S n)); lia.
Qed.
Lemma mapM_nth_positions : forall (keep : list bool) (xs pre : list arr),
  length keep = length xs ->
  mapM (fun i => nth_error (pre ++ xs) i) (positions (length pre) keep)
  = Some (select keep xs).
Proof.
  induction keep as [|k ks IH]; intros [|x xs] pre H; simpl in *; try discriminate; auto.
  injection H as H.
  specialize (IH xs (pre ++ [x]) H).
  rewrite <- app_assoc in IH; simpl in IH.
  rewrite app_length in IH; simpl in IH; rewrite Nat.add_1_r in IH.
  destruct k; simpl.
  - rewrite nth_error_app2 by lia; rewrite Nat.sub_diag; simpl; rewrite IH; reflexivity.
  - exact IH.
Qed.
Lemma select_all : forall {A B} (ks : list A) (xs : list B),
  length ks = length xs -> select (map (fun _ => true) ks) xs = xs.
Proof.
  intros A B; induction ks as [|k ks IH]; intros [|x xs] H; simpl in *; try discriminate; auto.
  f_equal; apply IH; lia.
Qed.
Lemma select_map : forall {A B} (f : A -> B) keep xs, select keep (map f xs) = map f (select keep xs).
Proof.
  intros A B f; induction keep as [|[] ks IH]; intros [|x xs]; simpl; auto; f_equal; auto.
Qed.

Lemma filter_args_select : forall keep n xs,
  length keep = n -> length xs = n ->
  filter_args (if length (positions 0 keep) <? n then Some (positions 0 keep) else None) xs
  = Some (select keep xs).
Proof.
  intros keep n xs H1 H2.
  destruct (length (positions 0 keep) <? n) eqn:E.
  - simpl. apply (mapM_nth_positions keep xs []); lia.
  - apply Nat.ltb_ge in E. pose proof (positions_length keep 0).
    rewrite (positions_all keep 0) by lia.
    rewrite select_all by lia. reflexivity.
Qed.

(** *** expand *)
Definition types1 (ps : list ptype) := map (inst (fun _ => 1%Z)) ps.

Lemma type_zeros : forall p, type_of (zeros p) = inst (fun _ => 1%Z) p.
Proof. reflexivity. Qed.

Lemma expand_types : forall ps keep xs,
  length keep = length ps ->
  map type_of xs = select keep (types1 ps) ->
  map type_of (expand ps keep xs) = types1 ps.
Proof.
  induction ps as [|p ps IH]; intros [|k ks] xs Hl H; simpl in *; try discriminate; auto.
  injection Hl as Hl. destruct k.
  - destruct xs as [|x xs]; simpl in H; [discriminate|]. injection H as H1 H2.
    simpl. rewrite IH by assumption. f_equal. unfold type_of, inst. congruence.
  - simpl. rewrite IH by assumption. reflexivity.
Qed.

Lemma expand_select : forall ps keep xs i,
  length keep = length ps -> length xs = length ps ->
  nth i keep false = true ->
  nth_error (expand ps keep (select keep xs)) i = nth_error xs i.
Proof.
  induction ps as [|p ps IH]; intros [|k ks] [|x xs] i Hl Hx H; simpl in *; try discriminate;
    try (destruct i; discriminate).
  injection Hl as Hl; injection Hx as Hx.
  destruct i as [|i]; simpl in *.
  - subst k; reflexivity.
  - destruct k; simpl; apply IH; assumption.
Qed.

Lemma run_module_all : forall (J : jaxlib) (L : jax_laws J) m xs,
  h_keep m = pg_uses J (h_prog m) ->
  length (h_keep m) = length (h_params m) ->
  map type_of xs = types1 (h_params m) ->
  run_module (pg_fn J) m (select (h_keep m) xs) = Some (pg_fn J (h_prog m) xs).
Proof.
  intros J L m xs Hk Hl Ht. unfold run_module.
  assert (Hx : length xs = length (h_params m)).
  { apply (f_equal (@length _)) in Ht. unfold types1 in Ht. rewrite !map_length in Ht; exact Ht. }
  assert (E : map type_of (select (h_keep m) xs) = select (h_keep m) (types1 (h_params m))).
  { rewrite <- select_map, Ht. reflexivity. }
  unfold types1 in E. rewrite (proj2 (tys_eqb_eq _ _) E). f_equal.
  apply (law_uses J L).
  - rewrite <- Hk, Hl.
    pose proof (expand_types (h_params m) (h_keep m) (select (h_keep m) xs) Hl E) as T.
    apply (f_equal (@length _)) in T. unfold types1 in T. rewrite !map_length in T. exact T.
  - rewrite (expand_types _ _ _ Hl E). symmetry; exact Ht.
  - intros i Hi. apply expand_select; congruence.
Qed.

(** *** placeholders *)
Lemma mapM_length : forall {A B} (f : A -> option B) l r, mapM f l = Some r -> length r = length l.
Proof.
  intros A B f; induction l as [|x l IH]; simpl; intros r H.
  - injection H as <-; reflexivity.
  - destruct (f x); [|discriminate]. destruct (mapM f l) eqn:E; [|discriminate].
    injection H as <-; simpl; f_equal; apply IH; reflexivity.
Qed.
Lemma enum_length : forall {A} (l : list A) n, length (enum_from n l) = length l.
Proof. intros A; induction l; simpl; intros; auto. Qed.

(** the size that dimension [j] of input [i] must have under [env] *)
Definition dim_under (sym : option (list (list (option string)))) (env : string -> Z)
    (i j : nat) (o : option Z) : option Z :=
  match o with
  | None => None
  | Some d => if (d =? -1)%Z
              then match get_symbolic_name sym i j with Some s => Some (env s) | None => None end
              else Some d
  end.

Lemma make_dims_inst : forall sym env i dims j ds,
  mapM (make_dim sym i) (enum_from j dims) = Some ds ->
  map Some (map (dim_val env) ds) =
  map (fun p => dim_under sym env i (fst p) (snd p)) (enum_from j dims).
Proof.
  intros sym env i; induction dims as [|o dims IH]; simpl; intros j ds H.
  - injection H as <-; reflexivity.
  - destruct (make_dim sym i (j, o)) as [pd|] eqn:E; [|discriminate].
    destruct (mapM (make_dim sym i) (enum_from (S j) dims)) as [ds'|] eqn:E2; [|discriminate].
    injection H as <-. simpl. f_equal; [|apply IH; assumption].
    unfold make_dim in E; simpl in E. unfold dim_under.
    destruct o as [d|]; [|discriminate].
    destruct (d <? -1)%Z; [discriminate|].
    destruct (d =? -1)%Z.
    + destruct (get_symbolic_name sym i j); simpl in E; [|discriminate].
      injection E as <-; reflexivity.
    + injection E as <-; reflexivity.
Qed.

Lemma make_dims_static : forall sym i dims j ds,
  Forall (fun o => exists d, o = Some d /\ (0 <= d)%Z) dims ->
  mapM (make_dim sym i) (enum_from j dims) = Some ds ->
  forallb pdim_static ds = true.
Proof.
  intros sym i; induction dims as [|o dims IH]; simpl; intros j ds F H.
  - injection H as <-; reflexivity.
  - inversion F as [|? ? [d [-> Hd]] F']; subst.
    unfold make_dim at 1 in H; simpl in H.
    destruct (d <? -1)%Z eqn:E0; [discriminate|].
    destruct (d =? -1)%Z eqn:E1; [apply Z.eqb_eq in E1; lia|].
    destruct (mapM (make_dim sym i) (enum_from (S j) dims)) as [ds'|] eqn:E2; [|discriminate].
    injection H as <-; simpl. eapply IH; eauto.
Qed.

Lemma placeholders_static : forall sym vars n phs,
  Forall static_decl vars ->
  mapM (make_placeholder sym) (enum_from n vars) = Some phs -> static_types phs = true.
Proof.
  intros sym; induction vars as [|v vars IH]; simpl; intros n phs F H.
  - injection H as <-; reflexivity.
  - inversion F as [|? ? Hv F']; subst.
    destruct (make_placeholder sym (n, v)) as [p|] eqn:E; [|discriminate].
    destruct (mapM (make_placeholder sym) (enum_from (S n) vars)) as [ps|] eqn:E2; [|discriminate].
    injection H as <-. simpl. rewrite (IH _ _ F' E2), andb_true_r.
    unfold make_placeholder in E; simpl in E. destruct v as [d dims|d|]; [| |discriminate].
    + destruct (mapM (make_dim sym n) (enum_from 0 dims)) as [ds|] eqn:E3; [|discriminate].
      injection E as <-. unfold static_type; simpl. eapply make_dims_static; eauto.
    + injection E as <-; reflexivity.
Qed.

Lemma map_Some_inj : forall {A} (a b : list A), map Some a = map Some b -> a = b.
Proof.
  intros A; induction a as [|x a IH]; intros [|y b] H; simpl in H; try discriminate; auto.
  injection H as -> H; f_equal; auto.
Qed.

(** without symbolic_shapes every unknown dimension is the one symbol n_rows *)
Lemma dims_none : forall n i env dims j,
  env "n_rows"%string = n ->
  map (fun p => dim_under None env i (fst p) (snd p)) (enum_from j dims) =
  map (option_map (fun d => if (d =? -1)%Z then n else d)) dims.
Proof.
  intros n i env; induction dims as [|o dims IH]; simpl; intros j H; auto.
  f_equal; [|apply IH; assumption].
  destruct o as [d|]; simpl; auto. destruct (d =? -1)%Z; simpl; congruence.
Qed.

Lemma dims_static_any : forall sym i env n dims j,
  Forall (fun o => exists d, o = Some d /\ (0 <= d)%Z) dims ->
  map (fun p => dim_under sym env i (fst p) (snd p)) (enum_from j dims) =
  map (option_map (fun d => if (d =? -1)%Z then n else d)) dims.
Proof.
  intros sym i env n; induction dims as [|o dims IH]; simpl; intros j F; auto.
  inversion F as [|? ? [d [-> Hd]] F']; subst. f_equal; [|apply IH; assumption].
  simpl. destruct (d =? -1)%Z eqn:E; [apply Z.eqb_eq in E; lia | reflexivity].
Qed.

(** an argument has the type of its placeholder iff it fits its declaration *)
Lemma placeholder_type : forall sym env n i v p a,
  (sym = None /\ env "n_rows"%string = n \/ static_decl v) ->
  make_placeholder sym (i, v) = Some p ->
  (type_of a = inst env p <-> (a_dt a = decl_dt v /\ fits n v a)).
Proof.
  intros sym env n i v p a Hs H. unfold make_placeholder in H; simpl in H.
  destruct v as [d dims|d|]; [| |discriminate].
  - destruct (mapM (make_dim sym i) (enum_from 0 dims)) as [ds|] eqn:E; [|discriminate].
    injection H as <-. unfold type_of, inst; simpl.
    pose proof (make_dims_inst sym env i dims 0 ds E) as D.
    assert (D' : map Some (map (dim_val env) ds) =
                 map (option_map (fun d0 => if (d0 =? -1)%Z then n else d0)) dims).
    { rewrite D. destruct Hs as [[-> Hn]|Hs]; [apply dims_none; assumption|].
      apply dims_static_any; exact Hs. }
    rewrite <- D'. split.
    + intros T; injection T as T1 T2. split; [assumption|]. rewrite T2; reflexivity.
    + intros [T1 T2]. apply map_Some_inj in T2. congruence.
  - injection H as <-. unfold type_of, inst; simpl. split.
    + intros T; injection T as T1 T2; auto.
    + intros [T1 [T2 T3]]; congruence.
Qed.

Lemma placeholders_types : forall sym env n vars i phs args,
  (forall v, In v vars -> sym = None /\ env "n_rows"%string = n \/ static_decl v) ->
  mapM (make_placeholder sym) (enum_from i vars) = Some phs ->
  (map type_of args = map (inst env) phs <->
   Forall2 (fun v a => a_dt a = decl_dt v /\ fits n v a) vars args).
Proof.
  intros sym env n; induction vars as [|v vars IH]; intros i phs args Hs H; simpl in H.
  - injection H as <-. destruct args; simpl; split; intros X; auto; try discriminate.
    inversion X.
  - destruct (make_placeholder sym (i, v)) as [p|] eqn:E; [|discriminate].
    destruct (mapM (make_placeholder sym) (enum_from (S i) vars)) as [ps|] eqn:E2; [|discriminate].
    injection H as <-. destruct args as [|a args]; simpl; split; intros X; try discriminate.
    + inversion X.
    + assert (X1 : type_of a = inst env p) by congruence.
      assert (X2 : map type_of args = map (inst env) ps) by congruence. constructor.
      * eapply placeholder_type; eauto. apply Hs; left; reflexivity.
      * eapply IH; eauto. intros; apply Hs; right; assumption.
    + inversion X as [|? ? ? ? X1 X2]; subst. f_equal.
      * eapply (placeholder_type sym env n i v p a); eauto. apply Hs; left; reflexivity.
      * eapply (IH (S i) ps args); eauto. intros; apply Hs; right; assumption.
Qed.

(** *** static calls *)
Lemma prepare_all_length : forall J ts xs, length (prepare_all J ts xs) = length xs.
Proof.
  intros J ts; induction ts as [|t ts IH]; intros xs.
  - induction xs; simpl; auto.
  - destruct xs; simpl; auto.
Qed.

Lemma prepare_all_zipw : forall J ts xs, length ts = length xs ->
  prepare_all J ts xs = zipw (prepare J) ts xs.
Proof.
  intros J; induction ts as [|t ts IH]; intros [|x xs] H; simpl in *; try discriminate; auto.
  f_equal; apply IH; lia.
Qed.

Lemma prepare_shape : forall J t a, a_shape (prepare J t a) = a_shape a.
Proof.
  intros J t a; unfold prepare, as_jax.
  destruct t; rewrite ?cast_shape; auto.
  destruct (dt_eqb _ d); rewrite ?cast_shape; auto.
Qed.

Lemma trace_inv : forall J (L : jax_laws J) fn vars sym op,
  length (pg_uses J fn) = length vars ->
  run_jax_trace J fn vars sym = Some op ->
  exists phs, make_placeholders sym vars = Some phs /\
    length phs = length vars /\
    op_inputs op = vars /\ op_dyn op = negb (static_types phs) /\
    meaning J (op_code op) =
      {| h_prog := fn; h_params := map (canon_p (x64 J)) phs;
         h_keep := if static_types phs then pg_uses J fn else map (fun _ => true) phs |} /\
    forall xs, length xs = length vars ->
      filter_args (op_keep op) xs = Some (select (h_keep (meaning J (op_code op))) xs).
Proof.
  intros J L fn vars sym op Hu H. unfold run_jax_trace in H.
  destruct (make_placeholders sym vars) as [phs|] eqn:E; [|discriminate].
  destruct (export J fn phs) as [c|] eqn:E2; [|discriminate].
  injection H as <-. exists phs; simpl.
  assert (Hl : length phs = length vars).
  { unfold make_placeholders in E. apply mapM_length in E. rewrite enum_length in E; exact E. }
  pose proof (law_export J L fn phs c E2 ltac:(congruence)) as M.
  repeat split; auto.
  intros xs Hx. rewrite M; simpl. apply filter_args_select.
  - destruct (static_types phs); [congruence | rewrite map_length; reflexivity].
  - congruence.
Qed.

Lemma static_canon : forall b ps, static_types (map (canon_p b) ps) = static_types ps.
Proof. intros b; unfold static_types; induction ps; simpl; auto. rewrite IHps; reflexivity. Qed.

Lemma static_inst : forall env env' ps, static_types ps = true -> map (inst env) ps = map (inst env') ps.
Proof.
  intros env env'; unfold static_types; induction ps as [|p ps IH]; simpl; intros H; auto.
  apply andb_true_iff in H; destruct H as [H1 H2]. f_equal; [|auto].
  unfold inst; f_equal. unfold static_type in H1.
  clear - H1. induction (p_dims p) as [|d ds IH]; simpl in *; auto.
  apply andb_true_iff in H1; destruct H1 as [H1 H2]. f_equal; [|auto].
  destruct d; [reflexivity|discriminate].
Qed.

(** the dtype an argument has when the executable gets it *)
Lemma prepare_dt : forall J v a,
  (forall d, v = TScalar d -> a_dt a = d) -> v <> TOther ->
  a_dt (prepare J v a) = canon (x64 J) (decl_dt v).
Proof.
  intros J v a Hs Ho. unfold prepare. destruct v as [d dims|d|]; [| |contradiction Ho; reflexivity]; simpl.
  - destruct (dt_eqb (a_dt (as_jax J a)) d) eqn:E.
    + apply dt_eqb_eq in E. rewrite E.
      unfold as_jax in E. rewrite cast_dt in E. rewrite <- E. rewrite canon_canon; reflexivity.
    + apply cast_dt.
  - unfold as_jax. rewrite cast_dt. f_equal. apply Hs; reflexivity.
Qed.

Lemma fits_static_any : forall n m v a, static_decl v -> fits n v a -> fits m v a.
Proof.
  intros n m v a Hs H. destruct v; simpl in *; auto.
  rewrite H. clear H. induction dims as [|o dims IH]; simpl; auto.
  inversion Hs as [|? ? [d0 [-> Hd]] Hs']; subst. f_equal; [|auto].
  simpl. destruct (d0 =? -1)%Z eqn:E; auto. apply Z.eqb_eq in E; lia.
Qed.

(** run of a static op in a new process *)
Lemma run_static : forall J (L : jax_laws J) fn vars sym op args,
  length (pg_uses J fn) = length vars ->
  run_jax_trace J fn vars sym = Some op ->
  op_dyn op = false ->
  length args = length vars ->
  run_jax J op args =
  match run_module (pg_fn J) (meaning J (op_code op))
          (select (pg_uses J fn) (zipw (prepare J) vars args)) with
  | Some rs => Ok rs | None => Raised end.
Proof.
  intros J L fn vars sym op args Hu Ht Hd Ha.
  destruct (trace_inv J L fn vars sym op Hu Ht) as [phs [Hp [Hl [Hi [Hy [Hm Hf]]]]]].
  unfold run_jax, run_jax_xla; simpl. rewrite Hd; simpl.
  assert (Hs : static_types phs = true) by (rewrite Hd in Hy; destruct (static_types phs); auto; discriminate).
  assert (C : compile J (op_code op) <> None).
  { apply (law_compile J L). rewrite Hm; simpl. rewrite static_canon; exact Hs. }
  destruct (compile J (op_code op)) as [e|] eqn:E; [|contradiction C; reflexivity].
  simpl. unfold execute. rewrite Hi.
  rewrite Hf by (rewrite prepare_all_length; exact Ha).
  rewrite (law_run J L _ _ _ E).
  rewrite prepare_all_zipw by congruence.
  rewrite Hm at 2; simpl. rewrite Hs. reflexivity.
Qed.

Lemma zipw_types : forall J sym n vars i phs args,
  Forall static_decl vars ->
  mapM (make_placeholder sym) (enum_from i vars) = Some phs ->
  Forall2 (fits n) vars args ->
  map type_of (zipw (prepare J) vars args) = types1 (map (canon_p (x64 J)) phs).
Proof.
  intros J sym n; induction vars as [|v vars IH]; intros i phs args Hs H F; simpl in H.
  - injection H as <-; inversion F; reflexivity.
  - inversion Hs as [|? ? Hv Hs']; subst. inversion F as [|? a ? args' Hf F']; subst.
    destruct (make_placeholder sym (i, v)) as [p|] eqn:E; [|discriminate].
    destruct (mapM (make_placeholder sym) (enum_from (S i) vars)) as [ps|] eqn:E2; [|discriminate].
    injection H as <-. simpl. f_equal; [|eapply IH; eauto].
    assert (D : type_of {| a_dt := decl_dt v; a_shape := a_shape a; a_data := [] |}
                = inst (fun _ => 1%Z) p).
    { eapply (placeholder_type sym (fun _ => 1%Z) n i v p); eauto.
      split; [reflexivity|]. destruct v; simpl in *; tauto. }
    unfold type_of in *; simpl in D.
    unfold inst in *; simpl. rewrite prepare_shape, prepare_dt.
    + injection D as D1 D2. rewrite <- D1, D2; reflexivity.
    + intros d ->. destruct Hf; assumption.
    + destruct v; simpl in Hv; congruence.
Qed.

Theorem static_call_any : forall J (L : jax_laws J) fn vars sym op args n,
  length (pg_uses J fn) = length vars ->
  run_jax_trace J fn vars sym = Some op ->
  Forall static_decl vars ->
  Forall2 (fits n) vars args ->
  run_jax J op args = Ok (pg_fn J fn (zipw (prepare J) vars args)).
Proof.
  intros J L fn vars sym op args n Hu Ht Hs F.
  destruct (trace_inv J L fn vars sym op Hu Ht) as [phs [Hp [Hl [Hi [Hy [Hm Hf]]]]]].
  assert (S1 : static_types phs = true) by (eapply placeholders_static; eauto).
  assert (Ha : length args = length vars).
  { clear - F. induction F; simpl; auto. }
  rewrite (run_static J L fn vars sym op args Hu Ht); auto.
  2:{ rewrite Hy, S1; reflexivity. }
  assert (K : h_keep (meaning J (op_code op)) = pg_uses J fn) by (rewrite Hm, S1; reflexivity).
  pose proof (run_module_all J L (meaning J (op_code op)) (zipw (prepare J) vars args)) as R.
  rewrite K in R. rewrite R.
  - rewrite Hm; reflexivity.
  - rewrite Hm; reflexivity.
  - rewrite Hm; simpl. rewrite map_length; congruence.
  - rewrite Hm; simpl. eapply zipw_types; eauto.
Qed.

Lemma prepare_x64 : forall J v a, x64 J = true -> (forall d, v = TScalar d -> a_dt a = d) ->
  v <> TOther -> prepare J v a = declared_value J v a.
Proof.
  intros J v a Hx Hs Ho. unfold prepare, declared_value, as_jax. rewrite Hx; simpl.
  rewrite cast_same. destruct v as [d dims|d|]; simpl; [| |contradiction Ho; reflexivity].
  - destruct (dt_eqb (a_dt a) d) eqn:E; [|reflexivity].
    apply dt_eqb_eq in E; rewrite <- E, cast_same; reflexivity.
  - rewrite <- (Hs d eq_refl), cast_same; reflexivity.
Qed.

Lemma zipw_x64 : forall J n vars args, x64 J = true -> Forall2 (fits n) vars args ->
  zipw (prepare J) vars args = zipw (declared_value J) vars args.
Proof.
  intros J n vars args Hx F. induction F; simpl; auto.
  f_equal; auto. apply prepare_x64; auto.
  - intros d ->. destruct H; auto.
  - destruct x; simpl in H; congruence.
Qed.

(** a used argument of the wrong shape is refused *)
Lemma select_nth_types : forall keep (xs ys : list (dt * list Z)),
  length keep = length xs -> length keep = length ys ->
  select keep xs = select keep ys ->
  forall i, nth i keep false = true -> nth_error xs i = nth_error ys i.
Proof.
  induction keep as [|k ks IH]; intros [|x xs] [|y ys] H1 H2 H i Hi; simpl in *; try discriminate;
    try (destruct i; discriminate).
  destruct i as [|i]; simpl in *.
  - subst k. congruence.
  - destruct k; [injection H as _ H|]; eapply IH; eauto.
Qed.

Lemma placeholder_nth : forall sym vars i phs j v,
  mapM (make_placeholder sym) (enum_from i vars) = Some phs ->
  nth_error vars j = Some v ->
  exists p, nth_error phs j = Some p /\ make_placeholder sym (i + j, v) = Some p.
Proof.
  intros sym; induction vars as [|w vars IH]; intros i phs j v H Hj; [destruct j; discriminate|].
  simpl in H.
  destruct (make_placeholder sym (i, w)) as [p|] eqn:E; [|discriminate].
  destruct (mapM (make_placeholder sym) (enum_from (S i) vars)) as [ps|] eqn:E2; [|discriminate].
  injection H as <-. destruct j as [|j]; simpl in *.
  - injection Hj as ->. exists p. rewrite Nat.add_0_r. auto.
  - destruct (IH (S i) ps j v E2 Hj) as [q [Q1 Q2]]. exists q. split; auto.
    rewrite Nat.add_succ_r. exact Q2.
Qed.

Lemma zipw_nth : forall {A B C} (f : A -> B -> C) xs ys i x y,
  nth_error xs i = Some x -> nth_error ys i = Some y -> nth_error (zipw f xs ys) i = Some (f x y).
Proof.
  intros A B C f; induction xs as [|a xs IH]; intros [|b ys] [|i] x y H1 H2; simpl in *;
    try discriminate; [congruence | auto].
Qed.
Lemma zipw_length : forall {A B C} (f : A -> B -> C) xs ys, length xs = length ys ->
  length (zipw f xs ys) = length xs.
Proof. intros A B C f; induction xs; intros [|y ys] H; simpl in *; try discriminate; auto. Qed.

Theorem static_call_refuses : forall J (L : jax_laws J) fn vars sym op args i d dims a,
  length (pg_uses J fn) = length vars ->
  run_jax_trace J fn vars sym = Some op ->
  Forall static_decl vars ->
  length args = length vars ->
  nth i (pg_uses J fn) false = true ->
  nth_error vars i = Some (TTensor d dims) -> nth_error args i = Some a ->
  map Some (a_shape a) <> dims ->
  run_jax J op args = Raised.
Proof.
  intros J L fn vars sym op args i d dims a Hu Ht Hs Ha Hi Hv Hx Hne.
  destruct (trace_inv J L fn vars sym op Hu Ht) as [phs [Hp [Hl [Hin [Hy [Hm Hf]]]]]].
  assert (S1 : static_types phs = true) by (eapply placeholders_static; eauto).
  rewrite (run_static J L fn vars sym op args Hu Ht); auto.
  2:{ rewrite Hy, S1; reflexivity. }
  unfold run_module.
  destruct (tys_eqb _ _) eqn:E; [exfalso | reflexivity].
  apply tys_eqb_eq in E.
  rewrite Hm in E; simpl in E. rewrite S1 in E.
  rewrite <- select_map in E.
  destruct (placeholder_nth sym vars 0 phs i _ Hp Hv) as [p [Hp1 Hp2]].
  apply select_nth_types with (i := i) in E; auto.
  - rewrite (map_nth_error type_of i (zipw (prepare J) vars args) (zipw_nth _ _ _ _ _ _ Hv Hx)) in E.
    rewrite map_map in E.
    rewrite (map_nth_error _ i phs Hp1) in E.
    assert (E2 : a_shape (prepare J (TTensor d dims) a) = map (dim_val (fun _ => 1%Z)) (p_dims p)).
    { unfold type_of, inst, canon_p in E. simpl in E. simpl. congruence. }
    clear E. rewrite prepare_shape in E2.
    simpl in Hp2. unfold make_placeholder in Hp2; simpl in Hp2.
    destruct (mapM (make_dim sym i) (enum_from 0 dims)) as [ds|] eqn:Ed; [|discriminate].
    injection Hp2 as <-. simpl in E2.
    pose proof (make_dims_inst sym (fun _ => 1%Z) i dims 0 ds Ed) as D.
    rewrite <- E2 in D.
    assert (Sd : static_decl (TTensor d dims)).
    { rewrite Forall_forall in Hs. apply Hs. eapply nth_error_In; eauto. }
    rewrite (dims_static_any sym i (fun _ => 1%Z) 0%Z dims 0 Sd) in D.
    apply Hne. rewrite D. clear - Sd. simpl in Sd.
    induction dims as [|o dims IH]; simpl; auto.
    inversion Sd as [|? ? [d0 [-> Hd]] Sd']; subst. f_equal; auto.
    simpl. destruct (d0 =? -1)%Z eqn:E; auto. apply Z.eqb_eq in E; lia.
  - rewrite map_length, zipw_length; congruence.
  - rewrite !map_length; congruence.
Qed.

(** *** dynamic calls *)
Lemma dtype_text_plain : forall d, complex d = false -> dtype_text d = mlir_name d.
Proof. intros []; simpl; intros; try discriminate; reflexivity. Qed.
Lemma dtype_text_inj : forall d e, dtype_text d = mlir_name e -> d = e /\ complex d = false.
Proof. intros [] []; intros H; try (exfalso; vm_compute in H; discriminate H); auto. Qed.

Lemma names_args : forall args ts,
  names_types (map make_tensor_type args) ts <->
  (ts = map type_of args /\ Forall (fun a => complex (a_dt a) = false) args).
Proof.
  unfold names_types. induction args as [|a args IH]; intros [|t ts]; simpl; split; intros H; auto.
  - discriminate.
  - destruct H as [H _]; discriminate.
  - discriminate.
  - destruct H as [H _]; discriminate.
  - assert (H1 : snd t = a_shape a /\ mlir_name (fst t) = dtype_text (a_dt a)).
    { unfold make_tensor_type in H. split; congruence. }
    assert (H2 : map (fun t => (snd t, mlir_name (fst t))) ts = map make_tensor_type args) by congruence.
    apply IH in H2. destruct H2 as [H2 H3]. destruct H1 as [H1 H4].
    symmetry in H4. apply dtype_text_inj in H4. destruct H4 as [H4 H5]. split.
    + f_equal; [|assumption]. destruct t as [t1 t2]; unfold type_of; simpl in *; congruence.
    + constructor; assumption.
  - destruct H as [H1 H2]. inversion H2 as [|? ? H3 H4]; subst.
    assert (E1 : t = type_of a) by congruence.
    assert (E2 : ts = map type_of args) by congruence. subst t. f_equal.
    + unfold make_tensor_type, type_of; simpl. rewrite dtype_text_plain by assumption. reflexivity.
    + apply IH; auto.
Qed.

Lemma stat_inst : forall env t, inst env (stat_of t) = t.
Proof.
  intros env [d l]; unfold inst, stat_of; simpl. f_equal.
  rewrite map_map; simpl. apply map_id.
Qed.
Lemma types1_stat : forall ts, types1 (map stat_of ts) = ts.
Proof.
  unfold types1; induction ts; simpl; auto. rewrite IHts. f_equal. apply stat_inst.
Qed.
Lemma stat_static : forall ts, static_types (map stat_of ts) = true.
Proof.
  unfold static_types; induction ts as [|t ts IH]; simpl; auto. rewrite IH, andb_true_r.
  unfold static_type; simpl. induction (snd t); simpl; auto.
Qed.

Lemma expand_all : forall ps xs, length ps = length xs ->
  expand ps (map (fun _ => true) ps) xs = xs.
Proof. induction ps; intros [|x xs] H; simpl in *; try discriminate; auto. f_equal; auto. Qed.

Lemma prepare_canon : forall J v a,
  a_dt a = canon (x64 J) (decl_dt v) -> v <> TOther -> prepare J v a = a.
Proof.
  intros J v a H Ho.
  assert (A : as_jax J a = a).
  { unfold as_jax. replace (canon (x64 J) (a_dt a)) with (a_dt a); [apply cast_same|].
    rewrite H, canon_canon; reflexivity. }
  unfold prepare. rewrite A.
  destruct v as [d dims|d|]; simpl in *; [|reflexivity|contradiction Ho; reflexivity].
  rewrite <- H. destruct (dt_eqb (a_dt a) d); auto. apply cast_same.
Qed.

Lemma prepare_all_canon : forall J env sym vars i phs args,
  mapM (make_placeholder sym) (enum_from i vars) = Some phs ->
  map type_of args = map (inst env) (map (canon_p (x64 J)) phs) ->
  prepare_all J vars args = args.
Proof.
  intros J env sym; induction vars as [|v vars IH]; intros i phs args H T; simpl in H.
  - injection H as <-. destruct args; [reflexivity|discriminate].
  - destruct (make_placeholder sym (i, v)) as [p|] eqn:E; [|discriminate].
    destruct (mapM (make_placeholder sym) (enum_from (S i) vars)) as [ps|] eqn:E2; [|discriminate].
    injection H as <-. destruct args as [|a args]; [reflexivity|]. simpl in T |- *.
    assert (T1 : type_of a = inst env (canon_p (x64 J) p)) by congruence.
    assert (T2 : map type_of args = map (inst env) (map (canon_p (x64 J)) ps)) by congruence.
    f_equal; [|eapply IH; eauto].
    apply prepare_canon.
    + unfold type_of, inst, canon_p in T1; simpl in T1. injection T1 as T1 _. rewrite T1. f_equal.
      unfold make_placeholder in E; simpl in E. destruct v as [d dims|d|]; [| |discriminate].
      * destruct (mapM (make_dim sym i) (enum_from 0 dims)); [|discriminate]. injection E as <-; reflexivity.
      * injection E as <-; reflexivity.
    + intros ->; discriminate E.
Qed.

Theorem dynamic_call : forall J (L : jax_laws J) fn vars sym op args phs,
  length (pg_uses J fn) = length vars ->
  run_jax_trace J fn vars sym = Some op ->
  make_placeholders sym vars = Some phs ->
  static_types phs = false ->
  let ok := instance_of (map (canon_p (x64 J)) phs) (map type_of args) /\
            Forall (fun a => complex (a_dt a) = false) args in
  (ok -> run_jax J op args = Ok (pg_fn J fn args)) /\
  (~ ok -> run_jax J op args = Raised).
Proof.
  intros J L fn vars sym op args phs0 Hu Ht Hp0 S0 ok.
  destruct (trace_inv J L fn vars sym op Hu Ht) as [phs [Hp [Hl [Hi [Hy [Hm Hf]]]]]].
  assert (phs0 = phs) by congruence; subst phs0. rewrite S0 in Hy, Hm; simpl in Hy.
  assert (Hsel : select (h_keep (meaning J (op_code op))) (h_params (meaning J (op_code op)))
                 = map (canon_p (x64 J)) phs).
  { rewrite Hm; simpl. apply select_all. rewrite map_length; reflexivity. }
  unfold run_jax, run_jax_xla; simpl. rewrite Hy; simpl.
  unfold refine_stablehlo. split.
  - intros [Hok1 Hok2].
    assert (N : names_types (map make_tensor_type args) (map type_of args)) by (apply names_args; auto).
    assert (R : refine J (op_code op) (map make_tensor_type args) <> None).
    { eapply (law_refine_total J L); [exact N|]. rewrite Hsel; exact Hok1. }
    destruct (refine J (op_code op) (map make_tensor_type args)) as [c'|] eqn:E; [|contradiction R; reflexivity].
    destruct (law_refine J L _ _ _ E) as [ts [Hn [_ Hm']]].
    apply names_args in Hn. destruct Hn as [-> _].
    assert (C : compile J c' <> None).
    { apply (law_compile J L). rewrite Hm'; simpl. apply stat_static. }
    destruct (compile J c') as [e|] eqn:E2; [|contradiction C; reflexivity].
    simpl. unfold execute. rewrite Hi.
    assert (P : prepare_all J vars args = args).
    { destruct Hok1 as [env [_ Henv]]. eapply prepare_all_canon; eauto. }
    rewrite P.
    assert (Ha : length args = length vars).
    { destruct Hok1 as [env [_ Henv]]. apply (f_equal (@length _)) in Henv.
      rewrite !map_length in Henv. congruence. }
    rewrite Hf by exact Ha. rewrite Hm; simpl.
    rewrite select_all by congruence.
    rewrite (law_run J L _ _ _ E2). unfold run_module. rewrite Hm'; simpl.
    fold (types1 (map stat_of (map type_of args))). rewrite types1_stat.
    rewrite select_all by (rewrite !map_length; reflexivity).
    rewrite (proj2 (tys_eqb_eq _ _) eq_refl).
    f_equal. rewrite Hm; simpl. f_equal.
    transitivity (expand (map stat_of (map type_of args))
                         (map (fun _ => true) (map stat_of (map type_of args))) args).
    + f_equal. rewrite !map_map. reflexivity.
    + apply expand_all. rewrite !map_length; reflexivity.
  - intros Hno.
    destruct (refine J (op_code op) (map make_tensor_type args)) as [c'|] eqn:E; [|reflexivity].
    exfalso; apply Hno. destruct (law_refine J L _ _ _ E) as [ts [Hn [Hinst _]]].
    apply names_args in Hn. destruct Hn as [-> Hc]. rewrite Hsel in Hinst. split; auto.
Qed.

(** *** caches *)
(** What the caches may hold: in memory, executables of static codes; on disk,
    for a static code, a beginning of its saved executable. *)
Definition inv (J : jaxlib) (st : cstate J) : Prop :=
  (forall c e, mem st (hash J c) = Some e ->
     compile J c = Some e /\ static_types (h_params (meaning J c)) = true) /\
  (forall r c b, disk st r (hash J c) = Some b -> static_types (h_params (meaning J c)) = true ->
     exists e n, compile J c = Some e /\ b = firstn n (ser J e)).

Lemma inv_empty : forall J, inv J (empty J).
Proof. intros J; split; simpl; intros; discriminate. Qed.

Lemma traced_dyn : forall J (L : jax_laws J) op, traced J op ->
  op_dyn op = negb (static_types (h_params (meaning J (op_code op)))).
Proof.
  intros J L op [fn [vars [sym [Hu Ht]]]].
  destruct (trace_inv J L fn vars sym op Hu Ht) as [phs [Hp [Hl [Hi [Hy [Hm Hf]]]]]].
  rewrite Hm; simpl. rewrite static_canon; exact Hy.
Qed.

Lemma key_refl : forall J (L : jax_laws J) k, key_eqb J k k = true.
Proof. intros J L k; apply (law_key J L); reflexivity. Qed.

Lemma inv_upd_disk : forall J (L : jax_laws J) st root c b,
  inv J st ->
  (static_types (h_params (meaning J c)) = true ->
   exists e n, compile J c = Some e /\ b = firstn n (ser J e)) ->
  inv J {| mem := mem st; disk := upd_disk st root (hash J c) (Some b) |}.
Proof.
  intros J L st root c b [I1 I2] H. split; simpl; [exact I1|].
  intros r c' b' H1 H2. unfold upd_disk in H1.
  destruct (Nat.eqb r root && key_eqb J (hash J c') (hash J c)) eqn:E; [|eapply I2; eauto].
  apply andb_true_iff in E; destruct E as [_ E]. apply (law_key J L) in E.
  apply (law_hash J L) in E. subst c'. injection H1 as <-. auto.
Qed.

Lemma inv_forget : forall J st, inv J st -> inv J {| mem := fun _ => None; disk := disk st |}.
Proof. intros J st [I1 I2]; split; simpl; [intros; discriminate | exact I2]. Qed.

Lemma save_inv : forall J (L : jax_laws J) st root c e f,
  inv J st ->
  (static_types (h_params (meaning J c)) = true -> compile J c = Some e) ->
  inv J (fst (save J st root (hash J c) e f)).
Proof.
  intros J L st root c e f I H. unfold save. destruct f; simpl; auto.
  - apply inv_upd_disk; auto. intros S1. exists e, (length (ser J e)). split; auto.
    rewrite firstn_all; reflexivity.
  - apply inv_upd_disk; auto. intros S1. exists e, n. auto.
  - pose proof (inv_upd_disk J L st root c (firstn n (ser J e)) I) as K.
    apply (inv_forget J {| mem := mem st; disk := upd_disk st root (hash J c) (Some (firstn n (ser J e))) |}).
    apply K. intros S1; exists e, n; auto.
Qed.

Lemma save_mem : forall J st root k e f st', save J st root k e f = (st', true) -> mem st' = mem st.
Proof. intros J st root k e f st' H; destruct f; simpl in H; injection H as <- ; try reflexivity; discriminate. Qed.

Lemma save_alive : forall J st root k e f, (forall n, f <> DiesAfter n) -> snd (save J st root k e f) = true.
Proof. intros J st root k e f H; destruct f; simpl; auto. contradiction (H n eq_refl). Qed.

(** what a saved file of a static code loads as *)
Lemma load_static : forall J (L : jax_laws J) st root c b e,
  inv J st -> disk st root (hash J c) = Some b ->
  static_types (h_params (meaning J c)) = true ->
  deser J b = Some e -> compile J c = Some e.
Proof.
  intros J L st root c b e [I1 I2] H S1 Hd.
  destruct (I2 _ _ _ H S1) as [e' [n [Hc ->]]].
  destruct (le_lt_dec (length (ser J e')) n) as [Hn|Hn].
  - rewrite firstn_all2 in Hd by lia. rewrite (law_deser J L) in Hd. congruence.
  - rewrite (law_deser_cut J L) in Hd by assumption. discriminate.
Qed.

Lemma call_inv : forall J (L : jax_laws J) st root f op args,
  inv J st -> traced J op -> inv J (snd (run_jax_xla J st root f op args)).
Proof.
  intros J L st root f op args I T. pose proof (traced_dyn J L op T) as D.
  unfold run_jax_xla. set (k := hash J (op_code op)).
  destruct (mem st k) as [e|] eqn:Em; [exact I|].
  destruct (f_mkdir f); simpl; [|exact I].
  destruct (op_dyn op) eqn:Ed; simpl.
  - destruct (refine_stablehlo J (op_code op) args) as [c|]; [|exact I].
    destruct (compile J c) as [e|]; [|exact I].
    destruct (save J st root k e (f_save f)) as [st' alive] eqn:Es.
    assert (I' : inv J st').
    { replace st' with (fst (save J st root k e (f_save f))) by (rewrite Es; reflexivity).
      apply save_inv; auto. intros S1. rewrite S1 in D; discriminate. }
    destruct alive; exact I'.
  - assert (S1 : static_types (h_params (meaning J (op_code op))) = true).
    { destruct (static_types _); auto; discriminate. }
    assert (Store : forall st' e, inv J st' -> compile J (op_code op) = Some e ->
              inv J {| mem := upd (mem st') k (Some e); disk := disk st' |}).
    { intros st' e [I1 I2] Hc. split; simpl; [|exact I2].
      intros c e' H. unfold upd in H.
      destruct (key_eqb J (hash J c) k) eqn:Ek; [|apply I1; assumption].
      apply (law_key J L) in Ek. apply (law_hash J L) in Ek. subst c. injection H as <-. auto. }
    destruct (match disk st root k with Some b => if f_read f then deser J b else None | None => None end)
      as [e|] eqn:El.
    + simpl. apply Store; auto.
      destruct (disk st root k) as [b|] eqn:Eb; [|discriminate].
      destruct (f_read f); [|discriminate]. eapply load_static; eauto.
    + destruct (compile J (op_code op)) as [e|] eqn:Ec; [|exact I].
      destruct (save J st root k e (f_save f)) as [st' alive] eqn:Es.
      assert (I' : inv J st').
      { replace st' with (fst (save J st root k e (f_save f))) by (rewrite Es; reflexivity).
        apply save_inv; auto. }
      destruct alive; [simpl; apply Store; auto | exact I'].
Qed.

Lemma step_inv : forall J (L : jax_laws J) st e, inv J st -> traced_event J e -> inv J (step J st e).
Proof.
  intros J L st e I T. destruct e as [root f op args| |root k]; simpl in *.
  - apply call_inv; auto.
  - apply inv_forget; auto.
  - destruct I as [I1 I2]; split; simpl; [exact I1|].
    intros r c b H S1. unfold upd_disk in H.
    destruct (Nat.eqb r root && key_eqb J (hash J c) k); [discriminate | eapply I2; eauto].
Qed.

Lemma history_inv : forall J (L : jax_laws J) evs st, inv J st -> Forall (traced_event J) evs ->
  inv J (fold_left (step J) evs st).
Proof.
  intros J L; induction evs as [|e evs IH]; simpl; intros st I F; auto.
  inversion F; subst. apply IH; auto. apply step_inv; auto.
Qed.

Lemma call_same : forall J (L : jax_laws J) st root f op args,
  inv J st -> traced J op -> f_mkdir f = true -> (forall n, f_save f <> DiesAfter n) ->
  fst (run_jax_xla J st root f op args) = run_jax J op args.
Proof.
  intros J L st root f op args I T Hm Hs. pose proof (traced_dyn J L op T) as D.
  unfold run_jax, run_jax_xla; simpl. rewrite Hm; simpl. set (k := hash J (op_code op)).
  destruct (op_dyn op) eqn:Ed; simpl.
  - assert (S0 : static_types (h_params (meaning J (op_code op))) = false).
    { destruct (static_types _); auto; discriminate. }
    destruct (mem st k) as [e|] eqn:Em.
    + destruct I as [I1 _]. apply I1 in Em. destruct Em; congruence.
    + destruct (refine_stablehlo J (op_code op) args) as [c|]; [|reflexivity].
      destruct (compile J c) as [e|]; [|reflexivity].
      pose proof (save_alive J st root k e (f_save f) Hs) as A.
      destruct (save J st root k e (f_save f)) as [st' alive]; simpl in A; subst alive. reflexivity.
  - assert (S1 : static_types (h_params (meaning J (op_code op))) = true).
    { destruct (static_types _); auto; discriminate. }
    assert (C : compile J (op_code op) <> None) by (apply (law_compile J L); exact S1).
    destruct (compile J (op_code op)) as [e0|] eqn:Ec; [|contradiction C; reflexivity]. simpl.
    destruct (mem st k) as [e|] eqn:Em.
    + destruct I as [I1 _]. apply I1 in Em. destruct Em as [Em _].
      rewrite Ec in Em; injection Em as ->. reflexivity.
    + destruct (match disk st root k with Some b => if f_read f then deser J b else None | None => None end)
        as [e|] eqn:El.
      * destruct (disk st root k) as [b|] eqn:Eb; [|discriminate].
        destruct (f_read f); [|discriminate].
        assert (compile J (op_code op) = Some e) by (eapply load_static; eauto).
        simpl. congruence.
      * pose proof (save_alive J st root k e0 (f_save f) Hs) as A.
        destruct (save J st root k e0 (f_save f)) as [st' alive]; simpl in A; subst alive. reflexivity.
Qed.

Lemma canon_p_id : forall ps, map (canon_p true) ps = ps.
Proof. induction ps as [|[d l] ps IH]; simpl; auto. rewrite IH; reflexivity. Qed.

Lemma unknown_dims : forall i dims j ds,
  mapM (make_dim None i) (enum_from j dims) = Some ds ->
  In (Some (-1)%Z) dims -> In (Sym "n_rows"%string) ds.
Proof.
  intros i; induction dims as [|o dims IH]; simpl; intros j ds H Hin; [contradiction|].
  destruct (make_dim None i (j, o)) as [pd|] eqn:E; [|discriminate].
  destruct (mapM (make_dim None i) (enum_from (S j) dims)) as [ds'|] eqn:E2; [|discriminate].
  injection H as <-. destruct Hin as [->|Hin].
  - left. unfold make_dim in E; simpl in E. injection E as <-. reflexivity.
  - right. eapply IH; eauto.
Qed.

Lemma sym_not_static : forall ps p s, In p ps -> In (Sym s) (p_dims p) -> static_types ps = false.
Proof.
  intros ps p s Hp Hs. destruct (static_types ps) eqn:E; auto.
  unfold static_types in E. rewrite forallb_forall in E. specialize (E p Hp).
  unfold static_type in E. rewrite forallb_forall in E. specialize (E _ Hs). discriminate.
Qed.

Lemma unknown_dynamic : forall vars phs,
  make_placeholders None vars = Some phs -> some_unknown vars ->
  static_types phs = false /\ exists p, In p phs /\ In (Sym "n_rows"%string) (p_dims p).
Proof.
  intros vars phs Hp [d [dims [Hv Hd]]].
  apply In_nth_error in Hv. destruct Hv as [j Hj].
  destruct (placeholder_nth None vars 0 phs j _ Hp Hj) as [p [Hp1 Hp2]].
  unfold make_placeholder in Hp2; simpl in Hp2.
  destruct (mapM (make_dim None j) (enum_from 0 dims)) as [ds|] eqn:E; [|discriminate].
  injection Hp2 as <-.
  pose proof (unknown_dims j dims 0 ds E Hd) as K.
  assert (In {| p_dt := d; p_dims := ds |} phs) by (eapply nth_error_In; eauto).
  split; [eapply sym_not_static; eauto | eexists; split; eauto].
Qed.
