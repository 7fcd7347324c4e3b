(** A concrete library that satisfies [jax_laws], used by the examples beside the
    theorems about run_jax: three user functions, modules as their own text. *)
From Coq Require Import String.
From Coq Require Import List ZArith Bool Arith Lia.
From Verif Require Import JaxSpec JaxModel JaxProofs.
Import ListNotations.

(** [KId]: x -> x; [KFst]: (x, y) -> x, reads x only; [KBoth]: (x, y) -> (x, y). *)
Inductive kfun := KId | KFst | KBoth.
Definition kfn (k : kfun) (xs : list arr) : list arr :=
  match k with KFst => firstn 1 xs | _ => xs end.
Definition kuses (k : kfun) : list bool :=
  match k with KId => [true] | KFst => [true; false] | KBoth => [true; true] end.

Definition kcode := hlo kfun.
Definition kfun_eqb (a b : kfun) : bool :=
  match a, b with KId, KId | KFst, KFst | KBoth, KBoth => true | _, _ => false end.
Definition pdim_eqb (a b : pdim) : bool :=
  match a, b with Stat x, Stat y => Z.eqb x y | Sym x, Sym y => String.eqb x y | _, _ => false end.
Fixpoint list_eqb {A} (f : A -> A -> bool) (a b : list A) : bool :=
  match a, b with
  | [], [] => true
  | x :: a', y :: b' => f x y && list_eqb f a' b'
  | _, _ => false
  end.
Definition ptype_eqb (p q : ptype) : bool :=
  dt_eqb (p_dt p) (p_dt q) && list_eqb pdim_eqb (p_dims p) (p_dims q).
Definition kcode_eqb (a b : kcode) : bool :=
  kfun_eqb (h_prog a) (h_prog b) && list_eqb ptype_eqb (h_params a) (h_params b)
  && list_eqb Bool.eqb (h_keep a) (h_keep b).

Definition all_dts := [I8; I16; I32; I64; U8; U16; U32; U64; F16; F32; F64; C64; C128; B1].
Definition parse_dt (s : string) : option dt :=
  find (fun d => String.eqb (mlir_name d) s) all_dts.
Definition parse_ty (t : list Z * string) : option (dt * list Z) :=
  match parse_dt (snd t) with Some d => Some (d, fst t) | None => None end.

Fixpoint binds (ds : list pdim) (vs : list Z) : list (string * Z) :=
  match ds, vs with
  | Sym s :: ds', v :: vs' => (s, v) :: binds ds' vs'
  | Stat _ :: ds', _ :: vs' => binds ds' vs'
  | _, _ => []
  end.
Fixpoint all_binds (ps : list ptype) (ts : list (dt * list Z)) : list (string * Z) :=
  match ps, ts with
  | p :: ps', t :: ts' => binds (p_dims p) (snd t) ++ all_binds ps' ts'
  | _, _ => []
  end.
Fixpoint env_of (l : list (string * Z)) (s : string) : Z :=
  match l with [] => 1%Z | (a, v) :: l' => if String.eqb a s then v else env_of l' s end.
Definition refines (ps : list ptype) (ts : list (dt * list Z)) : bool :=
  let env := env_of (all_binds ps ts) in
  tys_eqb ts (map (inst env) ps) && forallb (fun p => forallb (fun d =>
     match d with Stat _ => true | Sym s => (1 <=? env s)%Z end) (p_dims p)) ps.

Definition krefine (c : kcode) (txt : list (list Z * string)) : option kcode :=
  match mapM parse_ty txt with
  | None => None
  | Some ts => if refines (select (h_keep c) (h_params c)) ts
               then Some {| h_prog := h_prog c; h_params := map stat_of ts;
                            h_keep := map (fun _ => true) ts |}
               else None
  end.

Definition J0 (b : bool) : jaxlib := {|
  src := kfun; pg_fn := kfn; pg_uses := kuses;
  code := kcode; exe := kcode; byte := kcode; key := kcode;
  x64 := b; fcast := fun _ _ z => z;
  export := fun p ps =>
    Some {| h_prog := p; h_params := map (canon_p b) ps;
            h_keep := if static_types ps then kuses p else map (fun _ => true) ps |};
  meaning := fun c => c;
  refine := krefine;
  compile := fun c => if static_types (h_params c) then Some c else None;
  run := fun c xs => run_module kfn c xs;
  ser := fun c => [c];
  deser := fun l => match l with [c] => Some c | _ => None end;
  hash := fun c => c;
  key_eqb := kcode_eqb |}.

Lemma list_eqb_eq : forall {A} (f : A -> A -> bool), (forall x y, f x y = true <-> x = y) ->
  forall a b, list_eqb f a b = true <-> a = b.
Proof.
  intros A f Hf; induction a as [|x a IH]; intros [|y b]; simpl; split; intros H; try congruence.
  - apply andb_true_iff in H; destruct H as [H1 H2]. apply Hf in H1; apply IH in H2; congruence.
  - injection H as -> ->. rewrite (proj2 (Hf y y) eq_refl); simpl. apply IH; reflexivity.
Qed.
Lemma pdim_eqb_eq : forall a b, pdim_eqb a b = true <-> a = b.
Proof.
  intros [x|x] [y|y]; simpl; rewrite ?Z.eqb_eq, ?String.eqb_eq; split; intros H; try congruence.
Qed.
Lemma ptype_eqb_eq : forall a b, ptype_eqb a b = true <-> a = b.
Proof.
  intros [d1 l1] [d2 l2]; unfold ptype_eqb; simpl.
  rewrite andb_true_iff, dt_eqb_eq, (list_eqb_eq _ pdim_eqb_eq). split; [intros [-> ->]; auto|].
  intros H; injection H; auto.
Qed.
Lemma bool_eqb_eq : forall a b, Bool.eqb a b = true <-> a = b.
Proof. intros [] []; simpl; split; congruence. Qed.
Lemma kcode_eqb_eq : forall a b, kcode_eqb a b = true <-> a = b.
Proof.
  intros [p1 q1 r1] [p2 q2 r2]; unfold kcode_eqb; simpl.
  rewrite !andb_true_iff, (list_eqb_eq _ ptype_eqb_eq), (list_eqb_eq _ bool_eqb_eq).
  split.
  - intros [[H1 ->] ->]. destruct p1, p2; simpl in H1; congruence.
  - intros H; injection H as -> -> ->. repeat split; destruct p2; reflexivity.
Qed.

Lemma parse_ty_ok : forall t u, parse_ty t = Some u <-> (snd u, mlir_name (fst u)) = t.
Proof.
  intros [sh s] [d l]. unfold parse_ty, parse_dt; cbn [fst snd]. split.
  - intros H. destruct (find _ all_dts) as [e|] eqn:E; [|discriminate].
    injection H as -> ->. apply find_some in E. destruct E as [_ E]. apply String.eqb_eq in E.
    congruence.
  - intros H. injection H as -> <-. destruct d; reflexivity.
Qed.
Lemma parse_all : forall txt ts, mapM parse_ty txt = Some ts <-> names_types txt ts.
Proof.
  unfold names_types. induction txt as [|t txt IH]; intros [|u ts]; simpl; split; intros H; try discriminate; auto.
  - destruct (parse_ty t); [destruct (mapM parse_ty txt); discriminate | discriminate].
  - destruct (parse_ty t) as [u'|] eqn:E; [|discriminate].
    destruct (mapM parse_ty txt) as [ts'|] eqn:E2; [|discriminate].
    injection H as -> ->. f_equal; [apply parse_ty_ok; assumption | apply IH; reflexivity].
  - assert (H1 : (snd u, mlir_name (fst u)) = t) by congruence.
    assert (H2 : map (fun t => (snd t, mlir_name (fst t))) ts = txt) by congruence.
    apply parse_ty_ok in H1. apply IH in H2. rewrite H1, H2. reflexivity.
Qed.

Lemma binds_env : forall env ds s v, In (s, v) (binds ds (map (dim_val env) ds)) -> v = env s.
Proof.
  intros env; induction ds as [|[n|x] ds IH]; simpl; intros s v H; [contradiction| |]; auto.
  destruct H as [H|H]; [congruence | auto].
Qed.
Lemma all_binds_env : forall env ps s v, In (s, v) (all_binds ps (map (inst env) ps)) -> v = env s.
Proof.
  intros env; induction ps as [|p ps IH]; simpl; intros s v H; [contradiction|].
  apply in_app_or in H. destruct H as [H|H]; [eapply binds_env; eauto | auto].
Qed.
Lemma binds_has : forall env ds s, In (Sym s) ds -> exists v, In (s, v) (binds ds (map (dim_val env) ds)).
Proof.
  intros env; induction ds as [|[n|x] ds IH]; simpl; intros s H; [contradiction| |].
  - destruct H as [H|H]; [discriminate | auto].
  - destruct H as [H|H].
    + injection H as ->. exists (env s); left; reflexivity.
    + destruct (IH s H) as [v Hv]. exists v; right; assumption.
Qed.
Lemma all_binds_has : forall env ps p s, In p ps -> In (Sym s) (p_dims p) ->
  exists v, In (s, v) (all_binds ps (map (inst env) ps)).
Proof.
  intros env; induction ps as [|q ps IH]; simpl; intros p s Hp Hs; [contradiction|].
  destruct Hp as [->|Hp].
  - destruct (binds_has env _ _ Hs) as [v Hv]. exists v. apply in_or_app; left; assumption.
  - destruct (IH p s Hp Hs) as [v Hv]. exists v. apply in_or_app; right; assumption.
Qed.
Lemma env_of_in : forall env l s, (forall a v, In (a, v) l -> v = env a) ->
  (exists v, In (s, v) l) -> env_of l s = env s.
Proof.
  intros env; induction l as [|[a v] l IH]; intros s H [w Hw]; [contradiction Hw|]. simpl.
  destruct (String.eqb a s) eqn:E.
  - apply String.eqb_eq in E; subst. apply H; left; reflexivity.
  - apply IH; [intros; apply H; right; assumption|].
    destruct Hw as [Hw|Hw]; [|exists w; assumption].
    injection Hw as -> ->. rewrite String.eqb_refl in E; discriminate.
Qed.

Lemma refines_ok : forall ps ts, refines ps ts = true <-> instance_of ps ts.
Proof.
  intros ps ts; unfold refines. split.
  - intros H. apply andb_true_iff in H; destruct H as [H1 H2]. apply tys_eqb_eq in H1.
    exists (env_of (all_binds ps ts)). split; [|exact H1].
    intros p s Hp Hs. rewrite forallb_forall in H2. specialize (H2 p Hp).
    rewrite forallb_forall in H2. specialize (H2 _ Hs). simpl in H2. apply Z.leb_le; exact H2.
  - intros [env [H1 ->]].
    assert (A : forall p s, In p ps -> In (Sym s) (p_dims p) ->
              env_of (all_binds ps (map (inst env) ps)) s = env s).
    { intros p s Hp Hs. apply env_of_in.
      - intros a v; apply all_binds_env.
      - eapply all_binds_has; eauto. }
    apply andb_true_iff; split.
    + apply tys_eqb_eq. apply map_ext_in. intros p Hp. unfold inst. f_equal.
      apply map_ext_in. intros [n|s] Hd; simpl; auto. symmetry; eapply A; eauto.
    + apply forallb_forall. intros p Hp. apply forallb_forall. intros [n|s] Hd; auto.
      rewrite (A p s Hp Hd). apply Z.leb_le. eapply H1; eauto.
Qed.

Lemma J0_laws : forall b, jax_laws (J0 b).
Proof.
  intros b; constructor; simpl.
  - intros p xs ys Hl Ht H. destruct p; simpl in *.
    + destruct xs as [|x [|? ?]]; try discriminate. destruct ys as [|y [|? ?]]; try discriminate.
      specialize (H 0 eq_refl). simpl in H. congruence.
    + destruct xs as [|x [|x' [|? ?]]]; try discriminate. destruct ys as [|y [|y' [|? ?]]]; try discriminate.
      specialize (H 0 eq_refl). simpl in *. congruence.
    + destruct xs as [|x [|x' [|? ?]]]; try discriminate. destruct ys as [|y [|y' [|? ?]]]; try discriminate.
      pose proof (H 0 eq_refl) as H0. pose proof (H 1 eq_refl) as H1. simpl in *. congruence.
  - intros p ps c H _. injection H as <-. reflexivity.
  - intros c c' txt H. unfold krefine in H.
    destruct (mapM parse_ty txt) as [ts|] eqn:E; [|discriminate].
    destruct (refines _ ts) eqn:E2; [|discriminate]. injection H as <-.
    exists ts. split; [apply parse_all; assumption|]. split; [apply refines_ok; assumption | reflexivity].
  - intros c txt ts H1 H2. unfold krefine. apply parse_all in H1. rewrite H1.
    apply refines_ok in H2. rewrite H2. discriminate.
  - intros c. destruct (static_types (h_params c)); split; intros; congruence.
  - intros c e xs H. destruct (static_types (h_params c)); [|discriminate]. injection H as ->. reflexivity.
  - reflexivity.
  - intros e n H. assert (n = 0) by lia. subst. reflexivity.
  - auto.
  - apply kcode_eqb_eq.
Qed.
