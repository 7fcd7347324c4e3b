(** C26 (output morphing), C27 (captures), C55 (control flow keeps its meaning under tracing). *)
From Coq Require Import List String Ascii Bool Arith Lia.
From Verif Require Import CtxModel CtxProofs MorphModel MorphProofs TraceModel TraceProofs TraceSound TraceCaps.
Import ListNotations.
Local Open Scope list_scope.

(** ** C26 *)
(** every structure comes back, up to the order of dictionary items *)
Theorem C26_roundtrip : forall (A : Type) (pred : A -> bool) (t : tree A),
  exists t', var_demorph (fst (var_morph pred t)) (snd (var_morph pred t)) = Some t' /\ pyeq t t'.
Proof.
  intros A pred t. exists (canon t). split; [|apply canon_pyeq].
  assert (H := demorph_map pred (fun x => x) t). rewrite map_id in H. rewrite H. f_equal. f_equal.
  assert (X : forall t : tree A, tmap (fun x => if pred x then x else x) t = t); [|apply X].
  assert (Id : forall x, (if pred x then x else x) = x) by (intros x; now destruct (pred x)).
  intros u. induction u as [a| |l IH|l IH|l IH] using tree_ind2; cbn; auto.
  - now rewrite Id.
  - f_equal. induction IH; cbn; congruence.
  - f_equal. induction IH; cbn; congruence.
  - f_equal. induction IH as [|[k v] l H1 IH' IH2]; cbn in *; congruence.
Qed.
Print Assumptions C26_roundtrip.
(** computed variables take the places of the variables they were computed for; constants stay *)
Theorem C26_substitution : forall (A : Type) (pred : A -> bool) (g : A -> A) (t : tree A),
  exists t', var_demorph (map g (fst (var_morph pred t))) (snd (var_morph pred t)) = Some t' /\
             pyeq (tmap (fun x => if pred x then g x else x) t) t'.
Proof. intros A pred g t. eexists. split; [apply demorph_map|apply canon_pyeq]. Qed.
Print Assumptions C26_substitution.
(** list level: the k-th result goes to the k-th variable position *)
Theorem C26_positions : forall (A : Type) (pred : A -> bool) (l rs : list A), List.length rs = List.length (filter pred l) ->
  let '(vars, imms, pos) := list_split pred 0 l in
  vars = filter pred l /\ imms = filter (fun x => negb (pred x)) l /\
  exists out, list_reconstruct rs imms pos = Some out /\ List.length out = List.length l /\
    (forall i x, nth_error l i = Some x -> pred x = false -> nth_error out i = Some x) /\
    (forall i x, nth_error l i = Some x -> pred x = true -> nth_error out i = nth_error rs (List.length (filter pred (firstn i l)))).
Proof.
  intros A pred l rs L. destruct (list_split pred 0 l) as [[vars imms] pos] eqn:E. destruct (split_fst _ _ _ _ _ _ E) as [E1 E2].
  split; auto. split; auto. rewrite <- E1 in L. exists (fill pred l rs). split; [now apply (reconstruct_split pred l vars imms pos rs)|].
  rewrite E1 in L. split; [now apply fill_length|]. clear E E1 E2. split.
  - revert rs L. induction l as [|y l IH]; intros rs L [|i] x Hi Hp; cbn in *; try discriminate.
    + injection Hi as ->. now rewrite Hp.
    + destruct (pred y); [destruct rs as [|r rs]; [discriminate|]|]; cbn; apply IH; auto.
  - revert rs L. induction l as [|y l IH]; intros rs L [|i] x Hi Hp; cbn in *; try discriminate.
    + injection Hi as ->. rewrite Hp in *. destruct rs; [discriminate|reflexivity].
    + destruct (pred y) eqn:Hy; [destruct rs as [|r rs]; [discriminate|]|]; cbn; [apply IH with x|apply IH with x]; auto.
Qed.
Print Assumptions C26_positions.
Example ex_C26 : let t := TDict [("b"%string, TList [Leaf 3; Leaf 8]); ("a"%string, TTuple [TNone; Leaf 5])] in
  var_morph Nat.even t = ([8], (def_of t, [2], [5; 3])) /\
  var_demorph [80] (snd (var_morph Nat.even t)) = Some (TDict [("a"%string, TTuple [TNone; Leaf 5]); ("b"%string, TList [Leaf 3; Leaf 80])]).
Proof. split; reflexivity. Qed.

(** ** Specification for traced functions *)
Section Spec.
  Context {C V : Type}.
  (** what tracing sees as an object is a runtime value, constants are themselves *)
  Definition stands_for (t : tval C) (d : dval C V) : Prop :=
    match t, d with TV _, DV _ => True | TC c, DC d => c = d | _, _ => False end.
  Definition world (outer : list (list (tval C))) (denv : list (list (dval C V))) : Prop := Forall2 (Forall2 stands_for) outer denv.
  (** the current value of an outer object *)
  Definition value_of (denv : list (list (dval C V))) (r : ref) (v : V) : Prop :=
    match nth_error denv (fst r) with Some f => nth_error f (snd r) = Some (DV v) | None => False end.
  (** running the traced graph: interpreter on the prepared inputs, then rebuild the result *)
  Definition run_traced (sem : nat -> list V -> list V) (truth : V -> bool) (fuel : nat) (t : traced C) (dargs : list (dval C V)) (captured : list V) : option (list (dval C V)) :=
    match eval_graph sem truth fuel (tf_graph t) (prepare_inputs dargs captured) with
    | Some vs => d_reconstruct (tf_morph t) vs
    | None => None
    end.
End Spec.
(** first occurrences only *)
Definition first_uses (l : list ref) : list ref := rev (nodup ref_dec (rev l)).
Definition arg_name (k : nat) : string := ("%arg" ++ show k)%string.

(** ** C27 *)
(** the code (strict = false), any nesting, any outer world *)
Theorem C27_captures_in_first_use_order : forall (C : Type) (c_eqb : C -> C -> bool) outer (args : list (tval C)) b t,
  trace_fn c_eqb false outer args b = Some t ->
  tf_caps t = first_uses (filter (refers_obj outer) (uses (List.length outer) b)) /\ NoDup (tf_caps t).
Proof.
  intros C c_eqb outer args b t E. unfold trace_fn in E. destruct (trace_body c_eqb false outer (start args) b) as [[[s ops] outs]|] eqn:Eb; [|discriminate]. injection E as <-.
  cbn [finish tf_caps]. pose proof (trace_caps c_eqb false b outer _ _ _ _ Eb) as H. rewrite start_caps in H. unfold caps in H. rewrite H. unfold first_uses.
  rewrite <- add_refs_nodup. split; auto. apply add_refs_spec. constructor.
Qed.
Print Assumptions C27_captures_in_first_use_order.
(** graph inputs: one per object parameter, then one per capture, called %arg0, %arg1, ... *)
Theorem C27_inputs_in_order : forall (C : Type) (c_eqb : C -> C -> bool) outer (args : list (tval C)) b t,
  trace_fn c_eqb false outer args b = Some t ->
  NoDup (g_inputs (tf_graph t)) /\
  map (nth_error (tf_names t)) (g_inputs (tf_graph t)) =
    map (fun k => Some (arg_name k)) (seq 0 (List.length (filter is_obj args) + List.length (tf_caps t))).
Proof.
  intros C c_eqb outer args b t E. unfold trace_fn in E. destruct (trace_body c_eqb false outer (start args) b) as [[[s ops] outs]|] eqn:Eb; [|discriminate]. injection E as <-.
  cbn [finish tf_caps tf_names tf_graph g_inputs]. pose proof (trace_named c_eqb false b outer _ _ _ _ Eb (start_named args)) as [N F I].
  split.
  { assert (Hi : NoDup (map (nth_error (t_names s)) (t_inputs s))).
    { rewrite I. apply FinFun.Injective_map_NoDup; [|apply seq_NoDup]. intros x y H. apply argname_inj. congruence. }
    clear - Hi. induction (t_inputs s) as [|x l IH]; [constructor|]. cbn in Hi. inversion Hi; subst. constructor; auto. intros H. apply H1. now apply in_map. }
  rewrite I. f_equal. f_equal.
  assert (L := f_equal (@List.length _) I). rewrite !map_length, seq_length in L. rewrite <- L, map_length.
  destruct (start_spec (V := unit) outer args) as (W & _).
  assert (Wi := wf_inputs _ _ _ (trace_wf c_eqb false b outer _ _ _ _ _ Eb W)).
  rewrite Wi, app_length, seq_length, map_length. now rewrite gvs_len.
Qed.
Print Assumptions C27_inputs_in_order.
(** names are unique, so neither tracing nor the alignment of regions can fail on a name clash *)
Theorem C27_names_unique : forall (C : Type) (c_eqb : C -> C -> bool) outer (args : list (tval C)) b t,
  trace_fn c_eqb false outer args b = Some t ->
  NoDup (tf_names t) /\ forall lead order, NoDup (tf_names (align lead order t)).
Proof.
  intros C c_eqb outer args b t E. unfold trace_fn in E. destruct (trace_body c_eqb false outer (start args) b) as [[[s ops] outs]|] eqn:Eb; [|discriminate]. injection E as <-.
  pose proof (trace_named c_eqb false b outer _ _ _ _ Eb (start_named args)) as N. split; [apply N|]. intros. now apply align_nodup.
Qed.
Print Assumptions C27_names_unique.
(** inputs are bound in order: parameters, then captures; nothing is missing or left over *)
Theorem C27_execution_binds_inputs : forall (C V : Type) (c_eqb : C -> C -> bool) outer (args : list (tval C)) b t (dargs : list (dval C V)) captured,
  trace_fn c_eqb false outer args b = Some t -> Forall2 stands_for args dargs -> List.length captured = List.length (tf_caps t) ->
  exists e, bind_all (fun _ => None) (g_inputs (tf_graph t)) (prepare_inputs dargs captured) = Some e /\
    (forall i v, nth_error (objs dargs) i = Some v -> match nth_error (g_inputs (tf_graph t)) i with Some g => e g = Some v | None => False end) /\
    (forall i v, nth_error captured i = Some v -> match nth_error (g_inputs (tf_graph t)) (List.length (filter is_obj args) + i) with Some g => e g = Some v | None => False end) /\
    (forall g, ~ In g (g_inputs (tf_graph t)) -> e g = None).
Proof.
  intros C V c_eqb outer args b t dargs captured E A L. destruct (C27_inputs_in_order _ _ _ _ _ _ E) as [N I].
  assert (Lg := f_equal (@List.length _) I). rewrite !map_length, seq_length in Lg.
  assert (Lo : List.length (objs dargs) = List.length (filter is_obj args)) by (rewrite <- gvs_len; symmetry; apply orel_len, A).
  assert (Lp : List.length (g_inputs (tf_graph t)) = List.length (prepare_inputs dargs captured)) by (unfold prepare_inputs; rewrite app_length; lia).
  destruct (bind_all_spec _ _ (fun _ => None) N Lp) as (e & B1 & B2 & B3). exists e. split; auto.
  assert (G : forall i v, nth_error (prepare_inputs dargs captured) i = Some v -> match nth_error (g_inputs (tf_graph t)) i with Some g => e g = Some v | None => False end).
  { intros i v Hi. destruct (nth_error (g_inputs (tf_graph t)) i) as [g|] eqn:Eg.
    - eapply get_all_nth; eauto.
    - apply nth_error_None in Eg. assert (i < List.length (prepare_inputs dargs captured)) by (apply nth_error_Some; congruence). lia. }
  split; [|split; auto].
  - intros i v Hi. apply G. unfold prepare_inputs. rewrite nth_error_app1; auto. apply nth_error_Some. congruence.
  - intros i v Hi. apply G. unfold prepare_inputs. rewrite nth_error_app2, <- Lo by lia. now replace (List.length (objs dargs) + i - List.length (objs dargs)) with i by lia.
Qed.
Print Assumptions C27_execution_binds_inputs.

(** ** C55 *)
(** tracing does not change what a function computes, whenever no branch constants differ and no
    loop condition is constant (strict); the code then produces the same trace *)
Theorem C55_meaning : forall (C V : Type) (c_eqb : C -> C -> bool), (forall a b, c_eqb a b = true -> a = b) ->
  forall (sem : nat -> list V -> list V) (truth : V -> bool) (ctruth : C -> bool) outer (args : list (tval C)) b t denv dargs captured,
  trace_fn c_eqb true outer args b = Some t ->
  world outer denv -> Forall2 stands_for args dargs -> Forall2 (value_of denv) (tf_caps t) captured ->
  trace_fn c_eqb false outer args b = Some t /\
  forall fuel, run_traced sem truth fuel t dargs captured = run_body sem truth ctruth fuel denv dargs b.
Proof.
  intros C V c_eqb Hc sem truth ctruth outer args b t denv dargs captured E O A CV. unfold trace_fn in E |- *.
  destruct (trace_body c_eqb true outer (start args) b) as [[[s ops] outs]|] eqn:Eb; [|discriminate]. injection E as <-.
  split; [now rewrite (strict_code _ _ _ _ _ Eb)|]. intros fuel. unfold run_traced, prepare_inputs.
  assert (CV' : Forall2 (fun r v => olook denv r = Some (DV v)) (map fst (t_caps s)) captured).
  { cbn [finish tf_caps] in CV. clear - CV. induction CV as [|r v l m H F IH]; constructor; auto. unfold value_of in H. unfold olook. destruct (nth_error denv (fst r)); [auto|destruct H]. }
  pose proof (plain_sound sem truth ctruth c_eqb b (trace_sound sem truth ctruth c_eqb Hc b) _ _ _ _ _ Eb denv dargs captured fuel O A CV') as P.
  unfold agrees in P. destruct (eval_graph sem truth fuel (tf_graph (finish s ops outs)) (objs dargs ++ captured)) as [vs|].
  - destruct P as (ds & -> & -> & F). cbn [finish tf_morph]. now apply d_reconstruct_rel.
  - now rewrite P.
Qed.
Print Assumptions C55_meaning.
(** in particular for all programs whose functions return only objects *)
Theorem C55_meaning_objects : forall (C V : Type) (c_eqb : C -> C -> bool), (forall a b, c_eqb a b = true -> a = b) ->
  forall (sem : nat -> list V -> list V) (truth : V -> bool) (ctruth : C -> bool) outer (args : list (tval C)) b t denv dargs captured,
  trace_fn c_eqb false outer args b = Some t ->
  no_const b = true -> forallb (forallb is_obj) outer = true -> forallb is_obj args = true ->
  world outer denv -> Forall2 stands_for args dargs -> Forall2 (value_of denv) (tf_caps t) captured ->
  forall fuel, run_traced sem truth fuel t dargs captured = run_body sem truth ctruth fuel denv dargs b.
Proof.
  intros C V c_eqb Hc sem truth ctruth outer args b t denv dargs captured E Nc No Na O A CV.
  apply (C55_meaning C V c_eqb Hc sem truth ctruth outer args b t denv dargs captured); auto.
  unfold trace_fn in *. destruct (trace_body c_eqb false outer (start args) b) as [[[s ops] outs]|] eqn:Eb; [|discriminate].
  destruct (objects_strict c_eqb b outer _ _ _ _ Nc No (start_obj _ Na) Eb) as [-> _]. auto.
Qed.
Print Assumptions C55_meaning_objects.
(** uniform_cond(pred, lambda: 1, lambda: 2): whatever the predicate, the traced function gives 1 *)
Definition ex_cond : body nat := BCond (0, 0) [] (BRet [LConst 1]) (BRet [LConst 2]) (BRet [LRef (0, 1)]).
Theorem C150_branch_constants_refuted :
  exists t, trace_fn Nat.eqb false [] [TV 0] ex_cond = Some t /\
  forall (v : bool) fuel, 3 <= fuel ->
    run_traced (fun _ vs => vs) (fun b : bool => b) fuel t [DV v] [] = Some [DC 1] /\
    run_body (fun _ vs => vs) (fun b : bool => b) (fun _ => true) fuel [] [DV v] ex_cond = Some [DC (if v then 1 else 2)].
Proof.
  eexists. split; [reflexivity|]. intros v fuel L. destruct fuel as [|[|[|fuel]]]; try lia. destruct v; split; reflexivity.
Qed.
Print Assumptions C150_branch_constants_refuted.
(** while_loop(lambda x: True, f, x): the direct loop never ends, the traced one returns x unchanged *)
Definition ex_while : body nat := BWhile [(0, 0)] (BRet [LConst 1]) (BRet [LRef (1, 0)]) (BRet [LRef (0, 1)]).
Theorem C150_constant_condition_refuted :
  exists t, trace_fn Nat.eqb false [] [TV 0] ex_while = Some t /\
  forall v : bool,
    (forall fuel, 3 <= fuel -> run_traced (fun _ vs => vs) (fun b : bool => b) fuel t [DV v] [] = Some [DV v]) /\
    (forall fuel, run_body (fun _ vs => vs) (fun b : bool => b) (fun n => Nat.eqb n 1) fuel [] [DV v] ex_while = None).
Proof.
  eexists. split; [reflexivity|]. intros v. split.
  - intros fuel L. destruct fuel as [|[|[|fuel]]]; try lia. reflexivity.
  - intros [|fuel]; [reflexivity|]. unfold ex_while. rewrite run_S_while. cbn [dlooks dlook fst snd List.length Nat.eqb nth_error].
    match goal with |- match iterate fuel ?c ?l ?s with _ => _ end = None => assert (H : forall m s0, iterate m c l s0 = None) end.
    { induction m as [|m IH]; intros s0; [reflexivity|]. cbn [iterate].
      destruct fuel as [|f]; [reflexivity|]. change (run_body _ _ _ (S f) _ s0 (BRet [LConst 1])) with (Some [DC 1 : dval nat bool]). cbn [dtruth Nat.eqb].
      match goal with |- match ?x with _ => _ end = None => destruct x end; auto. }
    now rewrite H.
Qed.
Print Assumptions C150_constant_condition_refuted.

(** ** A concrete program: nested closures, captures shared by both branches *)
(** outer objects a=(0,0), b=(0,1); f(x): y = p(x); z = cond(y, x) then (b, q(a)) else (b, x); loop... *)
Definition ex_body : body nat :=
  BPrim 0 [(1, 0)] 1
   (BCond (1, 1) [(1, 0)]
      (BPrim 1 [(0, 0)] 1 (BRet [LRef (0, 1); LConst 7; LRef (2, 1)]))
      (BRet [LRef (0, 1); LConst 7; LRef (2, 0)])
   (BWhile [(1, 2)] (BPrim 2 [(2, 0)] 1 (BRet [LRef (2, 1)])) (BPrim 1 [(0, 0); (2, 0)] 1 (BRet [LRef (2, 1)]))
   (BRet [LRef (1, 5); LRef (1, 3); LRef (0, 0)]))).
Definition ex_sem (p : nat) (vs : list nat) : list nat :=
  match p with 0 => [match vs with [x] => x mod 2 | _ => 0 end] | 1 => [fold_left Nat.add vs 1] | _ => [match vs with [x] => if Nat.ltb x 20 then 1 else 0 | _ => 0 end] end.
Definition ex_t : option (traced nat) := Eval vm_compute in trace_fn Nat.eqb true [[TV 0; TV 0]] [TV 0] ex_body.
Example ex_trace : trace_fn Nat.eqb true [[TV 0; TV 0]] [TV 0] ex_body = ex_t /\
  match ex_t with
  | Some t =>
      tf_caps t = [(0, 0); (0, 1)] /\ tf_names t = ["%arg0"; "%0"; "%arg1"; "%arg2"; "%1"; "%2"; "%3"]%string /\
      run_traced ex_sem (fun n => Nat.ltb 0 n) 20 t [DV 3] [5; 9] = Some [DV 21; DC 7; DV 5] /\
      run_body ex_sem (fun n => Nat.ltb 0 n) (fun _ => true) 20 [[DV 5; DV 9]] [DV 3] ex_body = Some [DV 21; DC 7; DV 5] /\
      world (C := nat) (V := nat) [[TV 0; TV 0]] [[DV 5; DV 9]] /\ Forall2 stands_for [TV 0 : tval nat] [DV 3 : dval nat nat] /\
      Forall2 (value_of (C := nat) [[DV 5; DV 9]]) (tf_caps t) [5; 9]
  | None => False
  end.
Proof.
  split; [vm_compute; reflexivity|]. split; [reflexivity|]. split; [reflexivity|].
  split; [vm_compute; reflexivity|]. split; [vm_compute; reflexivity|].
  split; [constructor; [|constructor]; constructor; [exact I|]; constructor; [exact I|constructor]|].
  split; [constructor; [exact I|constructor]|].
  constructor; [reflexivity|]. constructor; [reflexivity|constructor].
Qed.
