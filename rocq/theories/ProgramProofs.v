(** Proofs about compiled program artifacts (C52). *)
From Coq Require Import List ZArith String Ascii Bool Lia PeanoNat Permutation Sorting.Sorted.
From Verif Require Import Base64Model CtxModel SerdeModel SerdeSpec SerdeProofs SerdeGraph SerdeValue MorphModel MorphProofs SortKeys ProgramModel ProgramSpec JsonSort.
Import ListNotations.
Local Open Scope string_scope.
Local Open Scope list_scope.
Local Open Scope Z_scope.

(** ** Induction over the parts of a value *)
Definition kids (x : pv) : list pv :=
  match x with
  | PList l | PTuple l | PNdObj _ l | PTensorObj _ l => l
  | PDict items => flat_map (fun p => [fst p; snd p]) items
  | PGraph _ ops _ => flat_map (fun o => map snd (g_attrs o) ++ g_regions o) ops
  | PFunc g _ => [g]
  | _ => []
  end.
Lemma kids_ind (P : pv -> Prop) : (forall x, (forall y, In y (kids x) -> P y) -> P x) -> forall x, P x.
Proof.
  intros H. fix IH 1. intros x. apply H.
  assert (L : forall l : list pv, (forall y, In y l -> P y) \/ True) by auto. clear L.
  destruct x as [| | | | | | | | sh l | | | | l | l | l | | | ins ops outs | | sh l | | | | | g nm]; try (intros y Hy; destruct Hy; fail).
  - cbn. induction l as [|a l IHl]; intros y Hy; [destruct Hy|]. destruct Hy as [<-|Hy]; [apply IH|exact (IHl y Hy)].
  - cbn. induction l as [|a l IHl]; intros y Hy; [destruct Hy|]. destruct Hy as [<-|Hy]; [apply IH|exact (IHl y Hy)].
  - cbn. induction l as [|a l IHl]; intros y Hy; [destruct Hy|]. destruct Hy as [<-|Hy]; [apply IH|exact (IHl y Hy)].
  - cbn. induction l as [|[a b] l IHl]; intros y Hy; [destruct Hy|]. cbn in Hy. destruct Hy as [<-|[<-|Hy]]; [apply IH|apply IH|exact (IHl y Hy)].
  - cbn. induction ops as [|[c i u at_ rg m] ops IHo]; intros y Hy; [destruct Hy|]. cbn in Hy. apply in_app_or in Hy. destruct Hy as [Hy|Hy]; [|exact (IHo y Hy)].
    apply in_app_or in Hy. destruct Hy as [Hy|Hy].
    + clear - IH Hy. induction at_ as [|[k v] at_ IHa]; [destruct Hy|]. destruct Hy as [<-|Hy]; [apply IH|exact (IHa Hy)].
    + clear - IH Hy. induction rg as [|r rg IHr]; [destruct Hy|]. destruct Hy as [<-|Hy]; [apply IH|exact (IHr Hy)].
  - cbn. induction l as [|a l IHl]; intros y Hy; [destruct Hy|]. destruct Hy as [<-|Hy]; [apply IH|exact (IHl y Hy)].
  - intros y [<-|[]]. apply IH.
Qed.

(** ** The sorted encoding does not depend on the order of dicts *)
Lemma is_str_norm k : is_str (norm k) = is_str k. Proof. destruct k; reflexivity. Qed.
Lemma str_of_norm k : str_of (norm k) = str_of k. Proof. destruct k; reflexivity. Qed.
Lemma existsb_map {A B} (f : B -> bool) (g : A -> B) l : existsb f (map g l) = existsb (fun x => f (g x)) l.
Proof. induction l as [|x l IH]; cbn; congruence. Qed.
Lemma existsb_ext' {A} (f g : A -> bool) l : (forall x, f x = g x) -> existsb f l = existsb g l.
Proof. intros H. induction l as [|x l IH]; cbn; congruence. Qed.
Lemma map_kids {A B} (f : A -> B) (g : A -> A) l : (forall x, In x l -> f (g x) = f x) -> map f (map g l) = map f l.
Proof. intros H. rewrite map_map. apply map_ext_in, H. Qed.
Lemma to_json_norm : forall x, to_json (norm x) = to_json x.
Proof.
  apply kids_ind. intros x IH. destruct x as [| | | | | | | | sh l | | | | l | l | l | | | ins ops outs | | sh l | | | | | g nm]; try reflexivity; cbn [kids] in IH; cbn [norm to_json].
  - rewrite (map_kids to_json norm l IH). reflexivity.
  - rewrite (map_kids to_json norm l IH). reflexivity.
  - rewrite (map_kids to_json norm l IH). reflexivity.
  - rewrite existsb_map. rewrite (existsb_ext' _ (fun p : pv * pv => negb (is_str (fst p))) l) by (intros p; cbn; rewrite is_str_norm; reflexivity).
    rewrite !map_map. cbn [fst snd].
    assert (E : forall p, In p l -> to_json (norm (fst p)) = to_json (fst p) /\ to_json (norm (snd p)) = to_json (snd p)).
    { intros p Hp. split; apply IH; apply in_flat_map; exists p; (split; [exact Hp|]); cbn; auto. }
    assert (E1 : map (fun x : pv * pv => JArr [to_json (norm (fst x)); to_json (norm (snd x))]) l = map (fun p => JArr [to_json (fst p); to_json (snd p)]) l).
    { apply map_ext_in. intros p Hp. destruct (E p Hp) as [-> ->]. reflexivity. }
    assert (E2 : map (fun x : pv * pv => (str_of (norm (fst x)), to_json (norm (snd x)))) l = map (fun p => (str_of (fst p), to_json (snd p))) l).
    { apply map_ext_in. intros p Hp. destruct (E p Hp) as [_ ->]. rewrite str_of_norm. reflexivity. }
    rewrite E1, E2. reflexivity.
  - match goal with |- tag _ [_; (_, JArr ?a); _] = tag _ [_; (_, JArr ?b); _] => assert (EE : a = b); [|rewrite EE; reflexivity] end.
    rewrite map_map. apply map_ext_in. intros o Ho. cbn [g_opcode g_ins g_outs g_attrs g_regions g_name]. rewrite !map_map. cbn [fst snd].
    assert (Ea : map (fun x : string * pv => (fst x, to_json (norm (snd x)))) (g_attrs o) = map (fun p => (fst p, to_json (snd p))) (g_attrs o)).
    { apply map_ext_in. intros p Hp. rewrite IH; [reflexivity|]. apply in_flat_map. exists o. split; [exact Ho|]. apply in_or_app. left. apply in_map, Hp. }
    assert (Er : map (fun x : pv => to_json (norm x)) (g_regions o) = map to_json (g_regions o)).
    { apply map_ext_in. intros p Hp. apply IH. apply in_flat_map. exists o. split; [exact Ho|]. apply in_or_app. right. exact Hp. }
    rewrite Ea, Er. reflexivity.
  - rewrite (map_kids to_json norm l IH). reflexivity.
  - rewrite IH by (left; reflexivity). reflexivity.
Qed.

(** a sorted list of fields, sorted again *)
Lemma sort_again {A B : Type} (F : B -> json) (c : A -> B) (k : A -> string) (l : list A) :
  NoDup (map k l) ->
  sort_keys (map (fun p : string * json => (fst p, sort_json (snd p))) (map (fun p : string * B => (fst p, F (snd p))) (sort_keys (map (fun p => (k p, c p)) l))))
  = sort_keys (map (fun p => (k p, sort_json (F (c p)))) l).
Proof.
  intros ND. rewrite map_map. cbn [fst snd]. rewrite <- (sort_map (fun b => sort_json (F b))), map_map. cbn [fst snd]. apply sort_id, sort_sorted.
Qed.
Lemma sort_ty : forall t, wf_ty t -> sort_json (ty_to_json (canon_ty t)) = sort_json (ty_to_json t).
Proof.
  assert (LL : forall (sch : list (string * ty)), (forall p, In p sch -> sort_json (ty_to_json (canon_ty (snd p))) = sort_json (ty_to_json (snd p))) -> NoDup (map fst sch) ->
    sort_json (JObj (map (fun p => (fst p, ty_to_json (snd p))) (sort_keys (map (fun p => (fst p, canon_ty (snd p))) sch)))) = sort_json (JObj (map (fun p => (fst p, ty_to_json (snd p))) sch))).
  { intros sch H ND. cbn. f_equal. rewrite (sort_again ty_to_json (fun p : string * ty => canon_ty (snd p)) fst sch ND), map_map. cbn [fst snd]. f_equal. apply map_ext_in. intros p Hp. rewrite H by exact Hp. reflexivity. }
  fix IH 1. intros t W. destruct t as [b s|b|i|e sh|e sz|sch nr|k|p s|v ps|c|c|s|s|s|k m|v|v|m| |c|]; cbn [wf_ty] in W; try reflexivity; cbn [canon_ty ty_to_json].
  - destruct W as [_ W]. cbn. rewrite IH by exact W. reflexivity.
  - destruct W as [W _]. cbn. rewrite IH by exact W. reflexivity.
  - destruct W as [W _]. cbn. rewrite IH by exact W. reflexivity.
  - destruct W as (ND & W & _).
    assert (H : forall p, In p sch -> sort_json (ty_to_json (canon_ty (snd p))) = sort_json (ty_to_json (snd p))).
    { clear ND. induction sch as [|[k t] sch IHs]; intros p Hp; [destruct Hp|]. cbn in W. destruct W as [W1 W2]. destruct Hp as [<-|Hp]; [exact (IH t W1)|exact (IHs W2 p Hp)]. }
    specialize (LL sch H ND). set (a := JObj (map _ (sort_keys _))) in *. set (b := JObj (map _ sch)) in *. clearbody a b.
    destruct (nr =? -1); cbn; rewrite LL; reflexivity.
  - cbn. rewrite IH by exact W. reflexivity.
  - cbn. rewrite IH by exact W. reflexivity.
  - destruct W as [W _]. cbn. rewrite IH by exact W. reflexivity.
  - destruct W as [W _]. cbn. rewrite IH by exact W. reflexivity.
Qed.

Section P.
  Variable float_int : Z -> option Z.
  Variable itemsize : string -> option Z.
  Variable float_trunc : Z -> res Z.
  Variable str_int : string -> res Z.
  Variable py_str : json -> string.
  Variable sha : json -> string.
  Variable print : json -> string.
  Variable parse : string -> option json.
  Notation wf := (wf_pv float_int itemsize).
  Notation wsize := (required_world_size float_trunc str_int).
  Notation parties := (op_parties float_trunc str_int).

  Lemma wf_kids x : wf x -> forall y, In y (kids x) -> wf y.
  Proof.
    intros W y Hy. destruct x as [| | | | | | | | sh l | | | | l | l | l | | | ins ops outs | | sh l | | | | | g nm]; cbn [kids] in Hy; try destruct Hy; cbn [wf_pv] in W.
    - destruct W as [W _]. allf W. auto.
    - allf W. auto.
    - allf W. auto.
    - destruct W as [W _]. allf W. apply in_flat_map in Hy. destruct Hy as (p & Hp & [<-|[<-|[]]]); apply W; exact Hp.
    - destruct W as (_ & W & _). allf W. apply in_flat_map in Hy. destruct Hy as (o & Ho & Hy). destruct (W o Ho) as (_ & Wa & _ & Wr). allf Wa. allf Wr. apply in_app_or in Hy. destruct Hy as [Hy|Hy]; [|auto].
      apply in_map_iff in Hy. destruct Hy as (p & <- & Hp). auto.
    - destruct W as [W _]. allf W. auto.
    - subst y. exact W.
    - contradiction.
  Qed.

  Lemma sort_pv : forall x, wf x -> sort_json (to_json (canon x)) = sort_json (to_json x).
  Proof.
    apply (kids_ind (fun x => wf x -> sort_json (to_json (canon x)) = sort_json (to_json x))). intros x IH0 W.
    assert (IH : forall y, In y (kids x) -> sort_json (to_json (canon y)) = sort_json (to_json y)) by (intros y Hy; apply IH0; [exact Hy|exact (wf_kids x W y Hy)]). clear IH0.
    assert (LL : forall l : list pv, (forall y, In y l -> In y (kids x)) -> map sort_json (map to_json (map canon l)) = map sort_json (map to_json l)).
    { intros l Hl. rewrite !map_map. apply map_ext_in. intros y Hy. apply IH, Hl, Hy. }
    destruct x as [| | | | | | | | sh l | | | | l | l | l | | t | ins ops outs | | sh l | | | | | g nm]; try reflexivity; cbn [wf_pv] in W.
    - cbn. rewrite (LL l) by auto. reflexivity.
    - cbn. rewrite (LL l) by auto. reflexivity.
    - cbn. rewrite (LL l) by auto. reflexivity.
    - destruct W as [_ Wk]. cbn [canon]. cbn [kids] in IH.
      assert (E : forall p, In p l -> sort_json (to_json (canon (snd p))) = sort_json (to_json (snd p))).
      { intros p Hp. apply IH. apply in_flat_map. exists p. split; [exact Hp|]. cbn. auto. }
      cbn [to_json]. destruct (existsb (fun p => negb (is_str (fst p))) l) eqn:Q.
      + cbn [to_json]. rewrite existsb_map. cbn [fst]. rewrite Q. cbn. do 4 f_equal. rewrite !map_map. cbn [fst snd].
        apply f_equal. apply map_ext_in. intros p Hp. cbn. rewrite E by exact Hp. reflexivity.
      + cbn [to_json]. rewrite existsb_map. cbn [fst].
        assert (Q2 : forall m : list (string * pv), existsb (fun p : string * pv => negb (is_str (PStr (fst p)))) m = false) by (induction m as [|a m IHm]; [reflexivity|exact IHm]).
        rewrite Q2. rewrite map_map. cbn [fst snd str_of].
        assert (ND := str_keys float_int l Q Wk).
        assert (ES : sort_json (JObj (map (fun x : string * pv => (fst x, to_json (snd x))) (sort_keys (map (fun p : pv * pv => (str_of (fst p), canon (snd p))) l))))
                     = sort_json (JObj (map (fun p : pv * pv => (str_of (fst p), to_json (snd p))) l))).
        { cbn [sort_json]. f_equal. rewrite (sort_again to_json (fun p : pv * pv => canon (snd p)) (fun p => str_of (fst p)) l ND), map_map. cbn [fst snd]. f_equal. apply map_ext_in. intros p Hp. rewrite E by exact Hp. reflexivity. }
        set (a := JObj _) in ES at 1. set (b := JObj _) in ES. fold a. fold b. clearbody a b. cbn. rewrite ES. reflexivity.
    - cbn [canon to_json]. apply sort_ty, W.
    - destruct W as (Wi & Wo & _). allf Wi. allf Wo. cbn [canon to_json].
      assert (EV : forall vs : list (string * ty), (forall v, In v vs -> wf_ty (snd v)) ->
        map sort_json (map (fun v : string * ty => JObj [("name", JStr (fst v)); ("type", ty_to_json (snd v))]) (map (fun v => (fst v, canon_ty (snd v))) vs)) = map sort_json (map (fun v : string * ty => JObj [("name", JStr (fst v)); ("type", ty_to_json (snd v))]) vs)).
      { intros vs Hv. rewrite !map_map. apply map_ext_in. intros v Hi. cbn. rewrite sort_ty by auto. reflexivity. }
      match goal with |- sort_json (tag _ [(_, JArr ?i1); (_, JArr ?o1); _]) = sort_json (tag _ [(_, JArr ?i2); (_, JArr ?o2); _]) =>
        assert (E1 : map sort_json i1 = map sort_json i2) by (apply EV; auto); assert (E2 : map sort_json o1 = map sort_json o2); [|revert E1 E2; generalize i1 i2 o1 o2; intros i1' i2' o1' o2' E1 E2; cbn; rewrite E1, E2; reflexivity] end.
      rewrite !map_map. apply map_ext_in. intros o Ho. destruct (Wo o Ho) as (Wv & _ & ND & _). allf Wv.
      cbn [g_opcode g_ins g_outs g_attrs g_regions g_name].
      assert (ER := LL (g_regions o) (fun y Hy => proj2 (in_flat_map _ _ _) (ex_intro _ o (conj Ho (in_or_app _ _ _ (or_intror Hy)))))).
      assert (EA : sort_json (JObj (map (fun p : string * pv => (fst p, to_json (snd p))) (sort_keys (map (fun p => (fst p, canon (snd p))) (g_attrs o))))) = sort_json (JObj (map (fun p => (fst p, to_json (snd p))) (g_attrs o)))).
      { cbn [sort_json]. f_equal. rewrite (sort_again to_json (fun p : string * pv => canon (snd p)) fst (g_attrs o) ND), map_map. cbn [fst snd]. f_equal. apply map_ext_in. intros p Hp. rewrite IH; [reflexivity|].
        cbn [kids]. apply in_flat_map. exists o. split; [exact Ho|]. apply in_or_app. left. apply in_map, Hp. }
      assert (EO := EV (g_outs o) Wv). revert ER EA EO.
      generalize (JObj (map (fun p : string * pv => (fst p, to_json (snd p))) (sort_keys (map (fun p => (fst p, canon (snd p))) (g_attrs o))))).
      generalize (JObj (map (fun p : string * pv => (fst p, to_json (snd p))) (g_attrs o))).
      generalize (map to_json (map canon (g_regions o))), (map to_json (g_regions o)).
      generalize (map (fun v : string * ty => JObj [("name", JStr (fst v)); ("type", ty_to_json (snd v))]) (map (fun v => (fst v, canon_ty (snd v))) (g_outs o))), (map (fun v : string * ty => JObj [("name", JStr (fst v)); ("type", ty_to_json (snd v))]) (g_outs o)).
      intros v1 v2 r1 r2 a2 a1 ER EA EO. cbn. rewrite ER, EA, EO. reflexivity.
    - cbn. rewrite (LL l) by auto. reflexivity.
    - cbn. rewrite IH by (left; reflexivity). reflexivity.
  Qed.
  Lemma digest_canon x : wf x -> graph_digest sha (norm (canon x)) = graph_digest sha x.
  Proof. intros W. unfold graph_digest. rewrite to_json_norm, sort_pv by exact W. reflexivity. Qed.

  (** ** Collecting operations *)
  Lemma frev {A B} (f : A -> list B) l : fold_right (fun x acc => acc ++ f x) [] l = flat_map f (rev l).
  Proof. induction l as [|x l IH]; [reflexivity|]. cbn. rewrite IH, flat_map_app. cbn. rewrite app_nil_r. reflexivity. Qed.
  Lemma iter_graph ins ops outs : iter_graphs (PGraph ins ops outs) = PGraph ins ops outs :: flat_map (fun o => flat_map iter_graphs (rev (g_regions o))) (rev ops).
  Proof.
    cbn [iter_graphs]. f_equal. rewrite (frev (fun o => fold_right (fun r acc => acc ++ iter_graphs r) [] (g_regions o)) ops).
    apply flat_map_ext. intros o. apply frev.
  Qed.
  Lemma iter_other x : (forall ins ops outs, x <> PGraph ins ops outs) -> iter_graphs x = [x].
  Proof. intros H. destruct x; try reflexivity. elim (H ins ops outs); reflexivity. Qed.
  Definition nc (x : pv) : pv := norm (canon x).
  Lemma nc_graph ins ops outs : nc (PGraph ins ops outs) = PGraph (map cvar ins) (map cop ops) outs.
  Proof.
    unfold nc. cbn [norm canon]. f_equal. rewrite map_map. apply map_ext. intros o. unfold cop. cbn [g_opcode g_ins g_outs g_attrs g_regions g_name].
    rewrite map_map, <- (sort_map norm), (map_map (fun p : string * pv => (fst p, canon (snd p)))). reflexivity.
  Qed.
  Lemma nc_not_graph x : (forall ins ops outs, x <> PGraph ins ops outs) -> forall ins ops outs, nc x <> PGraph ins ops outs.
  Proof. intros H ins ops outs E. destruct x; unfold nc in E; cbn in E; try discriminate E. - destruct (existsb _ items) in E; discriminate E. - exact (H _ _ _ eq_refl). Qed.
  Lemma in_flat_rev {A B} (f : A -> list B) l y : In y (flat_map f (rev l)) <-> exists x, In x l /\ In y (f x).
  Proof. rewrite in_flat_map. split; intros (x & Hx & Hy); exists x; rewrite <- in_rev in *; auto. Qed.
  Lemma iter_nc : forall x, iter_graphs (nc x) = map nc (iter_graphs x).
  Proof.
    apply kids_ind. intros x IH. assert (D : (exists ins ops outs, x = PGraph ins ops outs) \/ (forall ins ops outs, x <> PGraph ins ops outs)) by (destruct x; try (right; discriminate); left; eauto).
    destruct D as [(ins & ops & outs & ->)|N]; [|rewrite (iter_other x N), iter_other by (apply nc_not_graph, N); reflexivity].
    rewrite nc_graph, !iter_graph. cbn [map]. rewrite nc_graph. f_equal. rewrite <- map_rev.
    assert (HI : forall o, In o (rev ops) -> forall r, In r (rev (g_regions o)) -> iter_graphs (nc r) = map nc (iter_graphs r)).
    { intros o Ho r Hr. apply IH. cbn. apply in_flat_map. exists o. rewrite <- in_rev in Ho, Hr. split; [exact Ho|]. apply in_or_app. right. exact Hr. }
    induction (rev ops) as [|o l IHl]; [reflexivity|]. cbn [map flat_map]. rewrite map_app, IHl by (intros o' Ho'; apply HI; right; exact Ho'). f_equal.
    cbn [g_regions cop]. change (fun r : pv => norm (canon r)) with nc. rewrite <- map_rev. specialize (HI o (or_introl eq_refl)). clear - HI.
    induction (rev (g_regions o)) as [|r l IHl]; [reflexivity|]. cbn. rewrite map_app, IHl by (intros r' Hr'; apply HI; right; exact Hr'). rewrite HI by (left; reflexivity). reflexivity.
  Qed.
  Definition rfmap {A B} (f : A -> B) (r : res A) : res B := match r with Ok a => Ok (f a) | ValueErr => ValueErr | KeyErr => KeyErr | TypeErr => TypeErr | IndexErr => IndexErr end.
  Lemma ops_nc x : ops_of (nc x) = rfmap (map cop) (ops_of x).
  Proof. destruct x; try reflexivity. - unfold nc. cbn. destruct (existsb _ items); reflexivity. - rewrite nc_graph. reflexivity. Qed.
  Lemma all_ops_nc x : all_ops (nc x) = rfmap (map cop) (all_ops x).
  Proof.
    unfold all_ops. rewrite iter_nc. generalize (iter_graphs x). intros l.
    assert (E : rmap ops_of (map nc l) = rfmap (map (map cop)) (rmap ops_of l)).
    { induction l as [|y l IHl]; [reflexivity|]. cbn. rewrite ops_nc, IHl. destruct (ops_of y); cbn; auto. destruct (rmap ops_of l); reflexivity. }
    rewrite E. destruct (rmap ops_of l) as [m| | | |]; cbn; auto. rewrite concat_map. reflexivity.
  Qed.
  Lemma opcodes_nc x : collect_opcodes (nc x) = collect_opcodes x.
  Proof.
    unfold collect_opcodes. rewrite all_ops_nc. destruct (all_ops x) as [l| | | |]; cbn; auto. f_equal. generalize (@nil string). induction l as [|o l IH]; intros s; [reflexivity|]. cbn. apply IH.
  Qed.
  Lemma sfind_none {A} k (l : list (string * A)) : ~ In k (map fst l) -> sfind k l = None.
  Proof. induction l as [|[k' v] l IH]; intros H; [reflexivity|]. cbn in *. destruct (String.eqb_spec k' k); [tauto|]. apply IH. tauto. Qed.
  Lemma sfind_in {A} k (v : A) (l : list (string * A)) : NoDup (map fst l) -> (In (k, v) l <-> sfind k l = Some v).
  Proof.
    induction l as [|[k' v'] l IH]; intros ND; cbn; [split; [tauto|discriminate]|]. inversion ND as [|? ? N1 N2]; subst. destruct (String.eqb_spec k' k) as [->|Hk].
    - split; [|intros E; injection E as ->; auto]. intros [E|Hi]; [congruence|]. elim N1. apply (in_map fst) in Hi. exact Hi.
    - rewrite <- IH by exact N2. split; [intros [E|Hi]; [congruence|exact Hi]|auto].
  Qed.
  Lemma sfind_sort {A B} (f : A -> B) k (l : list (string * A)) : NoDup (map fst l) -> sfind k (sort_keys (map (fun p => (fst p, f (snd p))) l)) = option_map f (sfind k l).
  Proof.
    intros ND. rewrite (sort_map f l). assert (E : forall m : list (string * A), sfind k (map (fun p => (fst p, f (snd p))) m) = option_map f (sfind k m)).
    { induction m as [|[k' v] m IH]; [reflexivity|]. cbn. destruct (String.eqb k' k); auto. }
    rewrite E. f_equal. destruct (sfind k l) as [v|] eqn:Q.
    - apply (sfind_in k v _ (sort_nodup _ ND)). apply sort_in. apply sfind_in; auto.
    - apply sfind_none. intros Hi. apply in_map_iff in Hi. destruct Hi as ([k' v] & <- & Hi). apply (proj1 (sort_in l _)) in Hi. apply (sfind_in _ _ _ ND) in Hi. cbn in Q. congruence.
  Qed.
  Lemma pv_int_nc p : pv_int float_trunc str_int (nc p) = pv_int float_trunc str_int p.
  Proof. destruct p; try reflexivity. unfold nc. cbn. destruct (existsb _ items); reflexivity. Qed.
  Lemma parties_nc o : NoDup (map fst (g_attrs o)) -> parties (cop o) = parties o.
  Proof.
    intros ND. unfold op_parties, cop. cbn [g_attrs]. change (fun p : string * pv => (fst p, norm (canon (snd p)))) with (fun p : string * pv => (fst p, nc (snd p))). rewrite sfind_sort by exact ND.
    assert (EL : forall l, rmap (fun p => z <- pv_int float_trunc str_int p ;; if z <? 0 then ValueErr else Ok z) (map nc l) = rmap (fun p => z <- pv_int float_trunc str_int p ;; if z <? 0 then ValueErr else Ok z) l).
    { induction l as [|p l IH]; [reflexivity|]. cbn. rewrite pv_int_nc, IH. reflexivity. }
    destruct (sfind "parties" (g_attrs o)) as [v|]; [|reflexivity]. destruct v; try reflexivity; cbn [option_map].
    - unfold nc. cbn [canon norm]. rewrite map_map. apply EL.
    - unfold nc. cbn [canon norm]. rewrite map_map. apply EL.
    - unfold nc. cbn. destruct (existsb _ items); reflexivity.
  Qed.
  Lemma wf_iter : forall x, wf x -> forall y, In y (iter_graphs x) -> wf y.
  Proof.
    apply (kids_ind (fun x => wf x -> forall y, In y (iter_graphs x) -> wf y)). intros x IH W y Hy.
    assert (D : (exists ins ops outs, x = PGraph ins ops outs) \/ (forall ins ops outs, x <> PGraph ins ops outs)) by (destruct x; try (right; discriminate); left; eauto).
    destruct D as [(ins & ops & outs & ->)|N]; [|rewrite (iter_other x N) in Hy; destruct Hy as [<-|[]]; exact W].
    rewrite iter_graph in Hy. destruct Hy as [<-|Hy]; [exact W|]. apply in_flat_rev in Hy. destruct Hy as (o & Ho & Hy). apply in_flat_rev in Hy. destruct Hy as (r & Hr & Hy).
    assert (K : In r (kids (PGraph ins ops outs))) by (cbn; apply in_flat_map; exists o; split; [exact Ho|]; apply in_or_app; right; exact Hr).
    exact (IH r K (wf_kids _ W r K) y Hy).
  Qed.
  Lemma rmap_ops l ops : rmap ops_of l = Ok ops -> forall o, In o (List.concat ops) <-> exists ins os outs, In (PGraph ins os outs) l /\ In o os.
  Proof.
    revert ops. induction l as [|x l IH]; intros ops H o; cbn in H; [injection H as <-; cbn; split; [tauto|intros (? & ? & ? & [] & _)]|].
    destruct (ops_of x) as [os| | | |] eqn:E; cbn in H; try discriminate H. destruct (rmap ops_of l) as [m| | | |]; cbn in H; try discriminate H. injection H as <-. cbn. rewrite in_app_iff, (IH m eq_refl).
    destruct x; cbn in E; try discriminate E. injection E as ->. split.
    - intros [Hi|(i & s & u & Hi & Hs)]; [exists ins, os, outs; auto|exists i, s, u; auto].
    - intros (i & s & u & [Hi|Hi] & Hs); [injection Hi as -> -> ->; auto|right; exists i, s, u; auto].
  Qed.
  Lemma iter_op_in : forall g o, (exists ins os outs, In (PGraph ins os outs) (iter_graphs g) /\ In o os) <-> op_in g o.
  Proof.
    intros g o. split.
    - revert g. apply (kids_ind (fun g => (exists ins os outs, In (PGraph ins os outs) (iter_graphs g) /\ In o os) -> op_in g o)). intros x IH (ins & os & outs & Hi & Ho).
      assert (D : (exists ins ops outs, x = PGraph ins ops outs) \/ (forall ins ops outs, x <> PGraph ins ops outs)) by (destruct x; try (right; discriminate); left; eauto).
      destruct D as [(ins' & ops' & outs' & ->)|N]; [|rewrite (iter_other x N) in Hi; destruct Hi as [-> |[]]; apply OpHere, Ho].
      rewrite iter_graph in Hi. destruct Hi as [Hi|Hi]; [injection Hi as -> -> ->; apply OpHere, Ho|]. apply in_flat_rev in Hi. destruct Hi as (o1 & Ho1 & Hi). apply in_flat_rev in Hi. destruct Hi as (r & Hr & Hi).
      apply (OpBelow _ _ _ o1 r); auto. apply IH; [|eauto 8]. cbn. apply in_flat_map. exists o1. split; [exact Ho1|]. apply in_or_app. right. exact Hr.
    - induction 1 as [ins ops outs o Ho|ins ops outs o1 r o Ho1 Hr H (i & s & u & Hi & Hs)].
      + exists ins, ops, outs. rewrite iter_graph. split; [left; reflexivity|exact Ho].
      + exists i, s, u. split; [|exact Hs]. rewrite iter_graph. right. apply in_flat_rev. exists o1. split; [exact Ho1|]. apply in_flat_rev. eauto.
  Qed.
  Lemma all_ops_in g l : all_ops g = Ok l -> forall o, In o l <-> op_in g o.
  Proof.
    unfold all_ops. destruct (rmap ops_of (iter_graphs g)) as [m| | | |] eqn:E; cbn; intros H; try discriminate H. injection H as <-. intros o. rewrite (rmap_ops _ _ E), iter_op_in. reflexivity.
  Qed.
  Lemma op_nodup g o : wf g -> op_in g o -> NoDup (map fst (g_attrs o)).
  Proof.
    intros W H. apply iter_op_in in H. destruct H as (i & s & u & Hi & Ho). apply (wf_iter g W) in Hi. cbn [wf_pv] in Hi. destruct Hi as (_ & Hi & _). allf Hi. apply (Hi o Ho).
  Qed.
  Lemma collect_parties_nc g : wf g -> collect_parties float_trunc str_int (nc g) = collect_parties float_trunc str_int g.
  Proof.
    intros W. unfold collect_parties. rewrite all_ops_nc. destruct (all_ops g) as [l| | | |] eqn:E; cbn; auto.
    assert (EQ : rmap parties (map cop l) = rmap parties l).
    { assert (H : forall o, In o l -> NoDup (map fst (g_attrs o))) by (intros o Ho; apply (op_nodup g); [exact W|apply (all_ops_in g l E), Ho]). clear E.
      induction l as [|o l IH]; [reflexivity|]. cbn. rewrite parties_nc by (apply H; left; reflexivity). rewrite IH by (intros p Hp; apply H; right; exact Hp). reflexivity. }
    rewrite EQ. reflexivity.
  Qed.
  Lemma wsize_nc g : wf g -> wsize (nc g) = wsize g.
  Proof. intros W. unfold required_world_size. rewrite collect_parties_nc by exact W. reflexivity. Qed.

  (** ** Sets of opcodes, the largest party *)
  Lemma add_str_in s l x : In x (add_str s l) <-> x = s \/ In x l.
  Proof.
    unfold add_str. destruct (existsb (String.eqb s) l) eqn:E; [|cbn; split; intros [H|H]; auto].
    split; [auto|]. intros [->|H]; [|exact H]. apply existsb_exists in E. destruct E as (y & Hy & E). apply String.eqb_eq in E. subst. exact Hy.
  Qed.
  Lemma add_str_nodup s l : NoDup l -> NoDup (add_str s l).
  Proof.
    intros H. unfold add_str. destruct (existsb (String.eqb s) l) eqn:E; [exact H|]. constructor; [|exact H]. intros Hi.
    assert (existsb (String.eqb s) l = true) by (apply existsb_exists; exists s; split; [exact Hi|apply String.eqb_refl]). congruence.
  Qed.
  Lemma codes_fold (l : list (gop pv)) : forall s, NoDup s -> NoDup (fold_left (fun s o => add_str (g_opcode o) s) l s) /\ forall c, In c (fold_left (fun s o => add_str (g_opcode o) s) l s) <-> In c s \/ exists o, In o l /\ g_opcode o = c.
  Proof.
    induction l as [|o l IH]; intros s ND; cbn; [split; [exact ND|]; intros c; split; [auto|intros [H|(? & [] & _)]; exact H]|].
    destruct (IH _ (add_str_nodup (g_opcode o) s ND)) as [H1 H2]. split; [exact H1|]. intros c. rewrite H2, add_str_in. split.
    - intros [[->|H]|(o' & Ho & E)]; eauto.
    - intros [H|(o' & [<-|Ho] & E)]; eauto.
  Qed.
  Lemma codes_spec g l : collect_opcodes g = Ok l -> NoDup l /\ forall c, In c l <-> exists o, op_in g o /\ g_opcode o = c.
  Proof.
    unfold collect_opcodes. destruct (all_ops g) as [ops| | | |] eqn:E; cbn; intros H; try discriminate H. injection H as <-.
    destruct (codes_fold ops [] (NoDup_nil _)) as [H1 H2]. split; [exact H1|]. intros c. rewrite H2. split.
    - intros [[]|(o & Ho & Ec)]. exists o. split; [apply (all_ops_in g ops E), Ho|exact Ec].
    - intros (o & Ho & Ec). right. exists o. split; [apply (all_ops_in g ops E), Ho|exact Ec].
  Qed.
  Lemma insert_str_perm s l : Permutation (s :: l) (insert_str s l).
  Proof. induction l as [|x l IH]; cbn; [auto|]. destruct (String.leb s x); [auto|]. rewrite perm_swap. auto. Qed.
  Lemma sorted_perm l : Permutation l (sorted l).
  Proof. induction l as [|x l IH]; cbn; [auto|]. rewrite <- insert_str_perm. auto. Qed.
  Lemma str_list_eqb_eq a : forall b, str_list_eqb a b = true <-> a = b.
  Proof.
    induction a as [|x a IH]; intros [|y b]; cbn; split; intros H; try discriminate H; auto.
    - apply andb_prop in H. destruct H as [H1 H2]. apply String.eqb_eq in H1. apply IH in H2. congruence.
    - injection H as -> ->. rewrite String.eqb_refl. cbn. apply IH. reflexivity.
  Qed.
  Lemma strings_map l : strings (map JStr l) = Some l.
  Proof. induction l as [|x l IH]; [reflexivity|]. cbn. rewrite IH. reflexivity. Qed.
  Lemma strings_some j : forall l, strings j = Some l -> j = map JStr l.
  Proof.
    induction j as [|x j IH]; intros l H; cbn in H; [injection H as <-; reflexivity|]. destruct x; try discriminate H.
    destruct (strings j) as [m|]; cbn in H; [|discriminate H]. injection H as <-. cbn. rewrite (IH m eq_refl). reflexivity.
  Qed.
  Lemma sorted_id_of_sorted l : sorted (sorted l) = sorted l.
  Proof.
    assert (S : forall l, StronglySorted (fun a b => String.leb a b = true) (sorted l)).
    { induction l0 as [|x m IH]; [constructor|]. change (sorted (x :: m)) with (insert_str x (sorted m)). clear - IH. revert IH. generalize (sorted m). intros n H. induction H as [|y n Hn IHn F]; cbn; [repeat constructor|].
      destruct (String.leb x y) eqn:E.
      - constructor; [constructor; assumption|]. constructor; [exact E|]. rewrite Forall_forall in *. intros q Hq. exact (leb_trans x y q E (F q Hq)).
      - constructor; [exact IHn|]. assert (E' : String.leb y x = true) by (destruct (String.leb_total x y); congruence). apply (Permutation_Forall (insert_str_perm x n)). constructor; [exact E'|exact F]. }
    specialize (S l). induction S as [|x m H IH F]; [reflexivity|]. cbn. change (fold_right insert_str [] m) with (sorted m). rewrite IH. destruct m as [|y m]; [reflexivity|]. cbn. inversion F as [|? ? H1 H2]; subst. rewrite H1. reflexivity.
  Qed.
  Lemma same_opcodes_compile l : same_opcodes (map JStr (sorted l)) (sorted l) = true.
  Proof. unfold same_opcodes. rewrite strings_map. apply str_list_eqb_eq. apply sorted_id_of_sorted. Qed.
  Lemma same_opcodes_spec r l : same_opcodes r (sorted l) = true -> exists m, r = map JStr m /\ Permutation m l.
  Proof.
    unfold same_opcodes. destruct (strings r) as [m|] eqn:E; intros H; [|discriminate H]. exists m. split; [apply strings_some, E|]. apply str_list_eqb_eq in H. rewrite (sorted_perm m), (sorted_perm l), H. reflexivity.
  Qed.

  Lemma max_fold l : forall p, (forall x, In x (p :: l) -> x <= fold_left Z.max l p) /\ In (fold_left Z.max l p) (p :: l).
  Proof.
    induction l as [|y l IH]; intros p; cbn [fold_left]; [split; [intros x [->|[]]; lia|left; reflexivity]|]. destruct (IH (Z.max p y)) as [H1 H2]. split.
    - intros x [->|[->|Hx]]; [| |apply H1; right; exact Hx]; specialize (H1 (Z.max _ _) (or_introl eq_refl)); lia.
    - destruct H2 as [H2|H2]; [|right; right; exact H2]. rewrite <- H2. destruct (Z.max_spec p y) as [[_ ->]|[_ ->]]; cbn; auto.
  Qed.
  Lemma rmap_in {A B} (f : A -> res B) l : forall r, rmap f l = Ok r -> (forall y, In y r <-> exists x, In x l /\ f x = Ok y) /\ forall x, In x l -> exists y, f x = Ok y.
  Proof.
    induction l as [|x l IH]; intros r H; cbn in H; [injection H as <-; split; [intros y; split; [intros []|intros (? & [] & _)]|intros ? []]|].
    destruct (f x) as [y| | | |] eqn:E; cbn in H; try discriminate H. destruct (rmap f l) as [ys| | | |] eqn:E'; cbn in H; try discriminate H. injection H as <-.
    destruct (IH ys eq_refl) as [H1 H2]. split.
    - intros z. cbn. rewrite H1. split; [intros [<-|(w & Hw & Ew)]; eauto|intros (w & [<-|Hw] & Ew); [left; congruence|eauto]].
    - intros z [<-|Hz]; eauto.
  Qed.
  Lemma rmap_total {A B} (f : A -> res B) l : (forall x, In x l -> exists y, f x = Ok y) -> exists r, rmap f l = Ok r.
  Proof.
    induction l as [|x l IH]; intros H; cbn; [eauto|]. destruct (H x (or_introl eq_refl)) as [y ->]. destruct IH as [r ->]; [intros z Hz; apply H; right; exact Hz|]. cbn. eauto.
  Qed.
  Lemma parties_list l r : rmap (fun p => z <- pv_int float_trunc str_int p ;; if z <? 0 then ValueErr else Ok z) l = Ok r ->
    (forall z, In z r <-> exists x, In x l /\ pv_int float_trunc str_int x = Ok z) /\ forall z, In z r -> 0 <= z.
  Proof.
    intros H. destruct (rmap_in _ _ _ H) as [H1 H2].
    assert (H3 : forall x y, In x l -> (z <- pv_int float_trunc str_int x ;; if z <? 0 then ValueErr else Ok z) = Ok y <-> pv_int float_trunc str_int x = Ok y).
    { intros x y Hx. destruct (H2 x Hx) as [y' Ey]. destruct (pv_int float_trunc str_int x) as [z| | | |]; cbn in *; try discriminate Ey. destruct (z <? 0); [discriminate Ey|reflexivity]. }
    split.
    - intros z. rewrite H1. split; intros (x & Hx & E); exists x; (split; [exact Hx|]); apply (H3 x z Hx); exact E.
    - intros z Hz. apply H1 in Hz. destruct Hz as (x & Hx & E). destruct (pv_int float_trunc str_int x) as [v| | | |]; cbn in E; try discriminate E. destruct (v <? 0) eqn:Q; [discriminate E|]. injection E as <-. apply Z.ltb_ge. exact Q.
  Qed.
  Lemma op_parties_spec o r : parties o = Ok r ->
    (forall z, In z r <-> exists l x, (sfind "parties" (g_attrs o) = Some (PList l) \/ sfind "parties" (g_attrs o) = Some (PTuple l)) /\ In x l /\ pv_int float_trunc str_int x = Ok z) /\ forall z, In z r -> 0 <= z.
  Proof.
    unfold op_parties. destruct (sfind "parties" (g_attrs o)) as [v|].
    2:{ intros H. injection H as <-. split; [|intros z []]. intros z. split; [intros []|intros (l & x & [E|E] & _); discriminate E]. }
    destruct v; intros H; try discriminate H.
    - injection H as <-. split; [|intros z []]. intros z. split; [intros []|intros (l & x & [E|E] & _); discriminate E].
    - destruct (parties_list l r H) as [H1 H2]. split; [|exact H2]. intros z. rewrite H1. split.
      + intros (x & Hx & E). exists l, x. auto.
      + intros (l' & x & [E'|E'] & Hx & E); [injection E' as ->; eauto|discriminate E'].
    - destruct (parties_list l r H) as [H1 H2]. split; [|exact H2]. intros z. rewrite H1. split.
      + intros (x & Hx & E). exists l, x. auto.
      + intros (l' & x & [E'|E'] & Hx & E); [discriminate E'|injection E' as ->; eauto].
  Qed.
  Lemma wsize_spec g w : wsize g = Ok w -> world_of float_trunc str_int g w.
  Proof.
    unfold required_world_size, collect_parties. destruct (all_ops g) as [ops| | | |] eqn:E; cbn; intros H; try discriminate H.
    destruct (rmap parties ops) as [ps| | | |] eqn:E'; cbn in H; try discriminate H.
    destruct (rmap_in _ _ _ E') as [H1 H2].
    assert (HP : forall z, party_listed float_trunc str_int g z <-> In z (List.concat ps)).
    { intros z. unfold party_listed. rewrite in_concat. split.
      - intros (o & l & x & Ho & Hs & Hx & Ez). apply (all_ops_in g ops E) in Ho. destruct (H2 o Ho) as [r Er]. exists r. split; [apply H1; eauto|]. apply (proj1 (op_parties_spec o r Er)). eauto.
      - intros (r & Hr & Hz). apply H1 in Hr. destruct Hr as (o & Ho & Er). apply (proj1 (op_parties_spec o r Er)) in Hz. destruct Hz as (l & x & Hs & Hx & Ez). exists o, l, x. split; [apply (all_ops_in g ops E), Ho|auto]. }
    assert (H0 : forall z, In z (List.concat ps) -> 0 <= z).
    { intros z Hz. apply in_concat in Hz. destruct Hz as (r & Hr & Hz). apply H1 in Hr. destruct Hr as (o & Ho & Er). exact (proj2 (op_parties_spec o r Er) z Hz). }
    destruct (List.concat ps) as [|p l]; injection H as <-.
    - split; [lia|]. split; [|left; reflexivity]. intros z Hz. apply HP in Hz. destruct Hz.
    - destruct (max_fold l p) as [M1 M2]. specialize (H0 _ M2) as M0. split; [lia|]. split.
      + intros z Hz. apply HP in Hz. specialize (M1 z Hz). specialize (H0 z Hz). lia.
      + right. apply HP. replace (fold_left Z.max l p + 1 - 1) with (fold_left Z.max l p) by lia. exact M2.
  Qed.
  Lemma world_unique g w w' : world_of float_trunc str_int g w -> world_of float_trunc str_int g w' -> w = w'.
  Proof.
    intros (A1 & A2 & A3) (B1 & B2 & B3). destruct A3 as [->|A3], B3 as [->|B3]; auto.
    - apply A2 in B3. lia.
    - apply B2 in A3. lia.
    - apply B2 in A3. apply A2 in B3. lia.
  Qed.

  (** ** graphs_only *)
  Lemma iter_graphs_only : forall g, graphs_only g <-> forall x, In x (iter_graphs g) -> exists ins ops outs, x = PGraph ins ops outs.
  Proof.
    apply kids_ind. intros g IH. split.
    - intros H. inversion H as [ins ops outs HR]; subst. intros x Hx. rewrite iter_graph in Hx. destruct Hx as [<-|Hx]; [eauto|]. apply in_flat_rev in Hx. destruct Hx as (o & Ho & Hx). apply in_flat_rev in Hx. destruct Hx as (r & Hr & Hx).
      assert (K : In r (kids (PGraph ins ops outs))) by (cbn; apply in_flat_map; exists o; split; [exact Ho|]; apply in_or_app; right; exact Hr).
      exact (proj1 (IH r K) (HR o r Ho Hr) x Hx).
    - intros H. destruct (H g) as (ins & ops & outs & ->); [destruct g; left; reflexivity|]. constructor. intros o r Ho Hr.
      assert (K : In r (kids (PGraph ins ops outs))) by (cbn; apply in_flat_map; exists o; split; [exact Ho|]; apply in_or_app; right; exact Hr).
      apply (IH r K). intros x Hx. apply H. rewrite iter_graph. right. apply in_flat_rev. exists o. split; [exact Ho|]. apply in_flat_rev. eauto.
  Qed.
  Lemma all_ops_graphs g : graphs_only g <-> exists l, all_ops g = Ok l.
  Proof.
    rewrite iter_graphs_only. unfold all_ops. split.
    - intros H. destruct (rmap_total ops_of (iter_graphs g)) as [r ->]; [|cbn; eauto]. intros x Hx. destruct (H x Hx) as (i & o & u & ->). cbn. eauto.
    - intros [l E] x Hx. destruct (rmap ops_of (iter_graphs g)) as [m| | | |] eqn:Q; cbn in E; try discriminate E. destruct (proj2 (rmap_in _ _ _ Q) x Hx) as [y Ey]. destruct x; cbn in Ey; try discriminate Ey. eauto.
  Qed.
  Lemma wsize_total g : graphs_only g -> parties_ok float_trunc str_int g -> exists w, wsize g = Ok w.
  Proof.
    intros G P. apply all_ops_graphs in G. destruct G as [l E]. unfold required_world_size, collect_parties. rewrite E. cbn.
    destruct (rmap_total parties l) as [r ->]; [|cbn; eauto]. intros o Ho. apply (all_ops_in g l E) in Ho. specialize (P o Ho). unfold op_parties.
    destruct (sfind "parties" (g_attrs o)) as [v|]; [|eauto]. destruct v; try contradiction P; [eauto| |]; apply rmap_total; intros x Hx; destruct (P x Hx) as (z & -> & Hz); cbn; replace (z <? 0) with false by (symmetry; apply Z.ltb_ge; exact Hz); eauto.
  Qed.
  Lemma wsize_parties_ok g w : wsize g = Ok w -> graphs_only g /\ parties_ok float_trunc str_int g.
  Proof.
    unfold required_world_size, collect_parties. destruct (all_ops g) as [ops| | | |] eqn:E; cbn; intros H; try discriminate H. split; [apply all_ops_graphs; eauto|].
    destruct (rmap parties ops) as [ps| | | |] eqn:E'; cbn in H; try discriminate H. intros o Ho. apply (all_ops_in g ops E) in Ho. destruct (proj2 (rmap_in _ _ _ E') o Ho) as [r Er]. unfold op_parties in Er.
    destruct (sfind "parties" (g_attrs o)) as [v|]; [|exact I]. destruct v; try discriminate Er; try exact I; intros x Hx; destruct (parties_list _ _ Er) as [H1 H2];
      destruct (proj2 (rmap_in _ _ _ Er) x Hx) as [z Ez]; (destruct (pv_int float_trunc str_int x) as [v| | | |]; cbn in Ez; try discriminate Ez); destruct (v <? 0) eqn:Q; try discriminate Ez; exists v; split; [reflexivity|apply Z.ltb_ge, Q|reflexivity|apply Z.ltb_ge, Q].
  Qed.
  Lemma codes_total g : graphs_only g -> exists l, collect_opcodes g = Ok l.
  Proof. intros G. apply all_ops_graphs in G. destruct G as [l E]. unfold collect_opcodes. rewrite E. cbn. eauto. Qed.

  (** ** The validator *)
  Notation validate := (validate float_trunc str_int sha).
  Lemma validate_iff p : validate p = Ok tt <-> consistent float_trunc str_int sha p /\ parties_ok float_trunc str_int (p_graph p).
  Proof.
    unfold ProgramModel.validate, consistent. destruct (p_graph p) as [| | | | | | | | | | | | | | | | | ins ops outs | | | | | | |] eqn:G;
      try (cbn; split; [discriminate|intros [(H & _) _]; inversion H]).
    cbn [graph_ins graph_outs rbind]. rewrite <- G. unfold len. split.
    - destruct (Z.eqb_spec (p_inputs p) (Z.of_nat (List.length ins))) as [Ei|Ei]; [|discriminate]. destruct (Z.eqb_spec (p_outputs p) (Z.of_nat (List.length outs))) as [Eo|Eo]; [|discriminate]. cbn [negb].
      destruct (collect_opcodes (p_graph p)) as [codes| | | |] eqn:EC; cbn [rbind]; try discriminate. destruct (same_opcodes (p_opcodes p) (sorted codes)) eqn:ES; cbn [negb]; [|discriminate].
      destruct (negb (String.eqb (p_digest p) "") && negb (String.eqb (p_digest p) (graph_digest sha (p_graph p)))) eqn:ED; [discriminate|].
      destruct (wsize (p_graph p)) as [w| | | |] eqn:EW; cbn [rbind]; try discriminate. intros H.
      destruct (wsize_parties_ok _ _ EW) as [HG HP]. split; [|exact HP]. split; [exact HG|]. split; [eauto 8|]. split; [|split].
      + destruct (same_opcodes_spec _ _ ES) as (m & Em & Pm). destruct (codes_spec _ _ EC) as [C1 C2]. exists m. split; [exact Em|]. split; [apply (Permutation_NoDup (Permutation_sym Pm)), C1|].
        intros c. rewrite <- C2. split; apply Permutation_in; [exact Pm|symmetry; exact Pm].
      + destruct (String.eqb_spec (p_digest p) ""); [left; assumption|]. destruct (String.eqb_spec (p_digest p) (graph_digest sha (p_graph p))); [right; assumption|discriminate ED].
      + destruct (p_world p) as [v|]; [|left; reflexivity]. right. exists v. split; [reflexivity|]. destruct (Z.eqb_spec v w); [|discriminate H]. subst. apply wsize_spec, EW.
    - intros [(HG & (i & o & u & E & Ei & Eo) & (codes & Ec & ND & HC) & HD & HW) HP]. rewrite G in E. injection E as <- <- <-.
      rewrite Ei, Eo, !Z.eqb_refl. cbn [negb]. destruct (codes_total _ HG) as [l EC]. rewrite EC. cbn [rbind].
      destruct (codes_spec _ _ EC) as [C1 C2].
      assert (PM : Permutation codes l) by (apply NoDup_Permutation; auto; intros c; rewrite HC, C2; reflexivity).
      assert (ES : same_opcodes (p_opcodes p) (sorted l) = true).
      { unfold same_opcodes. rewrite Ec, strings_map. apply str_list_eqb_eq. pose proof (sort_unique (map (fun s => (s, tt)) codes) (map (fun s => (s, tt)) l)) as SU. rewrite map_map in SU. cbn in SU. rewrite map_id in SU. specialize (SU ND (Permutation_map _ PM)).
        assert (TR : forall m, map fst (sort_keys (map (fun s => (s, tt)) m)) = sorted m).
        { induction m as [|s m IH]; [reflexivity|]. change (map fst (insert_key s tt (sort_keys (map (fun s0 : string => (s0, tt)) m))) = insert_str s (sorted m)). rewrite <- IH. generalize (sort_keys (map (fun s0 : string => (s0, tt)) m)). intros q. induction q as [|[k t] q IHq]; [reflexivity|]. cbn. destruct (String.leb s k); [reflexivity|]. cbn. rewrite IHq. reflexivity. }
        rewrite <- !TR, SU. reflexivity. }
      rewrite ES. cbn [negb].
      replace (negb (String.eqb (p_digest p) "") && negb (String.eqb (p_digest p) (graph_digest sha (p_graph p)))) with false.
      2:{ symmetry. destruct HD as [->| ->]; [reflexivity|]. unfold graph_digest. rewrite String.eqb_refl. apply andb_false_r. }
      destruct (wsize_total _ HG HP) as [w EW]. rewrite EW. cbn [rbind]. destruct HW as [->|(v & -> & Hv)]; [reflexivity|].
      rewrite (world_unique _ _ _ Hv (wsize_spec _ _ EW)), Z.eqb_refl. reflexivity.
  Qed.

  (** ** Round trip *)
  Lemma text_sort j : text j -> sort_json j = j.
  Proof. intros [->|[s [-> _]]]; reflexivity. Qed.
  Lemma validate_nc p : wf (p_graph p) -> validate p = Ok tt -> validate (canon_program p) = Ok tt.
  Proof.
    intros W. unfold ProgramModel.validate, canon_program. cbn [p_graph p_inputs p_outputs p_opcodes p_digest p_world].
    destruct (p_graph p) as [| | | | | | | | | | | | | | | | | ins ops outs | | | | | | |] eqn:G; try discriminate.
    change (norm (canon (PGraph ins ops outs))) with (nc (PGraph ins ops outs)). rewrite opcodes_nc, (wsize_nc _ W).
    replace (graph_digest sha (nc (PGraph ins ops outs))) with (graph_digest sha (PGraph ins ops outs)) by (symmetry; apply digest_canon, W).
    rewrite nc_graph. cbn [graph_ins graph_outs rbind]. unfold len. rewrite map_length. auto.
  Qed.
  Theorem pack_unpack limit p :
    (let j := sort_json (program_to_json p) in parse (print j) = Some j) ->
    wf (p_graph p) -> validate p = Ok tt -> p_schema p = 1 -> text (p_created p) -> text (p_version p) -> text (p_name p) ->
    Z.of_nat (String.length (print (sort_json (program_to_json p)))) <= limit ->
    unpack float_int itemsize float_trunc str_int py_str sha parse limit (pack print p) = Ok (canon_program p).
  Proof.
    intros HP W V HS T1 T2 T3 L. unfold unpack, pack, getmember. cbn [fold_left m_name m_file m_data String.eqb Ascii.eqb Bool.eqb]. cbn [negb].
    replace (limit <? Z.of_nat (String.length (print (sort_json (program_to_json p))))) with false by (symmetry; apply Z.ltb_ge; exact L). rewrite HP.
    assert (EO : exists codes, p_opcodes p = map JStr codes).
    { apply validate_iff in V. destruct V as [(_ & _ & (codes & E & _) & _) _]. eauto. }
    destruct EO as [codes EO].
    assert (EG : exists ins ops outs, p_graph p = PGraph ins ops outs).
    { apply validate_iff in V. destruct V as [(_ & (i & o & u & E & _) & _) _]. eauto. }
    destruct EG as (ins & ops & outs & EG).
    assert (R : program_from_json float_int itemsize float_trunc str_int py_str (sort_json (program_to_json p)) = Ok (canon_program p)).
    { pose proof (sorted_roundtrip float_int itemsize (p_graph p) W) as RT.
      unfold program_to_json. revert RT. generalize (to_json (p_graph p)). intros gj RT. rewrite EO, HS. destruct (p_world p) as [w|] eqn:EW.
      - cbn -[from_json norm canon]. unfold program_of_fields. cbn -[from_json norm canon]. rewrite RT. cbn -[norm canon]. rewrite EG at 1. change (norm (canon (PGraph ins ops outs))) with (nc (PGraph ins ops outs)). rewrite nc_graph. cbn -[norm canon].
        rewrite sort_strs, (text_sort _ T1), (text_sort _ T2), (text_sort _ T3). unfold canon_program. rewrite HS, EO, EW. reflexivity.
      - cbn -[from_json norm canon]. unfold program_of_fields. cbn -[from_json norm canon]. rewrite RT. cbn -[norm canon]. rewrite EG at 1. change (norm (canon (PGraph ins ops outs))) with (nc (PGraph ins ops outs)). rewrite nc_graph. cbn -[norm canon].
        rewrite sort_strs, (text_sort _ T1), (text_sort _ T2), (text_sort _ T3). unfold canon_program. rewrite HS, EO, EW. reflexivity. }
    rewrite R. cbn [rbind]. rewrite (validate_nc p W V). reflexivity.
  Qed.

  Theorem unpack_sound limit a p : unpack float_int itemsize float_trunc str_int py_str sha parse limit a = Ok p ->
    p_schema p = 1 /\ consistent float_trunc str_int sha p /\ parties_ok float_trunc str_int (p_graph p).
  Proof.
    unfold unpack. destruct (getmember "artifact.json" a) as [m|]; [|discriminate]. destruct (m_file m); cbn [negb]; [|discriminate]. destruct (limit <? _); [discriminate|]. destruct (parse (m_data m)) as [j|]; [|discriminate].
    destruct (program_from_json _ _ _ _ _ j) as [q| | | |] eqn:E; cbn [rbind]; try discriminate. destruct (validate q) as [[]| | | |] eqn:V; cbn [rbind]; try discriminate. intros H. injection H as <-.
    apply validate_iff in V. split; [|exact V]. unfold program_from_json in E. destruct (as_obj j) as [d| | | |]; cbn [rbind] in E; try discriminate E. destruct (kind_of d) as [k| | | |]; cbn [rbind] in E; try discriminate E.
    destruct k; try discriminate E. destruct (String.eqb s "mplang.CompiledProgram"); [|destruct (from_json float_int itemsize j); discriminate E].
    unfold program_of_fields in E. destruct (jget "schema_version" d) as [v| | | |]; cbn [rbind] in E; try discriminate E. destruct (json_int float_trunc str_int v) as [z| | | |]; cbn [rbind] in E; try discriminate E.
    destruct (z =? 1) eqn:N; cbn [negb] in E; [|discriminate E]. apply Z.eqb_eq in N.
    repeat match type of E with rbind ?r _ = _ => destruct r; cbn [rbind] in E; try discriminate E end. injection E as <-. exact N.
  Qed.

  Theorem compile_spec now version name t p : compile float_trunc str_int sha now version name t = Ok p ->
    p_graph p = t_graph t /\ p_schema p = 1 /\ t_captured t = [] /\ t_out_imms t = [] /\ p_digest p = sha (sort_json (to_json (t_graph t))) /\ (exists w, p_world p = Some w)
    /\ p_created p = now /\ p_version p = version /\ p_inputs p = Z.of_nat (List.length (t_in_var_pos t)) /\ validate p = Ok tt.
  Proof.
    unfold compile, validate_traced. destruct (t_captured t) eqn:E1; [|discriminate]. destruct (t_out_imms t) eqn:E2; [|discriminate].
    destruct (t_graph t) as [| | | | | | | | | | | | | | | | | ins ops outs | | | | | | |] eqn:G; try discriminate. cbn [graph_ins graph_outs rbind]. unfold len.
    destruct (Z.eqb_spec (Z.of_nat (List.length ins)) (Z.of_nat (List.length (t_in_var_pos t)))) as [EL|]; [|discriminate]. cbn [rbind]. rewrite <- G.
    destruct (collect_opcodes (t_graph t)) as [codes| | | |] eqn:EC; cbn [rbind]; try discriminate. destruct (wsize (t_graph t)) as [w| | | |] eqn:EW; cbn [rbind]; try discriminate.
    intros H. injection H as <-. cbn [p_graph p_schema p_digest p_world p_created p_version p_inputs]. repeat (split; [solve [reflexivity|eauto|exact EL]|]).
    unfold ProgramModel.validate. cbn [p_graph p_inputs p_outputs p_opcodes p_digest p_world]. rewrite G. cbn [graph_ins graph_outs rbind]. rewrite <- G. unfold len. rewrite !Z.eqb_refl, EC. cbn [negb rbind]. rewrite same_opcodes_compile. cbn [negb].
    rewrite String.eqb_refl. cbn [negb]. rewrite andb_false_r, EW. cbn [rbind]. rewrite Z.eqb_refl. reflexivity.
  Qed.
  Theorem compile_total now version name t ins ops outs : t_graph t = PGraph ins ops outs -> graphs_only (t_graph t) -> parties_ok float_trunc str_int (t_graph t) ->
    t_captured t = [] -> t_out_imms t = [] -> List.length (t_in_var_pos t) = List.length ins -> exists p, compile float_trunc str_int sha now version name t = Ok p.
  Proof.
    intros G HG HP H1 H2 HL. unfold compile, validate_traced. rewrite H1, H2. destruct (codes_total _ HG) as [l EC]. destruct (wsize_total _ HG HP) as [w EW]. rewrite EC, EW. rewrite G. cbn [graph_ins graph_outs rbind]. unfold len. rewrite HL, Z.eqb_refl. cbn [rbind]. eauto.
  Qed.

  (** ** Tampering *)
  Theorem sorted_encoding_inj x y : wf x -> wf y -> sort_json (to_json x) = sort_json (to_json y) -> norm (canon x) = norm (canon y).
  Proof.
    intros Wx Wy E. pose proof (sorted_roundtrip float_int itemsize x Wx) as R. rewrite E, (sorted_roundtrip float_int itemsize y Wy) in R. congruence.
  Qed.
  Lemma json_dec : forall a b : json, a = b \/ a <> b.
  Proof.
    apply (json_ind' (fun a => forall b, a = b \/ a <> b)).
    - intros [| | | | | |]; try (right; discriminate); left; reflexivity.
    - intros x [|y| | | | |]; try (right; discriminate). destruct (Bool.bool_dec x y); [left; congruence|right; congruence].
    - intros x [| |y| | | |]; try (right; discriminate). destruct (Z.eq_dec x y); [left; congruence|right; congruence].
    - intros x [| | |y| | |]; try (right; discriminate). destruct (Z.eq_dec x y); [left; congruence|right; congruence].
    - intros x [| | | |y| |]; try (right; discriminate). destruct (String.string_dec x y); [left; congruence|right; congruence].
    - intros l IH [| | | | |m|]; try (right; discriminate). revert m. induction l as [|x l IHl]; intros [|y m]; try (right; discriminate); [left; reflexivity|].
      destruct (IH x (or_introl eq_refl) y) as [->|N]; [|right; congruence]. destruct (IHl (fun j Hj => IH j (or_intror Hj)) m) as [E|N]; [left; congruence|right; congruence].
    - intros l IH [| | | | | |m]; try (right; discriminate). revert m. induction l as [|[k x] l IHl]; intros [|[k' y] m]; try (right; discriminate); [left; reflexivity|].
      destruct (String.string_dec k k') as [->|N]; [|right; congruence]. destruct (IH k' x (or_introl eq_refl) y) as [->|N]; [|right; congruence]. destruct (IHl (fun q j Hj => IH q j (or_intror Hj)) m) as [E|N]; [left; congruence|right; congruence].
  Qed.
End P.
