(** C94: tensors and tables; C95: table.constant. *)
From Coq Require Import String List ZArith Bool Arith Lia.
From Verif Require Import TabConvModel TabConvSpec TabConvProofs.
Import ListNotations.
Local Open Scope nat_scope.

(** ** C94 *)

(** table2tensor(tensor2table(m)) is m, for every matrix of a type Arrow has, with any row count,
    the static one or a dynamic one declared. *)
Theorem C94_tensor_table_tensor :
  forall (to_float : Z -> Z) (common : list (option ty) -> option ty) (names : list string) (m : matrix) (d : ty) (r : option nat),
  matrix_ok m -> m_ty m = Some d -> plain d -> names <> [] -> m_cols m = length names -> (r = None \/ r = Some (m_rows m)) ->
  exists t, tensor2table names m = Some t /\ map col_name t = names /\ num_rows t = m_rows m /\
    table2tensor to_float common (MT d r (length names)) t = Some m.
Proof.
  intros tf cm names m d r OK T P NE C R. exists (built names d m). split; [now apply tensor2table_built|]. split; [|split].
  - unfold built. rewrite map_map. cbn [col_name].
    rewrite (map_combine_seq (fun _ x => x) names (fun x => x) 0) by reflexivity. apply map_id.
  - rewrite built_rows by auto. apply OK.
  - now apply round_trip.
Qed.
Print Assumptions C94_tensor_table_tensor.

(** tensor2table(table2tensor(t)) is t, for every table without nulls whose columns have one type. *)
Theorem C94_table_tensor_table :
  forall (to_float : Z -> Z) (common : list (option ty) -> option ty) (t : table) (d : ty) (r : option nat),
  t <> [] -> table_ok t -> plain d -> Forall (fun c => no_nulls c /\ col_ty c = d) t -> (r = None \/ r = Some (num_rows t)) ->
  exists m, table2tensor to_float common (MT d r (length t)) t = Some m /\ tensor2table (map col_name t) m = Some t.
Proof. intros. now apply round_trip_back. Qed.
Print Assumptions C94_table_tensor_table.

Definition t_ex : table := [Col "a" TI64 [Some (Val 1); Some (Val 2)]; Col "b" TI64 [Some (Val 3); Some (Val 4)]].
Example C94_example :
  table2tensor (fun z => z) (fun _ => None) (MT TI64 None 2) t_ex = Some (Mat (Some TI64) 2 2 [[Val 1; Val 3]; [Val 2; Val 4]]) /\
  table_ok t_ex /\ plain TI64 /\ Forall (fun c => no_nulls c /\ col_ty c = TI64) t_ex.
Proof. repeat split; try discriminate; repeat constructor; discriminate. Qed.

(** Whatever the table: if table2tensor returns, the result has the declared dtype, the table's
    rows, which are the declared ones, and the cells of the columns without nulls. *)
Theorem C94_table2tensor_sound :
  forall (to_float : Z -> Z) (common : list (option ty) -> option ty) (out : tensor_type) (t : table) (m : matrix),
  table2tensor to_float common out t = Some m ->
  m_ty m = Some (mt_ty out) /\ m_rows m = num_rows t /\ (forall n, mt_rows out = Some n -> m_rows m = n) /\ matrix_ok m /\
  forall i j c x, i < num_rows t -> nth_error t j = Some c -> no_nulls c -> nth_error (col_cells c) i = Some (Some x) -> at_ m i j = x.
Proof.
  intros tf cm out t m E. unfold table2tensor in E.
  destruct (match mt_rows out with Some n => num_rows t =? n | None => true end) eqn:R; [|discriminate]. cbn [negb] in E. cbv zeta in E.
  destruct (m_ty (to_matrix tf cm t)) as [d|] eqn:T; [|discriminate]. destruct (ty_beq d (mt_ty out)) eqn:D; [|discriminate].
  injection E as <-. apply ty_beq_eq in D. subst d. split; [exact T|]. split; [reflexivity|]. split; [|split; [apply to_matrix_ok|]].
  - intros n Hn. rewrite Hn in R. now apply Nat.eqb_eq in R.
  - intros i j c x Hi Hj N Hx. rewrite (to_matrix_at tf cm t i j c Hi Hj), (nth_error_nth _ _ _ Hx).
    apply pandas_cell_plain; auto. eapply nth_error_In; eauto.
Qed.
Print Assumptions C94_table2tensor_sound.

(** The static types follow: the round trip gives back dtype and columns, but the row count, which
    a table type can carry, is forgotten by tensor2table. *)
Theorem C94_static_round_trip :
  forall (mt : tensor_type) (names : list string) (tt : table_type), mt_ty mt <> TString ->
  tensor2table_type mt names = Some tt -> table2tensor_default tt = Some (MT (mt_ty mt) None (mt_cols mt)).
Proof.
  intros mt names tt NS E. unfold tensor2table_type in E.
  destruct ((length names =? 0) || negb (length names =? mt_cols mt) || existsb blank names) eqn:G; [discriminate|].
  rewrite !orb_false_iff, negb_false_iff in G. destruct G as [[G1 G2] _]. apply Nat.eqb_eq in G2. apply Nat.eqb_neq in G1.
  match type of E with (if ?b then _ else _) = _ => destruct b; [discriminate|] end. injection E as <-.
  unfold table2tensor_default, table2tensor_type. cbn [tt_rows tt_schema].
  destruct names as [|x names]; [contradiction|]. cbn [map].
  replace (ty_beq (mt_ty mt) TString) with false by (symmetry; destruct (ty_beq (mt_ty mt) TString) eqn:Q; auto; apply ty_beq_eq in Q; contradiction).
  replace (forallb _ _) with true. 2:{ symmetry. apply forallb_forall. intros c Hc. apply in_map_iff in Hc. destruct Hc as (y & <- & _). apply ty_beq_refl. }
  cbn [negb andb]. f_equal. f_equal. rewrite <- G2. cbn. now rewrite map_length.
Qed.
Print Assumptions C94_static_round_trip.
(** tensor2table accepts exactly the distinct readable names, one per column, at least one. *)
Theorem C94_accepted_names :
  forall (mt : tensor_type) (names : list string) (tt : table_type),
  tensor2table_type mt names = Some tt <->
  names <> [] /\ length names = mt_cols mt /\ NoDup names /\ Forall readable names /\ tt = TT (map (fun n => (n, mt_ty mt)) names) None.
Proof.
  intros mt names tt. unfold tensor2table_type.
  assert (W : forall a, white a = false <-> ~ In (Ascii.nat_of_ascii a) [9; 10; 11; 12; 13; 28; 29; 30; 31; 32]).
  { intros a. unfold white. generalize (Ascii.nat_of_ascii a). intros n.
    split.
    - intros H X. cbn [In] in X. repeat (destruct X as [<-|X]; [discriminate H|]). exact X.
    - intros H. apply not_true_iff_false. intros T. apply H. apply orb_true_iff in T. destruct T as [T|T]; apply andb_true_iff in T; destruct T as [T1 T2]; apply Nat.leb_le in T1, T2.
      + cbn [In]; lia.
      + cbn [In]; lia. }
  assert (B : forall s, blank s = false <-> readable s).
  { intros s. unfold blank, readable. induction (list_ascii_of_string s) as [|a l IH]; cbn [forallb].
    - split; [discriminate|]. intros (a & [] & _).
    - rewrite andb_false_iff, W, IH. split.
      + intros [H|(b & H & H')]; [exists a|exists b]; (split; [|assumption]); [left; reflexivity|right; assumption].
      + intros (b & [<-|H] & H'); [left; assumption|right; eauto]. }
  assert (F : existsb blank names = false <-> Forall readable names).
  { induction names as [|x l IH]; cbn; [split; [constructor|reflexivity]|]. rewrite orb_false_iff, B, IH. split; [intros [? ?]; constructor; assumption|intros H; inversion H; auto]. }
  match goal with |- context[if ?b then None else Some _] => match b with context[names] => set (D := b) end end.
  assert (N : D = false <-> NoDup names).
  { unfold D. clear D F. induction names as [|x l IH]; [split; [constructor|reflexivity]|]. rewrite orb_false_iff. 
    split.
    - intros [H1 H2]. constructor; [|apply IH; exact H2]. intros X. apply not_true_iff_false in H1. apply H1, existsb_exists. exists x. split; [exact X|apply String.eqb_refl].
    - intros H. inversion H; subst. split; [|apply IH; assumption]. apply not_true_iff_false. intros X. apply existsb_exists in X. destruct X as (y & Y & E). apply String.eqb_eq in E. subst. contradiction. }
  destruct ((length names =? 0) || negb (length names =? mt_cols mt) || existsb blank names) eqn:G.
  - split; [discriminate|]. intros (H1 & H2 & _ & H4 & _). exfalso. apply F in H4. rewrite H4, H2, Nat.eqb_refl, orb_false_r in G. cbn in G. rewrite orb_false_r in G. apply Nat.eqb_eq in G. rewrite <- H2 in G. destruct names; [contradiction|discriminate].
  - rewrite !orb_false_iff, negb_false_iff, Nat.eqb_eq, Nat.eqb_neq in G. destruct G as [[G1 G2] G3]. apply F in G3. destruct D.
    + split; [discriminate|]. intros (_ & _ & H & _). apply N in H. discriminate.
    + split; [intros E; injection E as <-|intros (_ & _ & _ & _ & ->); reflexivity]. repeat split; try assumption; [intros ->; apply G1; reflexivity|apply N; reflexivity].
Qed.
Print Assumptions C94_accepted_names.
Example C94_accepted_example : tensor2table_type (MT TF32 None 1) [" "]%string = None /\ tensor2table_type (MT TF32 None 1) [" a"]%string <> None.
Proof. split; [reflexivity|discriminate]. Qed.

Example C94_static_example : tensor2table_type (MT TF32 (Some 5) 2) ["a"; "b"]%string = Some (TT [("a"%string, TF32); ("b"%string, TF32)] None).
Proof. reflexivity. Qed.

(** Accepted statically, refused at run time: Arrow has no complex columns. *)
Theorem C139_accepted_tensor_converts_refuted :
  exists mt names tt m, tensor2table_type mt names = Some tt /\ m_ty m = Some (mt_ty mt) /\ m_cols m = mt_cols mt /\ matrix_ok m /\ tensor2table names m = None.
Proof.
  exists (MT TC64 (Some 1) 1), ["a"%string]. eexists. exists (Mat (Some TC64) 1 1 [[Val 0]]). repeat split; repeat constructor.
Qed.
Print Assumptions C139_accepted_tensor_converts_refuted.

(** The declared number of columns is not checked: a table with more columns than declared (the
    out_type of run_sql is not verified) gives a tensor of another shape than its static type. *)
Theorem C139_static_shape_refuted :
  exists (tt : table_type) (out : tensor_type) (t : table) (m : matrix),
    table2tensor_default tt = Some out /\ table2tensor (fun z => z) (fun _ => None) out t = Some m /\ m_cols m <> mt_cols out.
Proof.
  exists (TT [("a"%string, TI64)] None), (MT TI64 None 1), t_ex. eexists. repeat split. cbn. discriminate.
Qed.
Print Assumptions C139_static_shape_refuted.

(** ** C95 *)

(** The static type of a column of table.constant is the type of the run-time column exactly for
    homogeneous lists. *)
Theorem C95_constant_column : forall l, arrow_type l = AType (pandas_type l) <-> homogeneous l.
Proof. exact constant_agree. Qed.
Print Assumptions C95_constant_column.

(** So a dict of homogeneous columns becomes a table of the announced schema with the given cells. *)
Theorem C95_constant_table :
  forall data, Forall (fun p => homogeneous (snd p)) data ->
  exists t, constant_table data = Some t /\ map (fun c => (col_name c, col_ty c)) t = tt_schema (constant_type data) /\
    map col_cells t = map (fun p => map cell_of (snd p)) data.
Proof.
  intros data F. induction F as [|[n l] data H F (t & E1 & E2 & E3)]; [exists []; auto|].
  cbn [constant_table]. cbn [snd] in H. apply constant_agree in H. rewrite H, E1. eexists. split; [reflexivity|].
  cbn. rewrite E2, E3. auto.
Qed.
Print Assumptions C95_constant_table.
Example C95_example : homogeneous [PFloat 1; PNone; PInt 2] /\ homogeneous [PStr "x"; PNone] /\ homogeneous [PInt 3; PInt 4].
Proof.
  split; [|split]; (split; [discriminate|]).
  - right; left. split; [|left; reflexivity]. repeat (apply Forall_cons; [cbn; auto|]). constructor.
  - left. split; [|left; reflexivity]. repeat (apply Forall_cons; [cbn; auto|]). constructor.
  - right; right; left. repeat constructor.
Qed.

(** With a None in an integer column the static type is f64 and the run-time column int64; the
    tensor made from it holds the integers rounded to float64. *)
Theorem C160_constant_type_refuted :
  forall to_float common,
  exists t, constant_table [("a"%string, [PInt 9007199254740993; PNone])] = Some t /\
    tt_schema (constant_type [("a"%string, [PInt 9007199254740993; PNone])]) = [("a"%string, TF64)] /\
    map (fun c => (col_name c, col_ty c)) t = [("a"%string, TI64)] /\
    table2tensor to_float common (MT TF64 None 1) t = Some (Mat (Some TF64) 2 1 [[Val (to_float 9007199254740993%Z)]; [NaN]]).
Proof. intros. eexists. repeat split. Qed.
Print Assumptions C160_constant_type_refuted.

(** With a None in a boolean column the static type is a string, and an empty column has a static
    type but no run-time type. *)
Theorem C160_constant_boolean_refuted :
  pandas_type [PBool true; PNone] = TString /\ arrow_type [PBool true; PNone] = AType TBool /\
  pandas_type [] = TString /\ arrow_type [] = ANull.
Proof. repeat split. Qed.
Print Assumptions C160_constant_boolean_refuted.
