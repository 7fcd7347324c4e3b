(** C89-C91: Arrow vector columns (mplang/extend/arrow) and table_to_numpy. *)
From Coq Require Import String List ZArith Bool Arith Lia.
From Verif Require Import VecModel VecSpec VecProofs.
Import ListNotations.
Local Open Scope nat_scope.

(** ** C89 *)

(** One-hot rows: item access, as_py, to_pylist and to_numpy all give the row's indicator vector,
    for null rows and indices out of range the zero vector. *)
Theorem C89_one_hot_accessors_agree :
  forall (size : nat) (rows : list orow),
  onehot_to_numpy size rows = onehot_to_pylist size rows /\
  length (onehot_to_pylist size rows) = length rows /\
  forall k r, nth_error rows k = Some r ->
    onehot_denotes size r (onehot_as_py size r) /\
    nth k (onehot_to_pylist size rows) [] = onehot_as_py size r /\
    forall i, i < size -> onehot_getitem size r (Z.of_nat i) = Ok (nth i (onehot_as_py size r) 0%Z).
Proof.
  intros size rows. split; [apply onehot_numpy|]. split; [apply map_length|]. intros k r E. split; [apply onehot_as_py_denotes|]. split.
  - unfold onehot_to_pylist. apply nth_error_nth. now rewrite nth_error_map, E.
  - intros i Hi. unfold onehot_getitem. assert (Er : in_range size (Z.of_nat i) = true) by (apply in_range_spec; eauto). rewrite Er. cbn [negb].
    f_equal. symmetry. apply (proj2 (onehot_as_py_denotes size r)). exact Hi.
Qed.
Print Assumptions C89_one_hot_accessors_agree.

Example C89_one_hot_example : onehot_to_numpy 3 [Some 2%Z; None; Some 5%Z; Some 0%Z] = [[0; 0; 1]; [0; 0; 0]; [0; 0; 0]; [1; 0; 0]]%Z.
Proof. reflexivity. Qed.

(** Sparse rows with as many values as indices and no repeated index: all accessors give the
    vector the row denotes. *)
Theorem C136_sparse_accessors_agree_partial :
  forall (size : nat) (rows : list srow), Forall sparse_row_ok rows ->
  exists m, sparse_to_numpy size rows = Ok m /\ sparse_to_pylist size rows = Ok m /\ length m = length rows /\
  forall k r, nth_error rows k = Some r ->
    exists v, nth_error m k = Some v /\ sparse_denotes size r v /\ sparse_as_py size r = Ok v /\
    forall i, i < size -> sparse_getitem size r (Z.of_nat i) = Ok (nth i v 0%Z).
Proof.
  intros size rows F. rewrite numpy_pylist. unfold sparse_to_pylist.
  destruct (mapM_ok (sparse_as_py size) rows) as (m & E & L & N).
  { eapply Forall_impl; [|exact F]. intros r Or. destruct (as_py_denotes size r Or) as (v & Ev & _). eauto. }
  exists m. split; auto. split; auto. split; auto. intros k r Er. destruct (N k r Er) as (v & Ev & Ef). exists v. split; auto.
  rewrite Forall_forall in F. pose proof (F r (nth_error_In _ _ Er)) as Or. destruct (as_py_denotes size r Or) as (w & Ew & D).
  assert (w = v) by congruence. subst w. split; auto. split; auto. intros i Hi. now apply getitem_denotes.
Qed.
Print Assumptions C136_sparse_accessors_agree_partial.

Example C89_sparse_example : Forall sparse_row_ok [Some ([2; 0; 7], [5; 6; 9])%Z; None] /\
  sparse_to_numpy 3 [Some ([2; 0; 7], [5; 6; 9])%Z; None] = Ok [[6; 0; 5]; [0; 0; 0]]%Z.
Proof. split; [|reflexivity]. repeat constructor; cbn; intuition discriminate. Qed.

(** With a repeated index item access returns the first value and the conversions the last. *)
Theorem C136_sparse_accessors_agree_refuted :
  exists (size : nat) (idx val v : list Z) (i : nat) (x : Z),
  length idx = length val /\ i < size /\ sparse_as_py size (Some (idx, val)) = Ok v /\
  sparse_getitem size (Some (idx, val)) (Z.of_nat i) = Ok x /\ nth i v 0%Z <> x.
Proof. exists 2, [0; 0]%Z, [1; 2]%Z, [2; 0]%Z, 0, 1%Z. repeat split; auto; discriminate. Qed.
Print Assumptions C136_sparse_accessors_agree_refuted.

(** Dense columns: exactly the non-null rows come out; row k is row k if and only if there is no
    null row. *)
Theorem C136_dense_rows_partial :
  forall (size : nat) (rows : list drow), 0 < size ->
  Forall (fun r => match r with Some v => length v = size | None => True end) rows ->
  map Some (dense_to_numpy size rows) = filter (fun r => match r with Some _ => true | None => false end) rows /\
  (length (dense_to_numpy size rows) = length rows <-> Forall (fun r => r <> None) rows) /\
  (Forall (fun r => r <> None) rows -> map Some (dense_to_numpy size rows) = rows).
Proof.
  intros size rows P F. rewrite dense_present by auto.
  assert (A : map Some (present rows) = filter (fun r => match r with Some _ => true | None => false end) rows).
  { clear. unfold present. induction rows as [|[v|] rows IH]; cbn; auto. now rewrite IH. }
  assert (B : Forall (fun r => r <> None) rows -> filter (fun r : drow => match r with Some _ => true | None => false end) rows = rows).
  { clear. induction 1 as [|[v|] rows H F IH]; cbn; auto; [f_equal; exact IH | exfalso; now apply H]. }
  split; [exact A|]. split; [split|].
  - apply present_len.
  - intros N. rewrite <- (map_length Some), A. f_equal. exact (B N).
  - intros N. rewrite A. exact (B N).
Qed.
Print Assumptions C136_dense_rows_partial.

Theorem C136_dense_rows_refuted :
  exists (rows : list drow), dense_to_numpy 2 rows = [[1; 2]; [3; 4]]%Z /\ nth_error rows 1 = Some None /\ length rows = 3.
Proof. exists [Some [1; 2]; None; Some [3; 4]]%Z. repeat split. Qed.
Print Assumptions C136_dense_rows_refuted.

(** one_hot(array, n) denotes the indicator of every element; it fails only when the class count is
    not positive, the index type is no integer type, or an element does not fit it. *)
Theorem C89_one_hot_function :
  forall (array : list orow) (n : nat) (val idx : num) (t : vtype) (rows : list orow),
  one_hot array (Z.of_nat n) val idx = Ok (t, rows) ->
  v_size t = Z.of_nat n /\ v_val t = val /\ v_sto t = SPlain idx /\ length (onehot_to_numpy n rows) = length array /\
  forall k r, nth_error array k = Some r -> onehot_denotes n r (nth k (onehot_to_numpy n rows) []).
Proof.
  intros array n val idx t rows E. unfold one_hot in E.
  destruct (one_hot_new (AInt (Z.of_nat n)) (AType val) (AType idx)) as [t'|] eqn:Et; [|discriminate]. cbn [bind] in E.
  match type of E with context [forallb ?f ?a] => destruct (forallb f a); [|discriminate] end. injection E as <- <-.
  unfold one_hot_new, or_default in Et. destruct (is_integer idx); [|discriminate]. unfold vector_init in Et. destruct (_ <=? _)%Z; [discriminate|].
  injection Et as <-. cbn [v_size v_val v_sto]. split; [auto|]. split; [auto|]. split; [auto|]. split.
  - rewrite onehot_numpy. apply map_length.
  - intros k r H. rewrite onehot_numpy. unfold onehot_to_pylist.
    rewrite (nth_error_nth (map (onehot_as_py n) array) k [] (x := onehot_as_py n r)); [apply onehot_as_py_denotes|].
    rewrite nth_error_map, H. reflexivity.
Qed.
Print Assumptions C89_one_hot_function.
(** and when it succeeds *)
Theorem C89_one_hot_accepts :
  forall (array : list orow) (n : Z) (val idx : num),
  (exists r, one_hot array n val idx = Ok r) <->
  (0 < n)%Z /\ exists t, int_type idx = Some t /\ forall z, In (Some z) array -> holds t z.
Proof.
  intros array n val idx.
  assert (F : forall t, int_type idx = Some t -> forall z, fits idx z = true <-> holds t z).
  { intros t E z. destruct idx; try discriminate E; injection E as <-; unfold fits, holds; rewrite andb_true_iff, Z.leb_le, Z.ltb_lt; reflexivity. }
  assert (I : is_integer idx = match int_type idx with Some _ => true | None => false end) by (destruct idx; reflexivity).
  unfold one_hot, one_hot_new, or_default. rewrite I. destruct (int_type idx) as [t|].
  - specialize (F t eq_refl). unfold vector_init. destruct (Z.leb_spec n 0) as [Hn|Hn]; cbn [bind].
    + split; [intros [r E]; discriminate E|intros [H _]; lia].
    + destruct (forallb (fun r => match r with Some z => fits idx z | None => true end) array) eqn:E.
      * split; [|intros _; eauto]. intros _. split; [exact Hn|]. exists t. split; [reflexivity|]. intros z Hz.
        rewrite forallb_forall in E. apply F. exact (E _ Hz).
      * split; [intros [r H]; discriminate H|]. intros [_ [t' [H1 H2]]]. injection H1 as <-. exfalso.
        assert (T : forallb (fun r => match r with Some z => fits idx z | None => true end) array = true).
        { apply forallb_forall. intros [z|] Hz; [|reflexivity]. apply F, H2, Hz. }
        congruence.
  - cbn [bind]. split; [intros [r E]; discriminate E|]. intros [_ [t [H _]]]. discriminate H.
Qed.
Print Assumptions C89_one_hot_accepts.
Example C89_one_hot_function_example : exists t, one_hot [Some 1%Z; None; Some 0%Z] 2 Float32 Int8 = Ok (t, [Some 1%Z; None; Some 0%Z]).
Proof. eexists. reflexivity. Qed.

(** The compute function registered under the name one_hot_<type> hands back the integers it got. *)
Theorem C136_registered_one_hot_refuted :
  forall (array rows : list orow) (n : Z) (t : num), one_hot_function array n t = Ok rows -> rows = array.
Proof.
  intros array rows n t E. unfold one_hot_function, one_hot in E. destruct (one_hot_new _ _ _); [|discriminate]. cbn [bind] in E.
  match type of E with context [forallb ?f ?a] => destruct (forallb f a); [|discriminate] end. cbn in E. congruence.
Qed.
Print Assumptions C136_registered_one_hot_refuted.
Example C89_registered_example : one_hot_function [Some 2%Z; Some 0%Z] 3 Int32 = Ok [Some 2%Z; Some 0%Z].
Proof. reflexivity. Qed.

(** ** C90 *)

(** table_to_numpy of a table with n rows, no null dense row and well-formed sparse rows has n rows;
    row i is the concatenation, in column order, of the features of the columns' rows i. *)
Theorem C90_table_to_numpy :
  forall (cols : list column) (n : nat), cols <> [] -> Forall column_ok cols -> Forall (fun c => column_rows c = n) cols ->
  exists m, table_to_numpy cols = Ok m /\ length m = n /\
    forall i, i < n -> exists parts, nth i m [] = concat parts /\ Forall2 (fun c fs => column_row c i fs) cols parts.
Proof. exact table_ok. Qed.
Print Assumptions C90_table_to_numpy.

Definition sample_table : list column :=
  [CPlain [7; 8]%Z; CDense 2 [Some [1; 2]; Some [3; 4]]%Z; COneHot 2 [Some 1%Z; None]; CSparse 2 [Some ([1], [9])%Z; None]].
Example C90_example : table_to_numpy sample_table = Ok [[7; 1; 2; 0; 1; 0; 9]; [8; 3; 4; 0; 0; 0; 0]]%Z /\
  Forall column_ok sample_table /\ Forall (fun c => column_rows c = 2) sample_table.
Proof.
  split; [reflexivity|]. split; [|repeat constructor].
  repeat constructor; cbn; eauto.
Qed.

(** A null row in a dense column makes the conversion fail, or, if every column has one, gives a
    matrix whose rows combine features of different table rows. *)
Theorem C158_table_to_numpy_refuted :
  (exists cols, Forall column_ok_null cols /\ Forall (fun c => column_rows c = 2) cols /\ table_to_numpy cols = Raise) /\
  (exists cols m, Forall column_ok_null cols /\ Forall (fun c => column_rows c = 2) cols /\ table_to_numpy cols = Ok m /\
     length m = 1 /\ m = [[1; 4]]%Z /\ column_row (nth 0 cols (CPlain [])) 0 [1%Z] /\ column_row (nth 1 cols (CPlain [])) 1 [4%Z]).
Proof.
  split.
  - exists [CPlain [7; 8]%Z; CDense 1 [Some [1%Z]; None]]. repeat split; repeat constructor.
  - exists [CDense 1 [Some [1%Z]; None]; CDense 1 [None; Some [4%Z]]]. eexists. repeat split; repeat constructor.
Qed.
Print Assumptions C158_table_to_numpy_refuted.

(** ** C91 *)

(** Every vector type that can be constructed is recovered from its storage type and its
    serialised metadata ... *)
Theorem C91_type_metadata_round_trip : forall t, constructible t -> ext_deserialize (v_kind t) (v_sto t) (ext_serialize t) = Ok t.
Proof. exact type_roundtrip. Qed.
Print Assumptions C91_type_metadata_round_trip.

(** ... so it would survive an IPC stream (how tables travel between parties) if its extension name
    were registered ... *)
Theorem C137_ipc_with_registration_partial : forall t, constructible t -> ipc_roundtrip intended_registration t = Ok (FVec t).
Proof.
  intros t C. unfold ipc_roundtrip. replace (registered intended_registration (v_kind t)) with true by (now destruct (v_kind t)).
  now rewrite type_roundtrip.
Qed.
Print Assumptions C137_ipc_with_registration_partial.

(** ... but the module's own registration passes the constructor arguments in the wrong order; every
    attempt raises and the exception is swallowed, so every vector column comes back as its storage. *)
Theorem C137_ipc_round_trip_refuted :
  (forall k, registered registration k = false) /\
  (forall t, constructible t -> ipc_roundtrip registration t = Ok (FSto (v_sto t))) /\
  (exists t, constructible t).
Proof.
  split; [intros []; reflexivity|]. split.
  - intros t _. unfold ipc_roundtrip. now destruct (v_kind t).
  - eexists. left. exists (AInt 3), ANone. reflexivity.
Qed.
Print Assumptions C137_ipc_round_trip_refuted.

(** type equality is decided by __eq__ *)
Theorem C91_equality : forall a b, vtype_eqb a b = true <-> a = b.
Proof.
  assert (N : forall x y, num_beq x y = true <-> x = y) by (intros x y; split; [apply internal_num_dec_bl|apply internal_num_dec_lb]).
  intros [k s v t] [k' s' v' t']. unfold vtype_eqb. cbn [v_kind v_size v_val v_sto]. rewrite !andb_true_iff, Z.eqb_eq, N. split.
  - intros [[[A ->] ->] B]. assert (k = k') by (destruct k, k'; try discriminate; auto). subst.
    destruct t, t'; cbn in B; try discriminate; rewrite ?andb_true_iff, ?Z.eqb_eq, ?N in B; intuition congruence.
  - intros E. injection E as -> -> -> ->. repeat split; auto; [now destruct k'|]. destruct t'; cbn; rewrite ?andb_true_iff, ?Z.eqb_eq, ?N; auto.
Qed.
Print Assumptions C91_equality.
Example C91_example : constructible (VT OneHot 4 Float32 (SPlain Int8)).
Proof. right. right. exists (AInt 4), ANone, (AType Int8). reflexivity. Qed.
