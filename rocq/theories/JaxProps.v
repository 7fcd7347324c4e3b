(** C99: run_jax returns what the function returns on its arguments.
    C100: the compile caches of run_jax are transparent. *)
From Coq Require Import String.
From Coq Require Import List ZArith Bool Arith Lia.
From Verif Require Import JaxSpec JaxModel JaxProofs JaxExample.
Import ListNotations.

(** ** C99, known shapes, with [jax_enable_x64] on: for every function, whichever
    arguments it ignores, and all arguments of the declared shapes, the call
    returns the function of the arguments converted to their declared dtypes. *)
Theorem C99_known_shapes :
  forall J (L : jax_laws J) (f : src J) vars sym op args,
    length (pg_uses J f) = length vars ->
    run_jax_trace J f vars sym = Some op ->
    x64 J = true ->
    Forall static_decl vars -> Forall2 (fits 0) vars args ->
    run_jax J op args = Ok (pg_fn J f (zipw (declared_value J) vars args)).
Proof.
  intros J L f vars sym op args Hu Ht Hx Hs F.
  rewrite (static_call_any J L f vars sym op args 0%Z Hu Ht Hs F).
  rewrite (zipw_x64 J 0%Z vars args Hx F). reflexivity.
Qed.
Print Assumptions C99_known_shapes.

(** trace and run in a new process (Died = tracing failed) *)
Definition call J (f : src J) vars sym args : outcome :=
  match run_jax_trace J f vars sym with Some op => run_jax J op args | None => Died end.
Definition v_i64 (n : Z) : vtype := TTensor I64 [Some n].
Definition a_i64 (l : list Z) : arr := {| a_dt := I64; a_shape := [Z.of_nat (length l)]; a_data := l |}.

Example C99_known_shapes_case :
  option_map op_keep (run_jax_trace (J0 true) KFst [TTensor I32 [Some 2%Z]; v_i64 1] None)
    = Some (Some [0]) /\
  call (J0 true) KFst [TTensor I32 [Some 2%Z]; v_i64 1] None [a_i64 [5; 2 ^ 32 + 7]%Z; a_i64 [9%Z]]
    = Ok [{| a_dt := I32; a_shape := [2%Z]; a_data := [5; 7]%Z |}].
Proof. split; vm_compute; reflexivity. Qed.

(** A used tensor argument that does not have its declared shape is refused. *)
Theorem C99_wrong_shape_refused :
  forall J (L : jax_laws J) (f : src J) vars sym op args i d dims a,
    length (pg_uses J f) = length vars ->
    run_jax_trace J f vars sym = Some op ->
    Forall static_decl vars -> length args = length vars ->
    nth i (pg_uses J f) false = true ->
    nth_error vars i = Some (TTensor d dims) -> nth_error args i = Some a ->
    map Some (a_shape a) <> dims ->
    run_jax J op args = Raised.
Proof. exact static_call_refuses. Qed.
Print Assumptions C99_wrong_shape_refused.

Example C99_wrong_shape_case :
  call (J0 true) KId [v_i64 2] None [a_i64 [1%Z]] = Raised.
Proof. vm_compute; reflexivity. Qed.

(** ** C99, unknown dimensions (-1) without symbolic_shapes, x64 on: the call
    returns the function of its arguments exactly when there is ONE size n >= 1
    for all unknown dimensions of all arguments, every argument already has its
    declared dtype, and none is complex.  Otherwise it raises. *)
Theorem C99_unknown_dimensions :
  forall J (L : jax_laws J) (f : src J) vars op args,
    length (pg_uses J f) = length vars ->
    run_jax_trace J f vars None = Some op ->
    x64 J = true -> some_unknown vars ->
    let ok := exists n, (1 <= n)%Z /\
                Forall2 (fun t a => a_dt a = decl_dt t /\ fits n t a) vars args /\
                Forall (fun a => complex (a_dt a) = false) args in
    (ok -> run_jax J op args = Ok (pg_fn J f args)) /\
    (~ ok -> run_jax J op args = Raised).
Proof.
  intros J L f vars op args Hu Ht Hx Hd ok.
  destruct (trace_inv J L f vars None op Hu Ht) as [phs [Hp [Hl [Hi [Hy [Hm Hf]]]]]].
  destruct (unknown_dynamic vars phs Hp Hd) as [Hst [p0 [Hp0 Hs0]]].
  destruct (dynamic_call J L f vars None op args phs Hu Ht Hp Hst) as [D1 D2].
  assert (Hc : map (canon_p (x64 J)) phs = phs).
  { rewrite Hx. apply canon_p_id. }
  rewrite Hc in D1, D2.
  assert (Eq : ok <-> (instance_of phs (map type_of args) /\
                       Forall (fun a => complex (a_dt a) = false) args)).
  { unfold ok. split.
    - intros [n [Hn [F C]]]. split; [|exact C]. exists (fun _ => n). split; [intros; exact Hn|].
      apply (placeholders_types None (fun _ => n) n vars 0 phs args); auto.
    - intros [[env [He Hmap]] C]. exists (env "n_rows"%string). split; [|split; [|exact C]].
      + eapply He; eauto.
      + apply (placeholders_types None env (env "n_rows"%string) vars 0 phs args); auto. }
  split; intros H.
  - apply D1, Eq, H.
  - apply D2. intros K. apply H, Eq, K.
Qed.
Print Assumptions C99_unknown_dimensions.

Definition v_col : vtype := TTensor F32 [Some (-1)%Z].
Definition a_f32 (l : list Z) : arr := {| a_dt := F32; a_shape := [Z.of_nat (length l)]; a_data := l |}.

Example C99_unknown_dimensions_case :
  option_map op_dyn (run_jax_trace (J0 true) KBoth [v_col; v_col] None) = Some true /\
  call (J0 true) KBoth [v_col; v_col] None [a_f32 [1; 2; 3]%Z; a_f32 [4; 5; 6]%Z]
    = Ok [a_f32 [1; 2; 3]%Z; a_f32 [4; 5; 6]%Z].
Proof. split; vm_compute; reflexivity. Qed.

(** With symbolic_shapes (any names), and any x64 setting: the call succeeds
    exactly when the arguments' types are an instance of the exported types. *)
Theorem C99_symbolic_shapes :
  forall J (L : jax_laws J) (f : src J) vars sym op args phs,
    length (pg_uses J f) = length vars ->
    run_jax_trace J f vars sym = Some op ->
    make_placeholders sym vars = Some phs -> static_types phs = false ->
    let ok := instance_of (map (canon_p (x64 J)) phs) (map type_of args) /\
              Forall (fun a => complex (a_dt a) = false) args in
    (ok -> run_jax J op args = Ok (pg_fn J f args)) /\
    (~ ok -> run_jax J op args = Raised).
Proof. exact dynamic_call. Qed.
Print Assumptions C99_symbolic_shapes.

Example C99_symbolic_shapes_case :
  call (J0 true) KBoth [v_col; v_col] (Some [[Some "n"%string]; [Some "m"%string]])
    [a_f32 [1; 2; 3]%Z; a_f32 [4]%Z] = Ok [a_f32 [1; 2; 3]%Z; a_f32 [4]%Z].
Proof. vm_compute; reflexivity. Qed.

(** *** Refutations: for EVERY library that keeps its promises. *)

(** Two columns of unknown length are forced to have the same length. *)
Theorem C163_two_lengths_refuted :
  forall J (L : jax_laws J) (f : src J) op xs ys,
    length (pg_uses J f) = 2 ->
    run_jax_trace J f [v_col; v_col] None = Some op -> x64 J = true ->
    length xs <> length ys ->
    run_jax J op [a_f32 xs; a_f32 ys] = Raised.
Proof.
  intros J L f op xs ys Hu Ht Hx Hne.
  destruct (C99_unknown_dimensions J L f [v_col; v_col] op [a_f32 xs; a_f32 ys] Hu Ht Hx) as [_ R].
  { exists F32, [Some (-1)%Z]; simpl; auto. }
  apply R. intros [n [Hn [F _]]].
  inversion F as [|? ? ? ? [_ F1] F']; subst. inversion F' as [|? ? ? ? [_ F2] _]; subst.
  simpl in F1, F2. apply Hne. apply Nat2Z.inj. congruence.
Qed.
Print Assumptions C163_two_lengths_refuted.

(** A table with no rows. *)
Theorem C163_empty_column_refuted :
  forall J (L : jax_laws J) (f : src J) op,
    length (pg_uses J f) = 1 ->
    run_jax_trace J f [v_col] None = Some op -> x64 J = true ->
    run_jax J op [a_f32 []] = Raised.
Proof.
  intros J L f op Hu Ht Hx.
  destruct (C99_unknown_dimensions J L f [v_col] op [a_f32 []] Hu Ht Hx) as [_ R].
  { exists F32, [Some (-1)%Z]; simpl; auto. }
  apply R. intros [n [Hn [F _]]]. inversion F as [|? ? ? ? [_ F1] _]; subst.
  simpl in F1. injection F1 as F1. lia.
Qed.
Print Assumptions C163_empty_column_refuted.

(** An argument whose dtype is not the declared one is converted when the shape
    is known, and refused when a dimension is unknown. *)
Theorem C163_conversion_refuted :
  forall J (L : jax_laws J) (f : src J) op l,
    length (pg_uses J f) = 1 ->
    run_jax_trace J f [v_col] None = Some op -> x64 J = true ->
    run_jax J op [a_i64 l] = Raised.
Proof.
  intros J L f op l Hu Ht Hx.
  destruct (C99_unknown_dimensions J L f [v_col] op [a_i64 l] Hu Ht Hx) as [_ R].
  { exists F32, [Some (-1)%Z]; simpl; auto. }
  apply R. intros [n [Hn [F _]]]. inversion F as [|? ? ? ? [F0 _] _]; subst. discriminate.
Qed.
Print Assumptions C163_conversion_refuted.

(** A complex column of unknown length is always refused ("complex64" is not an
    MLIR type). *)
Theorem C163_complex_refuted :
  forall J (L : jax_laws J) (f : src J) op a,
    length (pg_uses J f) = 1 ->
    run_jax_trace J f [TTensor C64 [Some (-1)%Z]] None = Some op -> x64 J = true ->
    run_jax J op [a] = Raised.
Proof.
  intros J L f op a Hu Ht Hx.
  destruct (C99_unknown_dimensions J L f [TTensor C64 [Some (-1)%Z]] op [a] Hu Ht Hx) as [_ R].
  { exists C64, [Some (-1)%Z]; simpl; auto. }
  apply R. intros [n [Hn [F C]]]. inversion F as [|? ? ? ? [F0 _] _]; subst.
  inversion C as [|? ? C0 _]; subst. rewrite F0 in C0. discriminate.
Qed.
Print Assumptions C163_complex_refuted.

(** The library never sets [jax_enable_x64] (its test suite does).  With JAX's
    default, a 64-bit integer tensor reaches the function truncated to 32 bits:
    no error, the identity function returns other numbers. *)
Theorem C163_sixty_four_bits_refuted :
  forall J (L : jax_laws J) (f : src J) op l,
    pg_uses J f = [true] -> (forall xs, pg_fn J f xs = xs) ->
    run_jax_trace J f [v_i64 (Z.of_nat (length l))] None = Some op ->
    x64 J = false ->
    run_jax J op [a_i64 l] =
      Ok [{| a_dt := I32; a_shape := [Z.of_nat (length l)]; a_data := map (wrap I32) l |}].
Proof.
  intros J L f op l Hu Hf Ht Hx.
  rewrite (static_call_any J L f [v_i64 (Z.of_nat (length l))] None op [a_i64 l] 0%Z); auto.
  - rewrite Hf. simpl. unfold prepare, as_jax, cast; rewrite Hx; simpl. reflexivity.
  - rewrite Hu; reflexivity.
  - constructor; [|constructor]. simpl. constructor; [|constructor]. eexists; split; [reflexivity|lia].
  - constructor; [|constructor]. simpl.
    destruct (Z.of_nat (length l) =? -1)%Z eqn:E; auto. apply Z.eqb_eq in E; lia.
Qed.
Print Assumptions C163_sixty_four_bits_refuted.

Example C99_refuted_cases :
  call (J0 false) KId [v_i64 1] None [a_i64 [2 ^ 40]%Z]
    = Ok [{| a_dt := I32; a_shape := [1%Z]; a_data := [0%Z] |}] /\
  call (J0 true) KBoth [v_col; v_col] None [a_f32 [1%Z]; a_f32 [1; 2]%Z] = Raised /\
  call (J0 true) KId [v_col] None [a_f32 []] = Raised /\
  call (J0 true) KId [v_col] None [a_i64 [1%Z]] = Raised.
Proof. repeat split; vm_compute; reflexivity. Qed.

(** ** C100: after every history of calls (any traced operations, arguments and
    root directories; failing reads; saves that fail, cannot start, or are cut by
    the death of the process), restarts and removed files, a call returns what
    it returns in a new process with empty caches. *)
Theorem C100_caches_transparent :
  forall J (L : jax_laws J) evs root fate op args,
    Forall (traced_event J) evs -> traced J op ->
    f_mkdir fate = true -> (forall n, f_save fate <> DiesAfter n) ->
    fst (run_jax_xla J (fold_left (step J) evs (empty J)) root fate op args)
    = run_jax J op args.
Proof.
  intros J L evs root fate op args He Ho Hm Hs.
  apply call_same; auto. apply history_inv; auto. apply inv_empty.
Qed.
Print Assumptions C100_caches_transparent.

(** A history in which a first process dies while saving, a second one finds the
    cut file, saves it again, and a third loads it. *)
Definition code0 : code (J0 true) :=
  {| h_prog := KId; h_params := [{| p_dt := I64; p_dims := [Stat 2] |}]; h_keep := [true] |}.
Definition op0 : jop (J0 true) :=
  @Build_jop (J0 true) [v_i64 2] code0 None false.
Definition dies : fate := {| f_mkdir := true; f_read := true; f_save := DiesAfter 0 |}.
Definition hist0 : list (event (J0 true)) :=
  [ECall 3 dies op0 [a_i64 [1; 2]%Z]; ERestart; ECall 3 good op0 [a_i64 [3; 4]%Z]; ERestart].

Example C100_case :
  Forall (traced_event (J0 true)) hist0 /\ traced (J0 true) op0 /\
  disk (fold_left (step (J0 true)) (firstn 1 hist0) (empty (J0 true))) 3 (op_code op0) = Some [] /\
  disk (fold_left (step (J0 true)) hist0 (empty (J0 true))) 3 (op_code op0) = Some [op_code op0] /\
  mem (fold_left (step (J0 true)) hist0 (empty (J0 true))) (op_code op0) = None /\
  fst (run_jax_xla (J0 true) (fold_left (step (J0 true)) hist0 (empty (J0 true))) 3 good op0 [a_i64 [5; 6]%Z])
  = Ok [a_i64 [5; 6]%Z].
Proof.
  assert (T : traced (J0 true) op0) by (exists KId, [v_i64 2], None; split; reflexivity).
  repeat split; try (vm_compute; reflexivity).
  - repeat constructor; simpl; auto.
  - exact T.
Qed.

(** The cache directory itself is not optional: when it cannot be created, a call
    that is not in the process's memory raises, although nothing but the cache is
    missing. *)
Theorem C100_needs_its_directory :
  forall J st root f op args,
    f_mkdir f = false -> mem st (hash J (op_code op)) = None ->
    fst (run_jax_xla J st root f op args) = Raised.
Proof. intros J st root f op args H1 H2. unfold run_jax_xla. rewrite H2, H1. reflexivity. Qed.
Print Assumptions C100_needs_its_directory.

Example C100_needs_its_directory_case :
  fst (run_jax_xla (J0 true) (empty (J0 true)) 0
         {| f_mkdir := false; f_read := true; f_save := SaveOk |} op0 [a_i64 [5; 6]%Z]) = Raised
  /\ run_jax (J0 true) op0 [a_i64 [5; 6]%Z] = Ok [a_i64 [5; 6]%Z].
Proof. split; vm_compute; reflexivity. Qed.
