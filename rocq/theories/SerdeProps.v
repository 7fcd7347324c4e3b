(** Properties C20-C25: serialisation, types, graphs. *)
From Coq Require Import List NArith ZArith String Ascii Bool Lia.
From Verif Require Import Base64Model CtxModel SerdeModel SerdeSpec SerdeProofs SerdeGraph SerdeValue
  BinModel BinProofs BinContainer TypeHash GraphModel GraphProofs GraphSerde JsonText JsonTextProofs JsonTextOk.
Import ListNotations.
Local Open Scope string_scope.
Local Open Scope list_scope.
Local Open Scope Z_scope.

(** ** C20 *)
(** from_json (to_json x) is x, with numpy scalars, array-likes and DataFrames in their documented
    canonical form ([norm]); for values without those it is x itself. *)
Theorem C20_json_roundtrip (float_int : Z -> option Z) (itemsize : string -> option Z) (x : pv) :
  wf_pv float_int itemsize x -> from_json float_int itemsize (to_json x) = Ok (norm x).
Proof. apply value_roundtrip. Qed.
Print Assumptions C20_json_roundtrip.
Theorem C20_json_roundtrip_plain (float_int : Z -> option Z) (itemsize : string -> option Z) (x : pv) :
  wf_pv float_int itemsize x -> plain x -> from_json float_int itemsize (to_json x) = Ok x.
Proof. intros W P. rewrite value_roundtrip by auto. now rewrite norm_plain. Qed.
Print Assumptions C20_json_roundtrip_plain.
Theorem C20_distinct_encodings (float_int : Z -> option Z) (itemsize : string -> option Z) (x y : pv) :
  wf_pv float_int itemsize x -> wf_pv float_int itemsize y -> plain x -> plain y -> x <> y -> to_json x <> to_json y.
Proof.
  intros Wx Wy Px Py N E. apply N.
  pose proof (C20_json_roundtrip_plain float_int itemsize x Wx Px) as Hx.
  pose proof (C20_json_roundtrip_plain float_int itemsize y Wy Py) as Hy. rewrite E in Hx. congruence.
Qed.
Print Assumptions C20_distinct_encodings.

Definition ex_itemsize (d : string) : option Z := if String.eqb d "int32" then Some 4 else if String.eqb d "float64" then Some 8 else None.
Definition ex_float_int (f : Z) : option Z := if Z.eqb f 4607182418800017408 then Some 1 else None. (* bits of 1.0 *)
(** a dict with int, bytes and tuple keys, arrays, a type and a graph with a nested region *)
Definition ex_region : pv := PGraph [("%arg0", TTensor (TInt 32 true) [2])] [GOp "neg" ["%arg0"] [("%0", TTensor (TInt 32 true) [2])] [] [] "op0"] ["%0"].
Definition ex_graph : pv :=
  PGraph [("%arg0", TMP (TTensor (TInt 32 true) [2]) (Some [0; 1])); ("%arg1", TTable [("b", TInt 64 true); ("a", TFloat 64)] 7)]
    [GOp "pcall" ["%arg0"; "%arg0"] [("%0", TFloat 32); ("%1", TQuote)] [("k", PInt 3); ("parties", PTuple [PInt 0; PInt 1])] [ex_region] "op0";
     GOp "sink" ["%1"; "%arg1"] [] [("x", PDict [(PStr "y", PNone)])] [] "op1"]
    ["%0"; "%arg1"].
Definition ex_value : pv :=
  PDict [(PInt 2, PList [PNone; PBool true; PFloat 4609434218613702656; PStr "h\i"; PBytes "raw"]);
         (PBytes "k", PNd "int32" [2; 1] "01234567"); (PTuple [PInt 1; PStr "x"], ex_graph);
         (PStr "t", PTensorObj [2] [PTableVal "ipc"; PECPoint "pt"])].
Ltac solve_nodup := repeat (apply NoDup_cons; [cbn; intuition discriminate|]); apply NoDup_nil.
Ltac solve_wf := repeat split; auto; try lia; try solve_nodup.
Ltac solve_incl := intros ? HH; cbn in *; intuition (subst; auto 10).
Ltac solve_built := unfold built_graph, graph_names; split; [cbn; solve_nodup|]; split; [cbn; repeat split; solve_incl|];
  split; [reflexivity|]; split; [repeat constructor; discriminate|solve_incl].
Example C20_example_wf : wf_pv ex_float_int ex_itemsize ex_value /\ plain ex_value.
Proof.
  split; [|cbn; intuition].
  assert (P5 : exists k, 0 <= k /\ 32 = 2 ^ k) by (exists 5; split; [lia|reflexivity]).
  assert (P6 : exists k, 0 <= k /\ 64 = 2 ^ k) by (exists 6; split; [lia|reflexivity]).
  assert (F : Forall (fun d => d = -1 \/ 0 < d) [2]) by (repeat constructor; lia).
  cbn [wf_pv ex_value all fold_right fst snd map]. split; [|].
  - split; [cbn; tauto|]. split; [|split; [|split; [|exact I]]].
    + split; [exact I|]. exists 4. repeat split; repeat constructor; lia.
    + split; [cbn; tauto|]. unfold ex_graph. cbn [wf_pv all fold_right fst snd map g_outs g_attrs g_regions].
      split; [cbn [wf_ty all fold_right fst snd map]; solve_wf|].
      split.
      * split; [|split; [cbn; solve_wf; repeat constructor|exact I]].
        split; [cbn; tauto|]. split; [cbn; tauto|]. split; [first [solve_nodup|cbn;constructor]|]. split; [|exact I].
        unfold ex_region. cbn [wf_pv all fold_right fst snd map g_outs g_attrs g_regions].
        split; [cbn [wf_ty]; auto|]. split; [cbn [wf_ty all fold_right fst snd]; repeat split; auto; constructor|].
        solve_built.
      * solve_built.
    + split; [exact I|]. repeat split; repeat constructor; lia.
  - split; [repeat constructor|]. repeat (constructor; [repeat constructor|]). constructor.
Qed.
Example C20_example : from_json ex_float_int ex_itemsize (to_json ex_value) = Ok ex_value.
Proof. vm_compute. reflexivity. Qed.
(** the documented conversions *)
Example C20_example_norm : from_json ex_float_int ex_itemsize (to_json (PList [PNpInt 3; PFrame "ipc"; PArrayLike "int32" [] "abcd"]))
  = Ok (PList [PInt 3; PTable "ipc"; PNd "int32" [] "abcd"]).
Proof. vm_compute. reflexivity. Qed.

(** loads (dumps x), down to the bytes: compact ASCII JSON text, gzip (any pair of functions where
    gunzip undoes gz), base64.  [text_pv]: every string in x is Unicode text. *)
Theorem C20_dumps_loads (float_int : Z -> option Z) (itemsize : string -> option Z) (fprint : Z -> string) (fparse : string -> option Z)
    (gz : string -> string) (gunzip : string -> option string) (x : pv) :
  float_text fprint fparse -> (forall s, gunzip (gz s) = Some s) -> wf_pv float_int itemsize x -> text_pv x ->
  loads float_int itemsize fparse gunzip (dumps fprint gz x) = Ok (norm x)
  /\ loads_b64 float_int itemsize fparse gunzip (dumps_b64 fprint gz x) = Ok (norm x).
Proof.
  intros F G W T. assert (L : loads float_int itemsize fparse gunzip (dumps fprint gz x) = Ok (norm x)).
  { unfold loads, dumps. rewrite G. rewrite (loads_bytes_dumps fprint fparse _ (good_compact true) F _ (ok_pv float_int itemsize x W T)). now apply value_roundtrip. }
  split; [exact L|]. unfold loads_b64, dumps_b64. rewrite b64_roundtrip. exact L.
Qed.
Print Assumptions C20_dumps_loads.
Example C20_dumps_example : text_pv (PList [ex_value; PStr (utf8 8364 +++ utf8 128512)])
  /\ dumps fprint_ex (fun s => s) (PDict [(PStr (utf8 233 +++ "k"), PList [PFloat 3; PInt (-12); PStr (utf8 8364 +++ newline +++ utf8 128512)])])
     = "{""_kind"":""_dict"",""items"":{""\u00e9k"":{""_kind"":""_list"",""items"":[{""_kind"":""_float"",""v"":3.0},{""_kind"":""_int"",""v"":-12},{""_kind"":""_str"",""v"":""\u20ac\n\ud83d\ude00""}]}}}"
  /\ float_text fprint_ex fparse_ex.
Proof. split; [cbn; tauto|]. split; [vm_compute; reflexivity|exact float_text_ex]. Qed.

(** Inside a \u escape the reader takes the sixteen hexadecimal digits, in either case, and nothing else. *)
Theorem C20_hex_escapes : forall (c : ascii) (v : nat),
  hexval c = Some (N.of_nat v) <-> (String.get v "0123456789abcdef" = Some c \/ String.get v "0123456789ABCDEF" = Some c).
Proof. exact hexval_spec. Qed.
Print Assumptions C20_hex_escapes.
Example C20_hex_ex : hexval "f"%char = Some 15%N /\ hexval "F"%char = Some 15%N /\ hexval "g"%char = None.
Proof. repeat split. Qed.

(** ** C21 *)
(** the metadata text: json.dumps(meta, separators=(",", ":")).encode("utf-8"), serde.py:672 *)
Definition meta_text (fprint : Z -> string) (j : json) : string := json_dumps fprint (compact true) j.
Lemma meta_ok (float_int : Z -> option Z) (itemsize : string -> option Z) (fprint : Z -> string) (fparse : string -> option Z) (x : pv) :
  float_text fprint fparse -> wf_pv float_int itemsize x -> text_pv x -> loads_bytes fparse (meta_text fprint (fst (benc x 0))) = Some (fst (benc x 0)).
Proof. intros F W T. apply loads_bytes_dumps; [apply good_compact|exact F|]. now apply (ok_benc float_int itemsize). Qed.
(** dumps_binary then loads_binary gives the value back, whenever dumps_binary succeeds (all
    lengths below 2^32). *)
Theorem C21_binary_roundtrip (float_int : Z -> option Z) (itemsize : string -> option Z)
    (fprint : Z -> string) (fparse : string -> option Z) (x : pv) (s : string) :
  float_text fprint fparse -> wf_pv float_int itemsize x -> text_pv x ->
  dumps_binary (meta_text fprint) x = Ok s -> loads_binary float_int itemsize (loads_bytes fparse) s = Ok (norm x).
Proof. intros F W T H. eapply container_exact; eauto using meta_ok. Qed.
Print Assumptions C21_binary_roundtrip.
(** every proper prefix is rejected; the error is ValueError, or IndexError where the cut falls
    between two segments *)
Theorem C21_truncation_rejected (float_int : Z -> option Z) (itemsize : string -> option Z)
    (fprint : Z -> string) (fparse : string -> option Z) (x : pv) (s p q : string) :
  float_text fprint fparse -> wf_pv float_int itemsize x -> text_pv x ->
  dumps_binary (meta_text fprint) x = Ok s -> s = p +++ q -> q <> "" ->
  loads_binary float_int itemsize (loads_bytes fparse) p = ValueErr \/ loads_binary float_int itemsize (loads_bytes fparse) p = IndexErr.
Proof. intros F W T H E Hq. eapply container_truncated; eauto using meta_ok. Qed.
Print Assumptions C21_truncation_rejected.
(** bytes appended to a container never change the value it decodes to *)
Theorem C21_trailing_bytes (float_int : Z -> option Z) (itemsize : string -> option Z)
    (fprint : Z -> string) (fparse : string -> option Z) (x : pv) (s t : string) :
  float_text fprint fparse -> wf_pv float_int itemsize x -> text_pv x -> dumps_binary (meta_text fprint) x = Ok s ->
  loads_binary float_int itemsize (loads_bytes fparse) (s +++ t) = Ok (norm x) \/ loads_binary float_int itemsize (loads_bytes fparse) (s +++ t) = ValueErr.
Proof. intros F W T H. eapply container_roundtrip; eauto using meta_ok. Qed.
Print Assumptions C21_trailing_bytes.
(** and fewer than four trailing bytes are rejected *)
Theorem C21_short_trailing_rejected (float_int : Z -> option Z) (itemsize : string -> option Z)
    (fprint : Z -> string) (fparse : string -> option Z) (x : pv) (s t : string) :
  float_text fprint fparse -> wf_pv float_int itemsize x -> text_pv x -> dumps_binary (meta_text fprint) x = Ok s -> t <> "" -> (String.length t < 4)%nat ->
  loads_binary float_int itemsize (loads_bytes fparse) (s +++ t) = ValueErr.
Proof.
  intros F W T H Ht Hl. pose proof (meta_ok float_int itemsize fprint fparse x F W T) as P. apply dumps_inv in H. destruct H as (p & q & Hp & Hq & ->).
  rewrite sapp_assoc, (loads_part float_int itemsize (meta_text fprint) (loads_bytes fparse) _ _ _ Hp P), (segments_parts _ _ _ Hq).
  rewrite segments_none; auto. destruct t as [|a [|b [|c [|d t]]]]; auto. cbn in Hl. lia.
Qed.
Print Assumptions C21_short_trailing_rejected.
(** the documented "truncation raises ValueError" is false: cutting a whole segment off raises IndexError *)
Theorem C114_truncation_valueerror_refuted : forall (float_int : Z -> option Z) (itemsize : string -> option Z) (fprint : Z -> string) (fparse : string -> option Z),
  float_text fprint fparse ->
  exists (x : pv) (s p q : string),
      wf_pv float_int itemsize x /\ text_pv x /\ dumps_binary (meta_text fprint) x = Ok s /\ s = p +++ q /\ q <> ""
      /\ loads_binary float_int itemsize (loads_bytes fparse) p = IndexErr.
Proof.
  intros float_int itemsize fprint fparse _. exists (PBytes "abc"), (match dumps_binary (meta_text (fun _ => "")) (PBytes "abc") with Ok s => s | _ => "" end).
  exists (substring 0 36 (match dumps_binary (meta_text (fun _ => "")) (PBytes "abc") with Ok s => s | _ => "" end)), (substring 36 7 (match dumps_binary (meta_text (fun _ => "")) (PBytes "abc") with Ok s => s | _ => "" end)).
  split; [exact I|]. split; [exact I|]. split; [reflexivity|]. split; [reflexivity|]. split; [discriminate|]. vm_compute. reflexivity.
Qed.
Print Assumptions C114_truncation_valueerror_refuted.
Example C21_example_dumps : exists s, dumps_binary (meta_text fprint_ex) (PBytes "abc") = Ok s /\ String.length s = 43%nat
  /\ loads_binary (fun _ => None) (fun _ => None) (loads_bytes fparse_ex) s = Ok (PBytes "abc").
Proof. eexists. split; [reflexivity|]. split; vm_compute; reflexivity. Qed.

(** ** C22 *)
Theorem C22_type_roundtrip (t : ty) : wf_ty t -> ty_from_json (depth (ty_to_json t)) (ty_to_json t) = Ok t.
Proof. intros W. now apply ty_roundtrip_at. Qed.
Print Assumptions C22_type_roundtrip.
(** whatever from_json accepts as a type is well formed *)
Theorem C22_decoded_types_are_valid (n : nat) (j : json) (t : ty) : ty_from_json n j = Ok t -> wf_ty t.
Proof. apply ty_from_json_wf. Qed.
Print Assumptions C22_decoded_types_are_valid.
(** each constructor accepts exactly the documented parameters *)
Theorem C22_constructors_validate :
  (forall b s t, mk_int b s = Ok t <-> t = TInt b s /\ exists k, 0 <= k /\ b = 2 ^ k)
  /\ (forall b t, mk_float b = Ok t <-> t = TFloat b /\ (b = 16 \/ b = 32 \/ b = 64 \/ b = 128))
  /\ (forall i t, mk_complex i = Ok t <-> t = TComplex i /\ exists b, i = TFloat b)
  /\ (forall e sh t, mk_tensor e sh = Ok t <-> t = TTensor e sh /\ Forall (fun d => d = -1 \/ 0 < d) sh)
  /\ (forall e n t, mk_vector e n = Ok t <-> t = TVector e n /\ 0 < n
        /\ ((exists b s, e = TInt b s) \/ (exists b, e = TFloat b) \/ exists i, e = TComplex i))
  /\ (forall sch n t, mk_table sch n = Ok t <-> t = TTable sch n /\ (n = -1 \/ 0 < n))
  /\ (forall k t, mk_custom k = Ok t <-> t = TCustom k /\ exists a c b, k = a +++ String c b /\ is_space c = false).
Proof.
  split; [exact mk_int_ok|]. split; [exact mk_float_ok|]. split; [exact mk_complex_ok|]. split; [exact mk_tensor_ok|].
  split; [exact mk_vector_ok|]. split; [exact mk_table_ok|exact mk_custom_ok].
Qed.
Print Assumptions C22_constructors_validate.
Example C22_example : ty_from_json 9 (ty_to_json (TMP (TTable [("b", TVector (TComplex (TFloat 64)) 3); ("a", TTensor (TInt 1 true) [-1; 2])] 5) (Some [2; 0])))
  = Ok (TMP (TTable [("b", TVector (TComplex (TFloat 64)) 3); ("a", TTensor (TInt 1 true) [-1; 2])] 5) (Some [2; 0]))
  /\ mk_int 24 true = ValueErr /\ mk_tensor (TFloat 32) [3; 0] = ValueErr /\ mk_table [] 0 = ValueErr.
Proof. repeat split. Qed.

(** ** C23 *)
(** two tables with the same columns in a different order are equal, but their hashes come from
    different tuples; with any hash that separates those tuples, equal types hash differently *)
Definition tab_ab : ty := TTable [("a", TInt 32 true); ("b", TFloat 64)] (-1).
Definition tab_ba : ty := TTable [("b", TFloat 64); ("a", TInt 32 true)] (-1).
Theorem C23_equal_types_hash_equally_refuted :
  ~ (forall (hstr : string -> Z) (hint : Z -> Z) (htuple : list Z -> Z) (hnone : Z) (t u : ty),
       wf_ty t -> wf_ty u -> ty_eqb t u = true -> ty_hash hstr hint htuple hnone t = ty_hash hstr hint htuple hnone u).
Proof.
  intros H. specialize (H (fun s => Z.of_nat (String.length s) + match s with String c _ => Z.of_nat (nat_of_ascii c) | _ => 0 end) (fun z => z)
    (fun l => fold_left (fun a x => a * 1000003 + x) l 5381) 0 tab_ab tab_ba).
  assert (W1 : wf_ty tab_ab) by (cbn; repeat split; auto; try solve_nodup; exists 5; split; [lia|reflexivity]).
  assert (W2 : wf_ty tab_ba) by (cbn; repeat split; auto; try solve_nodup; exists 5; split; [lia|reflexivity]).
  specialize (H W1 W2 eq_refl). vm_compute in H. discriminate.
Qed.
Print Assumptions C23_equal_types_hash_equally_refuted.
(** for every hash: the two equal tables hash equally only if the hash of the two item tuples collides *)
Theorem C23_tables_collide_only (hstr : string -> Z) (hint : Z -> Z) (htuple : list Z -> Z) (hnone : Z) :
  (forall l m, htuple l = htuple m -> l = m) -> htuple [hstr "a"; ty_hash hstr hint htuple hnone (TInt 32 true)] <> htuple [hstr "b"; ty_hash hstr hint htuple hnone (TFloat 64)] ->
  ty_eqb tab_ab tab_ba = true /\ ty_hash hstr hint htuple hnone tab_ab <> ty_hash hstr hint htuple hnone tab_ba.
Proof.
  intros Inj N. split; [reflexivity|]. unfold tab_ab, tab_ba. cbn [ty_hash map fst snd]. intros E. apply Inj in E. injection E as E.
  apply Inj in E. injection E as E _. apply N. exact E.
Qed.
Print Assumptions C23_tables_collide_only.
(** Types that compare equal hash equally unless tables list their columns in different orders. *)
Theorem C180_types_hash_equally (hstr : string -> Z) (hint : Z -> Z) (htuple : list Z -> Z) (hnone : Z) (t u : ty) :
  wf_ty u -> same_order t u -> ty_eqb t u = true -> ty_hash hstr hint htuple hnone t = ty_hash hstr hint htuple hnone u.
Proof. intros W O E. rewrite (same_order_eq t u W O E). reflexivity. Qed.
Print Assumptions C180_types_hash_equally.
(** Comparison itself: up to the order of table columns, types compare equal exactly when they are the same. *)
Theorem C180_types_compare (t u : ty) : wf_ty u -> same_order t u -> (ty_eqb t u = true <-> t = u).
Proof. intros W O. split; [exact (same_order_eq t u W O)|]. intros ->. apply ty_eqb_refl, W. Qed.
Print Assumptions C180_types_compare.
Example C23_example : same_order (TMP (TTable [("a", TInt 32 true); ("b", TFloat 64)] 3) (Some [0])) (TMP (TTable [("a", TInt 32 true); ("b", TFloat 64)] 3) (Some [0])) /\ narrow (TMP (TTable [("a", TInt 32 true)] 3) (Some [0])) /\ ty_eqb (TMP (TTable [("a", TInt 32 true)] 3) (Some [0])) (TMP (TTable [("a", TInt 32 true)] 3) (Some [0])) = true
  /\ ty_eqb tab_ab tab_ba = true.
Proof. cbn. repeat split; auto. Qed.

(** ** C24 *)
Theorem C24_names_uses_defs (cs : list call) :
  calls_ok empty_graph cs ->
  names_ok (run_calls empty_graph cs) /\ uses_ok (run_calls empty_graph cs) /\ defs_ok (run_calls empty_graph cs).
Proof. intros H. apply inv_spec. apply inv_run; auto. apply inv_empty. Qed.
Print Assumptions C24_names_uses_defs.
Theorem C115_defined_before_use_partial (cs : list call) :
  calls_ok empty_graph cs -> replaces_earlier empty_graph cs -> in_order (run_calls empty_graph cs).
Proof. intros H E. apply order_run; auto; [apply inv_empty|]. intros [|o]; discriminate. Qed.
Print Assumptions C115_defined_before_use_partial.
(** replace_input accepts a value defined by a later operation, or the operation's own output *)
Theorem C115_defined_before_use_refuted : ~ (forall cs, calls_ok empty_graph cs -> in_order (run_calls empty_graph cs)).
Proof.
  intros H. specialize (H [AddInput "x"; AddOp [0%nat] 1; ReplaceInput 0 0 1]).
  assert (C : calls_ok empty_graph [AddInput "x"; AddOp [0%nat] 1; ReplaceInput 0 0 1]).
  { cbn. repeat split; auto. eexists. split; reflexivity. }
  specialize (H C 0%nat 0%nat (Oper [1%nat] [1%nat] true) (Oper [1%nat] [1%nat] true) 1%nat eq_refl eq_refl). cbn in H.
  specialize (H (or_introl eq_refl) (or_introl eq_refl)). lia.
Qed.
Print Assumptions C115_defined_before_use_refuted.
Definition ex_calls : list call :=
  [AddInput "%arg0"; AddInput "%arg0"; AddInput "%arg1"; AddOp [0; 1; 0]%nat 2; AddOp [2; 3]%nat 1; ReplaceInput 1 3 0; Erase 1; AddOp [2]%nat 1; AddOutput 5].
Example C24_example : calls_ok empty_graph ex_calls /\ replaces_earlier empty_graph ex_calls
  /\ run_calls empty_graph ex_calls = Graph
       [Value "%arg0" None [0]; Value "%arg1" None [0]; Value "%0" (Some 0) [2]; Value "%1" (Some 0) []; Value "%2" None []; Value "%3" (Some 2) []]%nat
       [Oper [0; 1; 0] [2; 3] true; Oper [2; 0] [4] false; Oper [2] [5] true]%nat
       [("%arg0", 0); ("%arg1", 1); ("%0", 2); ("%1", 3); ("%2", 4); ("%3", 5)]%nat [0; 1]%nat [5]%nat 4.
Proof.
  split; [|split; [|reflexivity]].
  - cbn [calls_ok ex_calls]. repeat match goal with |- _ /\ _ => split end; try exact I.
    + vm_compute. repeat constructor.
    + vm_compute. repeat constructor.
    + split; [eexists; split; reflexivity|vm_compute; lia].
    + vm_compute. repeat constructor.
  - cbn [replaces_earlier ex_calls]. repeat match goal with |- _ /\ _ => split end; try exact I. intros o' x' E.
    match type of E with nth_error (g_ops ?g) _ = _ => replace (g_ops g) with [Oper [0; 1; 0] [2; 3] true; Oper [2; 3] [4] true]%nat in E by (vm_compute; reflexivity) end.
    destruct o' as [|[|o']]; cbn in E; [| |destruct o'; discriminate]; injection E as <-; cbn; intuition discriminate.
Qed.

(** ** C25 *)
(** A graph built by any history of add_input / add_op / add_output / replace_input / erase, whose
    types, attributes and regions are themselves serialisable, survives to_json / from_json. *)
Theorem C25_graph_roundtrip (float_int : Z -> option Z) (itemsize : string -> option Z)
    (tyof : nat -> ty) (opcode : nat -> string) (attrs : nat -> list (string * pv)) (regions : nat -> list pv) (cs : list call) :
  calls_ok empty_graph cs -> replaces_earlier empty_graph cs -> Forall ordinary cs ->
  (forall v, wf_ty (tyof v)) ->
  (forall k, all (fun p => wf_pv float_int itemsize (snd p)) (attrs k) /\ NoDup (map fst (attrs k)) /\ all (wf_pv float_int itemsize) (regions k)) ->
  (forall k, all (fun p => plain (snd p)) (attrs k) /\ all plain (regions k)) ->
  let g := run_calls empty_graph cs in
  let written := PGraph (view_ins tyof g) (view_ops tyof opcode attrs regions g) (view_outs g) in
  from_json float_int itemsize (to_json written) = Ok written.
Proof.
  intros C E O Wt Wa Pa g written.
  assert (I : inv g) by (apply inv_run; auto; apply inv_empty).
  assert (B : built_graph (view_ins tyof g) (view_ops tyof opcode attrs regions g) (view_outs g)).
  { apply view_built; auto; [apply order_run; auto; [apply inv_empty|intros [|o]; discriminate]|].
    apply shape_run; auto; [apply inv_empty|apply shape_empty]. }
  apply C20_json_roundtrip_plain.
  - cbn [wf_pv]. split; [|split; [|exact B]].
    + apply all_Forall. apply Forall_forall. intros p Hp. apply in_map_iff in Hp. destruct Hp as (v & <- & _). apply Wt.
    + apply all_Forall. apply Forall_forall. intros o Ho. apply in_map_iff in Ho. destruct Ho as ([k x] & <- & _).
      cbn [view_op g_outs g_attrs g_regions fst snd]. destruct (Wa k) as (W1 & W2 & W3). split; [|auto].
      apply all_Forall. apply Forall_forall. intros p Hp. apply in_map_iff in Hp. destruct Hp as (v & <- & _). apply Wt.
  - cbn [plain]. apply all_Forall. apply Forall_forall. intros o Ho. apply in_map_iff in Ho. destruct Ho as ([k x] & <- & _).
    cbn [view_op g_attrs g_regions fst snd]. apply Pa.
Qed.
Print Assumptions C25_graph_roundtrip.
(** the same for a graph given directly: values named in creation order, used after definition *)
Theorem C25_rebuild_exact (ins : list (string * ty)) (ops : list (gop pv)) (outs : list string) :
  built_graph ins ops outs -> rebuild ins ops outs = Ok (PGraph ins ops outs).
Proof. apply rebuild_built. Qed.
Print Assumptions C25_rebuild_exact.
(** a public add_value call between two operations leaves a gap in the numbering and the written graph
    cannot be read back *)
Definition gap_calls : list call := [AddInput "x"; AddValue None; AddOp [0%nat] 1; AddOp [2%nat] 1].
Theorem C116_graph_roundtrip_with_gaps_refuted :
  ~ (forall (float_int : Z -> option Z) (itemsize : string -> option Z) (cs : list call),
       calls_ok empty_graph cs -> replaces_earlier empty_graph cs ->
       let g := run_calls empty_graph cs in
       let written := PGraph (view_ins (fun _ => TQuote) g) (view_ops (fun _ => TQuote) (fun _ => "f") (fun _ => []) (fun _ => []) g) (view_outs g) in
       from_json float_int itemsize (to_json written) = Ok written).
Proof.
  intros H. specialize (H (fun _ => None) (fun _ => None) gap_calls).
  assert (C : calls_ok empty_graph gap_calls) by (cbn; repeat split; auto; repeat constructor).
  assert (E : replaces_earlier empty_graph gap_calls) by (cbn; auto).
  specialize (H C E). vm_compute in H. discriminate.
Qed.
Print Assumptions C116_graph_roundtrip_with_gaps_refuted.
Example C25_example : Forall ordinary ex_calls /\
  view_ops (fun _ => TQuote) (fun k => "f") (fun _ => []) (fun _ => []) (run_calls empty_graph ex_calls) =
    [GOp "f" ["%arg0"; "%arg1"; "%arg0"] [("%0", TQuote); ("%1", TQuote)] [] [] "op0";
     GOp "f" ["%0"; "%arg0"] [("%2", TQuote)] [] [] "op1"; GOp "f" ["%0"] [("%3", TQuote)] [] [] "op2"].
Proof.
  split; [|reflexivity].
  assert (D : forall k, "%arg0" <> pct k /\ "%arg1" <> pct k).
  { intros k. unfold pct. cbn. pose proof (CtxProofs.show_digits k) as H. split; intros E; injection E as E; rewrite <- E in H; discriminate. }
  unfold ex_calls. repeat constructor; intros k; apply D.
Qed.
