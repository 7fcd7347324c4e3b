(** C52: compiled program artifacts.  [consistent], [world_of], [canon] are in ProgramSpec.v. *)
From Coq Require Import List ZArith String Ascii Bool Lia Permutation.
From Verif Require Import CtxModel SerdeModel SerdeSpec MorphModel ProgramModel ProgramSpec ProgramProofs JsonText JsonTextProofs JsonTextOk.
Import ListNotations.
Local Open Scope string_scope.
Local Open Scope list_scope.
Local Open Scope Z_scope.

(** a traced function with a region: %0 = pcall(parties=[0,2]){neg}(x), with a table-typed output *)
Definition ex_ty : ty := TMP (TTable [("age", TInt 64 true); ("name", TCustom "str")] 3) (Some [0; 2]).
Definition ex_region : pv := PGraph [("x", ex_ty)] [GOp "neg" ["x"] [("%0", ex_ty)] [] [] "op0"] ["%0"].
Definition ex_graph : pv :=
  PGraph [("x", ex_ty)] [GOp "simp.pcall_static" ["x"] [("%0", ex_ty)] [("fn_name", PStr "f"); ("parties", PList [PInt 0; PInt 2])] [ex_region] "op0"] ["%0"].
Definition ex_traced : traced := Traced ex_graph [] [] [0%nat] "f".
Definition no_int (_ : Z) : res Z := ValueErr.
Definition no_sint (_ : string) : res Z := ValueErr.
Definition ex_program (sha : json -> string) : program :=
  Program ex_graph 1 1 [JStr "neg"; JStr "simp.pcall_static"] (sha (sort_json (to_json ex_graph))) (Some 3) (JStr "2026-01-01") (JStr "0.1") 1 (JStr "f").
Example C52_ex_compiles : forall sha : json -> string,
  compile no_int no_sint sha (JStr "2026-01-01") (JStr "0.1") None ex_traced = Ok (ex_program sha).
Proof. reflexivity. Qed.
Ltac nd := repeat constructor; cbn; intros HH; repeat destruct HH as [HH|HH]; try discriminate HH; contradiction.
Example C52_ex_wf : forall (float_int : Z -> option Z) (itemsize : string -> option Z), wf_pv float_int itemsize ex_graph.
Proof.
  intros fi it.
  assert (WT : wf_ty ex_ty).
  { cbn. split; [nd|]. split; [|lia]. split; [exists 6; split; [lia|reflexivity]|]. split; [|exact I]. exists "", "s"%char, "tr". split; reflexivity. }
  assert (WR : wf_pv fi it ex_region).
  { cbn -[wf_ty ex_ty]. repeat (split; try exact I; try exact WT); try nd; unfold built_graph; cbn; repeat split; try nd; auto; try (intros s Hs; cbn in *; tauto); try (repeat constructor; discriminate). }
  change (wf_pv fi it ex_graph) with (all (fun v => wf_ty (snd v)) [("x", ex_ty)] /\ all (fun o => all (fun v => wf_ty (snd v)) (g_outs o) /\ all (fun p => wf_pv fi it (snd p)) (g_attrs o)
                         /\ NoDup (map fst (g_attrs o)) /\ all (wf_pv fi it) (g_regions o)) [GOp "simp.pcall_static" ["x"] [("%0", ex_ty)] [("fn_name", PStr "f"); ("parties", PList [PInt 0; PInt 2])] [ex_region] "op0"]
        /\ built_graph [("x", ex_ty)] [GOp "simp.pcall_static" ["x"] [("%0", ex_ty)] [("fn_name", PStr "f"); ("parties", PList [PInt 0; PInt 2])] [ex_region] "op0"] ["%0"]).
  split; [split; [exact WT|exact I]|]. split; [split; [|exact I]|].
  - split; [split; [exact WT|exact I]|]. split; [cbn; tauto|]. split; [cbn; nd|]. split; [exact WR|exact I].
  - unfold built_graph. cbn. repeat split; try nd; try (intros s Hs; cbn in *; tauto); try (repeat constructor; discriminate).
Qed.

(** compile succeeds exactly when nothing is captured, no output is a constant, the traced inputs are
    the graph's inputs and the parties lists are lists of party numbers; the artifact then describes
    its graph: it validates, with a digest and a world size. *)
Theorem C52_compile_consistent (float_trunc : Z -> res Z) (str_int : string -> res Z) (sha : json -> string) (now version : json) (name : option string) (t : traced) (p : program) :
  compile float_trunc str_int sha now version name t = Ok p ->
  p_graph p = t_graph t /\ t_captured t = [] /\ t_out_imms t = [] /\ p_inputs p = Z.of_nat (List.length (t_in_var_pos t))
  /\ p_digest p = sha (sort_json (to_json (t_graph t))) /\ (exists w, p_world p = Some w)
  /\ consistent float_trunc str_int sha p /\ validate float_trunc str_int sha p = Ok tt.
Proof.
  intros H. destruct (compile_spec _ _ _ _ _ _ _ _ H) as (H1 & H2 & H3 & H4 & H5 & H6 & H7 & H8 & H9 & H10).
  repeat (split; [assumption|]). split; [|exact H10]. apply validate_iff in H10. apply H10.
Qed.
Print Assumptions C52_compile_consistent.
Theorem C52_compile_succeeds (float_trunc : Z -> res Z) (str_int : string -> res Z) (sha : json -> string) (now version : json) (name : option string) (t : traced) :
  graphs_only (t_graph t) -> parties_ok float_trunc str_int (t_graph t) -> t_captured t = [] -> t_out_imms t = [] ->
  (exists ins ops outs, t_graph t = PGraph ins ops outs /\ List.length (t_in_var_pos t) = List.length ins) ->
  exists p, compile float_trunc str_int sha now version name t = Ok p.
Proof. intros G P H1 H2 (ins & ops & outs & E & L). exact (compile_total _ _ _ _ _ _ _ _ _ _ E G P H1 H2 L). Qed.
Print Assumptions C52_compile_succeeds.
Example C52_compile_ex : graphs_only (t_graph ex_traced) /\ parties_ok no_int no_sint (t_graph ex_traced).
Proof. exact (wsize_parties_ok no_int no_sint ex_graph 3 eq_refl). Qed.

(** Packing and unpacking a valid program gives it back with the items of dicts, attributes and table
    columns in the order of their names.  The artifact is JSON text ([artifact_text], read by
    [loads_bytes]); hexsha is any hash function whose digests are text. *)
Theorem C52_pack_unpack_up_to_order (float_int : Z -> option Z) (itemsize : string -> option Z) (float_trunc : Z -> res Z) (str_int : string -> res Z)
    (py_str : json -> string) (hexsha : string -> string) (fprint : Z -> string) (fparse : string -> option Z) (limit : Z) (p : program) :
  float_text fprint fparse -> (forall s, is_text (hexsha s) = true) ->
  Z.of_nat (String.length (artifact_text fprint (sort_json (program_to_json p)))) <= limit ->
  wf_pv float_int itemsize (p_graph p) -> text_pv (p_graph p) -> validate float_trunc str_int (text_digest fprint hexsha) p = Ok tt ->
  p_schema p = 1 -> text (p_created p) -> text (p_version p) -> text (p_name p) ->
  unpack float_int itemsize float_trunc str_int py_str (text_digest fprint hexsha) (loads_bytes fparse) limit (pack (artifact_text fprint) p) = Ok (canon_program p).
Proof.
  intros F Hs L W T V S T1 T2 T3. apply pack_unpack; try assumption. apply loads_bytes_dumps; [apply good_indented|exact F|].
  apply (ok_program float_int itemsize float_trunc str_int (text_digest fprint hexsha)); auto. intros j. apply Hs.
Qed.
Print Assumptions C52_pack_unpack_up_to_order.
(** exactly the same program, if these are in order already and no value is a numpy scalar, an array
    like or a data frame *)
Theorem C124_pack_unpack_partial (float_int : Z -> option Z) (itemsize : string -> option Z) (float_trunc : Z -> res Z) (str_int : string -> res Z)
    (py_str : json -> string) (hexsha : string -> string) (fprint : Z -> string) (fparse : string -> option Z) (limit : Z) (p : program) :
  float_text fprint fparse -> (forall s, is_text (hexsha s) = true) ->
  Z.of_nat (String.length (artifact_text fprint (sort_json (program_to_json p)))) <= limit ->
  wf_pv float_int itemsize (p_graph p) -> text_pv (p_graph p) -> validate float_trunc str_int (text_digest fprint hexsha) p = Ok tt ->
  p_schema p = 1 -> text (p_created p) -> text (p_version p) -> text (p_name p) ->
  canon (p_graph p) = p_graph p -> plain (p_graph p) ->
  unpack float_int itemsize float_trunc str_int py_str (text_digest fprint hexsha) (loads_bytes fparse) limit (pack (artifact_text fprint) p) = Ok p.
Proof.
  intros F Hs L W T V S T1 T2 T3 C P. rewrite (C52_pack_unpack_up_to_order _ _ _ _ _ _ _ _ _ _ F Hs L W T V S T1 T2 T3). unfold canon_program. rewrite C, (SerdeValue.norm_plain _ P). destruct p; reflexivity.
Qed.
Print Assumptions C124_pack_unpack_partial.
Example C52_pack_unpack_ex : forall sha : json -> string, let p := ex_program sha in
  validate no_int no_sint sha p = Ok tt /\ text (p_created p) /\ text (p_version p) /\ text (p_name p) /\ canon (p_graph p) = p_graph p /\ plain (p_graph p) /\ text_pv (p_graph p).
Proof.
  intros sha p. split; [destruct (C52_compile_consistent _ _ _ _ _ _ _ _ (C52_ex_compiles sha)) as (_ & _ & _ & _ & _ & _ & _ & V); exact V|].
  split; [right; eexists; split; reflexivity|]. split; [right; eexists; split; reflexivity|]. split; [right; eexists; split; reflexivity|]. split; [reflexivity|]. split; cbn; tauto.
Qed.
Example C52_pack_unpack_ex2 : float_text fprint_ex fparse_ex /\ is_text "e3b0c442" = true
  /\ substring 0 68 (artifact_text fprint_ex (sort_json (program_to_json (ex_program (fun _ => "e3b0c442")))))
     = "{" +++ newline +++ "  ""_kind"": ""mplang.CompiledProgram""," +++ newline +++ "  ""created_at"": ""2026-01-01""" +++ ",".
Proof. split; [exact float_text_ex|]. split; reflexivity. Qed.
(** The columns of a table type come back in another order. *)
Definition cols_graph : pv := let t := TTable [("name", TInt 64 true); ("age", TInt 64 true)] (-1) in PGraph [("x", t)] [] ["x"].
Theorem C124_pack_unpack_identity_refuted (float_int : Z -> option Z) (itemsize : string -> option Z) (float_trunc : Z -> res Z) (str_int : string -> res Z)
    (py_str : json -> string) (hexsha : string -> string) (fprint : Z -> string) (fparse : string -> option Z) :
  float_text fprint fparse -> (forall s, is_text (hexsha s) = true) -> let sha := text_digest fprint hexsha in
  exists (p q : program) (limit : Z), compile float_trunc str_int sha JNull JNull None (Traced cols_graph [] [] [0%nat] "f") = Ok p
    /\ wf_pv float_int itemsize (p_graph p) /\ text_pv (p_graph p)
    /\ unpack float_int itemsize float_trunc str_int py_str sha (loads_bytes fparse) limit (pack (artifact_text fprint) p) = Ok q /\ q <> p
    /\ p_graph q = PGraph [("x", TTable [("age", TInt 64 true); ("name", TInt 64 true)] (-1))] [] ["x"].
Proof.
  intros F Hs sha. eexists. exists (canon_program (Program cols_graph 1 1 [] (graph_digest sha cols_graph) (Some 0) JNull JNull 1 (JStr "f"))).
  exists (Z.of_nat (String.length (artifact_text fprint (sort_json (program_to_json (Program cols_graph 1 1 [] (graph_digest sha cols_graph) (Some 0) JNull JNull 1 (JStr "f"))))))). split; [reflexivity|].
  assert (W : wf_pv float_int itemsize cols_graph).
  { assert (WT : wf_ty (TTable [("name", TInt 64 true); ("age", TInt 64 true)] (-1))).
    { cbn. split; [nd|]. split; [|left; reflexivity]. split; [exists 6; split; [lia|reflexivity]|]. split; [exists 6; split; [lia|reflexivity]|exact I]. }
    split; [split; [exact WT|exact I]|]. split; [exact I|]. unfold built_graph. cbn. split; [nd|]. split; [exact I|]. split; [reflexivity|]. split; [constructor|]. intros s Hs'. exact Hs'. }
  assert (T : text_pv cols_graph) by (cbn; tauto).
  split; [exact W|]. split; [exact T|]. split; [|split; [discriminate|reflexivity]].
  apply C52_pack_unpack_up_to_order; try (left; reflexivity); try reflexivity; [exact F|exact Hs|exact W|exact T| |right; eexists; split; reflexivity].
  destruct (C52_compile_consistent float_trunc str_int sha JNull JNull None (Traced cols_graph [] [] [0%nat] "f") _ eq_refl) as (_ & _ & _ & _ & _ & _ & _ & V). exact V.
Qed.
Print Assumptions C124_pack_unpack_identity_refuted.

(** Whatever bytes unpack accepts, the program it returns agrees with its graph: the arities, the set
    of opcodes, the world size unless absent, the digest unless empty. *)
Theorem C52_unpack_sound (float_int : Z -> option Z) (itemsize : string -> option Z) (float_trunc : Z -> res Z) (str_int : string -> res Z)
    (py_str sha : json -> string) (parse : string -> option json) (limit : Z) (a : list member) (p : program) :
  unpack float_int itemsize float_trunc str_int py_str sha parse limit a = Ok p ->
  p_schema p = 1 /\ consistent float_trunc str_int sha p /\ parties_ok float_trunc str_int (p_graph p).
Proof. apply unpack_sound. Qed.
Print Assumptions C52_unpack_sound.
(** and a program that does not agree with its graph is refused by the validator *)
Theorem C52_validator_exact (float_trunc : Z -> res Z) (str_int : string -> res Z) (sha : json -> string) (p : program) :
  validate float_trunc str_int sha p = Ok tt <-> consistent float_trunc str_int sha p /\ parties_ok float_trunc str_int (p_graph p).
Proof. apply validate_iff. Qed.
Print Assumptions C52_validator_exact.
Example C52_validator_ex : forall sha : json -> string, let p := ex_program sha in
  consistent no_int no_sint sha p
  /\ validate no_int no_sint sha (Program ex_graph 1 2 (p_opcodes p) (p_digest p) (p_world p) JNull JNull 1 JNull) = ValueErr
  /\ validate no_int no_sint sha (Program ex_graph 1 1 [JStr "neg"; JStr "neg"; JStr "simp.pcall_static"] (p_digest p) (p_world p) JNull JNull 1 JNull) = ValueErr
  /\ validate no_int no_sint sha (Program ex_graph 1 1 (p_opcodes p) "" (Some 4) JNull JNull 1 JNull) = ValueErr.
Proof.
  intros sha p. split; [apply validate_iff, C52_pack_unpack_ex|]. repeat split.
Qed.

(** An accepted artifact that carries the digest of graph g contains g (up to the order of dicts), or
    two different byte strings with the same hash are at hand. *)
Theorem C52_digest_binds_graph (float_int : Z -> option Z) (itemsize : string -> option Z) (float_trunc : Z -> res Z) (str_int : string -> res Z)
    (py_str : json -> string) (hexsha : string -> string) (fprint : Z -> string) (fparse : string -> option Z) (limit : Z) (a : list member) (p : program) (g : pv) :
  let sha := text_digest fprint hexsha in
  float_text fprint fparse -> (forall s, hexsha s <> "") ->
  unpack float_int itemsize float_trunc str_int py_str sha (loads_bytes fparse) limit a = Ok p ->
  p_digest p = graph_digest sha g ->
  wf_pv float_int itemsize g -> text_pv g -> wf_pv float_int itemsize (p_graph p) -> text_pv (p_graph p) ->
  norm (canon (p_graph p)) = norm (canon g) \/ exists s s' : string, s <> s' /\ hexsha s = hexsha s'.
Proof.
  intros sha F Hn H D Wg Tg Wp Tp. unfold graph_digest in D. destruct (unpack_sound _ _ _ _ _ _ _ _ _ _ H) as (_ & (_ & _ & _ & [E|E] & _) & _); [rewrite E in D; symmetry in D; now apply Hn in D|].
  destruct (json_dec (sort_json (to_json (p_graph p))) (sort_json (to_json g))) as [Q|Q].
  - left. exact (sorted_encoding_inj float_int itemsize _ _ Wp Wg Q).
  - right. exists (json_dumps fprint (compact true) (sort_json (to_json (p_graph p)))), (json_dumps fprint (compact true) (sort_json (to_json g))). split.
    + intros E'. apply Q. eapply (dumps_inj fprint fparse (compact true)); [exact F|apply good_compact| | |exact E']; apply ok_sort, (ok_pv float_int itemsize); assumption.
    + change (sha (sort_json (to_json (p_graph p))) = sha (sort_json (to_json g))). congruence.
Qed.
Print Assumptions C52_digest_binds_graph.

(** The digest protects nothing when it is left empty, the world size when it is null, and the name,
    the creation time and the version never: changing any of them is accepted. *)
Theorem C124_tampering_detected_refuted (float_int : Z -> option Z) (itemsize : string -> option Z) (float_trunc : Z -> res Z) (str_int : string -> res Z)
    (py_str : json -> string) (hexsha : string -> string) (fprint : Z -> string) (fparse : string -> option Z) :
  float_text fprint fparse -> (forall s, is_text (hexsha s) = true) -> let sha := text_digest fprint hexsha in
  forall (g : pv) (p : program), wf_pv float_int itemsize g -> text_pv g -> p_graph p = g -> validate float_trunc str_int sha p = Ok tt ->
  forall name created version : string, is_text name = true -> is_text created = true -> is_text version = true -> exists limit q,
    unpack float_int itemsize float_trunc str_int py_str sha (loads_bytes fparse) limit
      (pack (artifact_text fprint) (Program g (p_inputs p) (p_outputs p) (p_opcodes p) "" None (JStr created) (JStr version) 1 (JStr name))) = Ok q
    /\ p_graph q = norm (canon g) /\ p_name q = JStr name /\ p_created q = JStr created /\ p_version q = JStr version /\ p_digest q = "" /\ p_world q = None.
Proof.
  intros F Hs sha g p W T E V name created version Tn Tc Tv. set (q := Program g (p_inputs p) (p_outputs p) (p_opcodes p) "" None (JStr created) (JStr version) 1 (JStr name)).
  exists (Z.of_nat (String.length (artifact_text fprint (sort_json (program_to_json q))))), (canon_program q). split; [|repeat split; reflexivity].
  apply C52_pack_unpack_up_to_order; try (right; eexists; split; [reflexivity|assumption]); try reflexivity; [exact F|exact Hs|exact W|exact T|].
  apply validate_iff in V. destruct V as [(V1 & V2 & V3 & _ & _) V4]. rewrite E in *. apply validate_iff. split; [|exact V4]. split; [exact V1|]. split; [exact V2|]. split; [exact V3|]. split; left; reflexivity.
Qed.
Print Assumptions C124_tampering_detected_refuted.

(** ** C71: required_world_size *)
(** every party of a "parties" list fits into the world size of a compiled program, and it is minimal
    for them *)
Theorem C71_listed_parties_fit (float_trunc : Z -> res Z) (str_int : string -> res Z) (sha : json -> string) (now version : json) (name : option string) (t : traced) (p : program) :
  compile float_trunc str_int sha now version name t = Ok p ->
  exists w, p_world p = Some w /\ (forall z, party_listed float_trunc str_int (p_graph p) z -> 0 <= z < w)
            /\ forall w', (forall z, party_listed float_trunc str_int (p_graph p) z -> z < w') -> 0 <= w' -> w <= w'.
Proof.
  intros H. destruct (C52_compile_consistent _ _ _ _ _ _ _ _ H) as (_ & _ & _ & _ & _ & [w E] & (_ & _ & _ & _ & HW) & _).
  exists w. split; [exact E|]. rewrite E in HW. destruct HW as [HW|(v & Ev & W0 & W1 & W2)]; [discriminate HW|]. injection Ev as <-. split; [exact W1|].
  intros w' H' P. destruct W2 as [->|W2]; [exact P|]. apply H' in W2. lia.
Qed.
Print Assumptions C71_listed_parties_fit.
Example C71_listed_ex : party_listed no_int no_sint ex_graph 2.
Proof.
  exists (GOp "simp.pcall_static" ["x"] [("%0", ex_ty)] [("fn_name", PStr "f"); ("parties", PList [PInt 0; PInt 2])] [ex_region] "op0"), [PInt 0; PInt 2], (PInt 2).
  split; [apply OpHere; left; reflexivity|]. split; [left; reflexivity|]. split; [right; left; reflexivity|reflexivity].
Qed.
(** A value moved to party 5 by a static shuffle: the program claims that no party is needed. *)
Definition moved_graph : pv :=
  let t := TTensor (TFloat 32) [3] in
  PGraph [("x", TMP t (Some [0]))] [GOp "simp.shuffle" ["x"] [("%0", TMP t (Some [5]))] [("routing", PDict [(PInt 5, PInt 0)])] [] "op0"] ["%0"].
Theorem C153_world_size_covers_refuted (float_trunc : Z -> res Z) (str_int : string -> res Z) (sha : json -> string) (now version : json) :
  exists p, compile float_trunc str_int sha now version None (Traced moved_graph [] [] [0%nat] "f") = Ok p /\ p_world p = Some 0 /\ holds_value (p_graph p) 0 /\ holds_value (p_graph p) 5.
Proof.
  eexists. split; [reflexivity|]. split; [reflexivity|]. split; repeat eexists; cbn; [left; reflexivity|left; reflexivity|right; left; reflexivity|left; reflexivity].
Qed.
Print Assumptions C153_world_size_covers_refuted.
