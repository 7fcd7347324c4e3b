(** C97: formats of table files; C98: the declared schema as SQL. *)
From Coq Require Import Ascii String List Bool Arith Lia.
From Verif Require Import SqlTextModel SqlTextSpec SqlTextProofs.
Import ListNotations.
Local Open Scope string_scope.
Local Open Scope list_scope.

(** ** C97 *)

(** table.write and table.read, both with their defaults, use one format exactly for paths without
    a csv or json extension. *)
Theorem C97_default_formats :
  forall path : text, infer_format path write_default = infer_format path read_default <->
    ~ has_suffix path ".csv" /\ ~ has_suffix path ".json" /\ ~ has_suffix path ".jsonl".
Proof.
  intros p. destruct (infer_auto p) as (_ & _ & H). rewrite <- H. cbn [infer_format write_default read_default]. split; auto.
Qed.
Print Assumptions C97_default_formats.

(** A written file can be read by some choice of format exactly if it was not written as json under
    a name without a json extension: read refuses format="json". *)
Theorem C97_some_format_reads :
  forall (path : text) (h : hint),
  (exists h', read_hint_ok h' = true /\ infer_format path h' = infer_format path h) <->
  (h = HJson -> has_suffix path ".json" \/ has_suffix path ".jsonl").
Proof.
  intros p h. destruct (infer_auto p) as (_ & J & _). split.
  - intros (h' & R & E) ->. cbn [infer_format] in E. destruct h'; try discriminate. now apply J.
  - intros H. destruct h; try (eexists; split; [|reflexivity]; reflexivity).
    exists HAuto. split; [reflexivity|]. apply J. auto.
Qed.
Print Assumptions C97_some_format_reads.
Example C97_example :
  infer_format (T "Data/OUT.PQ") write_default = infer_format (T "Data/OUT.PQ") read_default /\ has_suffix (T "x.JsonL") ".jsonl".
Proof. split; [reflexivity|]. exists (T "x"). reflexivity. Qed.

(** With the defaults, a table written to out.csv is Parquet and read as CSV. *)
Theorem C162_default_formats_refuted :
  exists path : text, infer_format path write_default = Parquet /\ infer_format path read_default = Csv.
Proof. exists (T "out.csv"). split; reflexivity. Qed.
Print Assumptions C162_default_formats_refuted.

(** A table written as json to out.txt is accepted and cannot be read with any accepted format. *)
Theorem C162_written_file_readable_refuted :
  exists (path : text) (h : hint), write_hint_ok h = true /\ forall h', read_hint_ok h' = true -> infer_format path h' <> infer_format path h.
Proof. exists (T "out.txt"), HJson. split; [reflexivity|]. intros h' R. destruct h'; cbn; discriminate. Qed.
Print Assumptions C162_written_file_readable_refuted.

(** ** C98 *)

(** The SQL text for a declared schema is read by DuckDB as one cast per declared column, in order,
    from and to exactly the declared names, whatever characters they contain (quotes, commas,
    parentheses, keywords), and to the type DuckDB has for the declared one. *)
Theorem C98_schema_sql :
  forall (file_columns : list text) (s : list (text * pty)),
  s <> [] -> Forall (fun p => In (fst p) file_columns) s -> Forall (fun p => fst p <> [] /\ sql_expressible (snd p)) s ->
  exists sql, register_text file_columns s = Some sql /\
    select_list sql = Some (map (fun p => (fst p, sql_result (snd p), fst p)) s).
Proof.
  intros cols s NE IN F. destruct (projections_some s) as [l E]; [eapply Forall_impl; [|exact F]; cbn; tauto|].
  exists (join l). split; [|now apply select_list_ok]. unfold register_text. rewrite E.
  replace (forallb _ s) with true; auto. symmetry. apply forallb_forall. intros p Hp. apply existsb_exists.
  rewrite Forall_forall in IN. exists (fst p). split; auto. match goal with |- (if ?b then _ else _) = _ => destruct b as [|NN] end; [reflexivity|exfalso; apply NN; reflexivity].
Qed.
Print Assumptions C98_schema_sql.
Example C98_example :
  register_text [T "a""; DROP TABLE t; --"; T "b"] [(T "b", PI64); (T "a""; DROP TABLE t; --", PDecimal 38 10)] =
    Some (T "CAST(""b"" AS BIGINT) AS ""b"", CAST(""a""""; DROP TABLE t; --"" AS DECIMAL(38, 10)) AS ""a""""; DROP TABLE t; --""") /\
  select_list (T "CAST(""b"" AS BIGINT) AS ""b"", CAST(""a""""; DROP TABLE t; --"" AS DECIMAL(38, 10)) AS ""a""""; DROP TABLE t; --""") =
    Some [(T "b", PI64, T "b"); (T "a""; DROP TABLE t; --", PDecimal 38 10, T "a""; DROP TABLE t; --")].
Proof. split; reflexivity. Qed.

(** A declared column the file does not have is refused. *)
Theorem C98_missing_column :
  forall (file_columns : list text) (s : list (text * pty)) n p, In (n, p) s -> ~ In n file_columns -> register_text file_columns s = None.
Proof.
  intros cols s n p H N. unfold register_text. match goal with |- context [forallb ?f s] => destruct (forallb f s) eqn:E; auto end. rewrite forallb_forall in E. specialize (E _ H).
  apply existsb_exists in E. destruct E as (c & Hc & E). match type of E with (if ?b then _ else _) = _ => destruct b as [QQ|]; [|discriminate] end. cbn in QQ. subst c. contradiction.
Qed.
Print Assumptions C98_missing_column.

(** Schemas table.read accepts and SQL cannot use: half floats raise, dates and times get another
    Arrow type than declared, and an empty column name makes invalid SQL. *)
Theorem C140_declared_types_refuted :
  (exists s, pa_schema [(T "a", EF16)] = Some s /\ register_text [T "a"] s = None) /\
  (exists s sql, pa_schema [(T "a", EDate)] = Some s /\ register_text [T "a"] s = Some sql /\
     s = [(T "a", PDate64)] /\ select_list sql = Some [(T "a", PDate32, T "a")]) /\
  (exists s sql, pa_schema [([], EI64)] = Some s /\ register_text [[]] s = Some sql /\ select_list sql = None).
Proof. repeat split; repeat eexists; try reflexivity. Qed.
Print Assumptions C140_declared_types_refuted.

(** The other declared types are kept: what SQL returns has the declared Arrow type. *)
Theorem C98_kept_types :
  forall e p, type_mapping e = Some p -> e <> EF16 -> e <> EDate -> e <> ETime -> sql_expressible p /\ sql_result p = p.
Proof. intros e p E H1 H2 H3. destruct e; try contradiction; try discriminate; injection E as <-; split; cbn; auto. Qed.
Print Assumptions C98_kept_types.
