(** Proofs for C97, C98. *)
From Coq Require Import Ascii String List Bool Arith Lia.
From Verif Require Import SqlTextModel SqlTextSpec.
Import ListNotations.
Local Open Scope string_scope.
Local Open Scope list_scope.

Lemma identifier_escape : forall n rest, (forall r, rest <> quote :: r) -> identifier (escape n ++ quote :: rest) = Some (n, rest).
Proof.
  induction n as [|c n IH]; intros rest H.
  - cbn. destruct rest as [|d r]; [reflexivity|]. destruct (Ascii.eqb_spec d quote) as [->|]; [exfalso; now apply (H r)|]. reflexivity.
  - unfold escape. cbn [flat_map]. destruct (Ascii.eqb_spec c quote) as [->|N].
    + cbn [app]. change (flat_map _ n) with (escape n). cbn [identifier]. rewrite Ascii.eqb_refl. now rewrite IH.
    + cbn [app]. change (flat_map _ n) with (escape n). cbn [identifier]. apply Ascii.eqb_neq in N. rewrite N. now rewrite IH.
Qed.
Lemma quoted_quote : forall n rest, n <> [] -> (forall r, rest <> quote :: r) -> quoted (quote_identifier n ++ rest) = Some (n, rest).
Proof.
  intros n rest NE H. unfold quote_identifier, quoted. cbn [app]. rewrite Ascii.eqb_refl, <- app_assoc. cbn [app].
  rewrite identifier_escape by auto. destruct n; [contradiction|reflexivity].
Qed.
Lemma expect_app : forall k s, expect k (k ++ s) = Some s.
Proof. induction k as [|a k IH]; intros s; cbn; auto. now rewrite Ascii.eqb_refl. Qed.
Lemma type_of_name : forall p ty s, sql_expressible p -> type_name p = Some ty -> type_of type_names (ty ++ T ") AS " ++ s) = Some (sql_result p, T ") AS " ++ s).
Proof.
  intros p ty s X E. destruct p; cbn in X; try contradiction; [.. | | ]; try (injection E as <-; reflexivity). destruct X as [-> ->]. injection E as <-. reflexivity.
Qed.
Lemma item_projection : forall n p ty s, n <> [] -> sql_expressible p -> type_name p = Some ty -> (forall r, s <> quote :: r) ->
  item (projection n ty ++ s) = Some ((n, sql_result p, n), s).
Proof.
  intros n p ty s NE X E H. unfold item, projection. rewrite <- !app_assoc, expect_app.
  rewrite quoted_quote by (auto; discriminate). rewrite expect_app. rewrite (type_of_name p) by auto. rewrite expect_app.
  rewrite quoted_quote by auto. reflexivity.
Qed.
Lemma items_projection : forall n p ty s f, n <> [] -> sql_expressible p -> type_name p = Some ty ->
  items (S f) (projection n ty ++ T ", " ++ s) = match items f s with Some l => Some ((n, sql_result p, n) :: l) | None => None end.
Proof.
  intros n p ty s f NE X E. cbn [items]. rewrite (item_projection n p) by (auto; discriminate). cbn [T list_ascii_of_string app].
  change (" "%char :: s) with (T " " ++ s). cbn. reflexivity.
Qed.
Lemma items_last : forall n p ty f, n <> [] -> sql_expressible p -> type_name p = Some ty -> items (S f) (projection n ty) = Some [(n, sql_result p, n)].
Proof.
  intros n p ty f NE X E. cbn [items]. pose proof (item_projection n p ty [] NE X E ltac:(discriminate)) as H. rewrite app_nil_r in H. now rewrite H.
Qed.
Lemma join_items : forall s l f, s <> [] -> Forall (fun p => fst p <> [] /\ sql_expressible (snd p)) s -> projections s = Some l -> length s <= f ->
  items f (join l) = Some (map (fun p => (fst p, sql_result (snd p), fst p)) s).
Proof.
  induction s as [|[n p] s IH]; intros l f NE F E L; [contradiction|]. inversion F as [|? ? [H1 H2] F']; subst. cbn [fst snd] in *.
  cbn [projections] in E. destruct (type_name p) as [ty|] eqn:TY; [|discriminate]. destruct (projections s) as [q|] eqn:PQ; [|discriminate].
  injection E as <-. destruct f as [|f]; [cbn in L; lia|]. destruct s as [|[n2 p2] s].
  - injection PQ as <-. cbn [join map]. rewrite (items_last n p) by auto. reflexivity.
  - destruct q as [|x q]; [cbn in PQ; destruct (type_name p2); [destruct (projections s)|]; discriminate|].
    change (join (projection n ty :: x :: q)) with (projection n ty ++ T ", " ++ join (x :: q)).
    rewrite (items_projection n p) by auto. rewrite (IH (x :: q) f); auto; [discriminate|cbn in *; lia].
Qed.
Lemma join_length : forall s l, projections s = Some l -> length s <= length (join l).
Proof.
  induction s as [|[n p] s IH]; intros l E; cbn [length]; [lia|]. cbn [projections] in E.
  destruct (type_name p) as [ty|]; [|discriminate]. destruct (projections s) as [q|]; [|discriminate]. injection E as <-.
  specialize (IH q eq_refl). assert (1 <= length (projection n ty)) by (unfold projection; rewrite app_length; cbn; lia).
  destruct q as [|x q]; [cbn in *; lia|]. change (join (projection n ty :: x :: q)) with (projection n ty ++ T ", " ++ join (x :: q)).
  rewrite !app_length. cbn [T list_ascii_of_string length]. lia.
Qed.
Lemma select_list_ok : forall s l, s <> [] -> Forall (fun p => fst p <> [] /\ sql_expressible (snd p)) s -> projections s = Some l ->
  select_list (join l) = Some (map (fun p => (fst p, sql_result (snd p), fst p)) s).
Proof. intros s l NE F E. unfold select_list. apply join_items; auto. now apply join_length. Qed.
Lemma projections_some : forall s, Forall (fun p => sql_expressible (snd p)) s -> exists l, projections s = Some l.
Proof.
  induction s as [|[n p] s IH]; intros F; [eexists; reflexivity|]. inversion F; subst. destruct IH as [l E]; auto. cbn [projections snd] in *.
  assert (exists ty, type_name p = Some ty) as [ty Hty] by (destruct p; cbn in *; try contradiction; eauto). rewrite Hty, E. eauto.
Qed.

Lemma ends_with_ok : forall k s, ends_with k s = true <-> exists pre, s = pre ++ k.
Proof.
  intros k s. unfold ends_with. rewrite andb_true_iff, Nat.leb_le. split.
  - intros [L E]. destruct (list_eq_dec ascii_dec _ k); [|discriminate]. exists (firstn (length s - length k) s).
    rewrite <- (firstn_skipn (length s - length k) s) at 1. now rewrite e.
  - intros [pre ->]. rewrite app_length. split; [lia|]. replace (length pre + length k - length k) with (length pre) by lia.
    rewrite skipn_app, skipn_all, Nat.sub_diag. cbn [skipn app]. now destruct (list_eq_dec ascii_dec k k).
Qed.
(** two suffixes of one text that end in different characters *)
Lemma suffix_last : forall (s : text) a b x y p q, s = (p ++ a) ++ [x] -> s = (q ++ b) ++ [y] -> x = y.
Proof. intros s a b x y p q H1 H2. rewrite H1 in H2. apply app_inj_tail in H2. tauto. Qed.

Lemma suffix_diff : forall s (k1 k2 : string) a b x y, T k1 = a ++ [x] -> T k2 = b ++ [y] -> x <> y -> has_suffix s k1 -> has_suffix s k2 -> False.
Proof. intros s k1 k2 a b x y E1 E2 N [p H1] [q H2]. rewrite E1, app_assoc in H1. rewrite E2, app_assoc in H2. apply N. eapply suffix_last; eauto. Qed.
Lemma infer_auto : forall p,
  (infer_format p HAuto = Csv <-> has_suffix p ".csv") /\
  (infer_format p HAuto = Json <-> has_suffix p ".json" \/ has_suffix p ".jsonl") /\
  (infer_format p HAuto = Parquet <-> ~ has_suffix p ".csv" /\ ~ has_suffix p ".json" /\ ~ has_suffix p ".jsonl").
Proof.
  intros p. cbn [infer_format].
  assert (X : forall k, ends_with (T k) (map lower p) = true <-> has_suffix p k) by (intros; apply ends_with_ok).
  assert (D : forall a b x y (k1 k2 : string), T k1 = a ++ [x] -> T k2 = b ++ [y] -> x <> y -> has_suffix p k1 -> ~ has_suffix p k2)
    by (intros a b x y k1 k2 E1 E2 N H1 H2; exact (suffix_diff p k1 k2 a b x y E1 E2 N H1 H2)).
  pose proof (X ".parquet") as XP. pose proof (X ".pq") as XQ. pose proof (X ".csv") as XC. pose proof (X ".json") as XJ. pose proof (X ".jsonl") as XL.
  pose proof (D (T ".parque") (T ".cs") "t"%char "v"%char ".parquet" ".csv" eq_refl eq_refl ltac:(discriminate)).
  pose proof (D (T ".parque") (T ".jso") "t"%char "n"%char ".parquet" ".json" eq_refl eq_refl ltac:(discriminate)).
  pose proof (D (T ".parque") (T ".json") "t"%char "l"%char ".parquet" ".jsonl" eq_refl eq_refl ltac:(discriminate)).
  pose proof (D (T ".p") (T ".cs") "q"%char "v"%char ".pq" ".csv" eq_refl eq_refl ltac:(discriminate)).
  pose proof (D (T ".p") (T ".jso") "q"%char "n"%char ".pq" ".json" eq_refl eq_refl ltac:(discriminate)).
  pose proof (D (T ".p") (T ".json") "q"%char "l"%char ".pq" ".jsonl" eq_refl eq_refl ltac:(discriminate)).
  pose proof (D (T ".cs") (T ".jso") "v"%char "n"%char ".csv" ".json" eq_refl eq_refl ltac:(discriminate)).
  pose proof (D (T ".cs") (T ".json") "v"%char "l"%char ".csv" ".jsonl" eq_refl eq_refl ltac:(discriminate)).
  destruct (ends_with (T ".parquet") (map lower p)), (ends_with (T ".pq") (map lower p)), (ends_with (T ".csv") (map lower p)),
    (ends_with (T ".json") (map lower p)), (ends_with (T ".jsonl") (map lower p)); cbn [orb];
  repeat match goal with H : (true = true <-> _) |- _ => apply proj1 in H; specialize (H eq_refl)
                       | H : (false = true <-> ?P) |- _ => assert (~ P) by (intros K; apply H in K; discriminate); clear H end;
  (split; [|split]); split; intros K; try discriminate; try tauto.
Qed.
