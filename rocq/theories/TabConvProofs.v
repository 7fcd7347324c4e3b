From Coq Require Import String List ZArith Bool Arith Lia.
From Verif Require Import TabConvModel TabConvSpec.
Import ListNotations.
Local Open Scope nat_scope.

Lemma ty_beq_eq a b : ty_beq a b = true <-> a = b.
Proof. split; [apply internal_ty_dec_bl|apply internal_ty_dec_lb]. Qed.
Lemma ty_beq_refl a : ty_beq a a = true. Proof. now apply ty_beq_eq. Qed.

Section S.
Variable to_float : Z -> Z.
Variable common : list (option ty) -> option ty.

Lemma has_null_false c : no_nulls c -> has_null c = false.
Proof.
  unfold no_nulls, has_null. induction 1 as [|[x|] l H F IH]; cbn; auto. now destruct H.
Qed.
Lemma pandas_ty_plain c : no_nulls c -> col_ty c <> TString -> pandas_ty c = Some (col_ty c).
Proof.
  intros N S. unfold pandas_ty. rewrite has_null_false by auto. destruct (ty_beq (col_ty c) TString) eqn:E; auto. apply ty_beq_eq in E. contradiction.
Qed.
Lemma frame_same d ts : ts <> [] -> Forall (fun t => t = Some d) ts -> frame_ty common ts = Some d.
Proof.
  intros NE F. destruct ts as [|t r]; [contradiction|]. inversion F; subst. cbn.
  replace (forallb _ r) with true; auto. symmetry. apply forallb_forall. rewrite Forall_forall in H2. intros u Hu. rewrite (H2 u Hu). apply ty_beq_refl.
Qed.
Lemma pandas_cell_plain c x : no_nulls c -> In (Some x) (col_cells c) -> pandas_cell to_float c (Some x) = x.
Proof. intros N H. unfold pandas_cell. rewrite has_null_false by auto. now destruct x. Qed.

Lemma to_matrix_ok t : matrix_ok (to_matrix to_float common t).
Proof.
  split; cbn; [now rewrite map_length, seq_length|]. apply Forall_map, Forall_forall. intros i _. now rewrite map_length.
Qed.
Lemma to_matrix_at t i j c : i < num_rows t -> nth_error t j = Some c ->
  at_ (to_matrix to_float common t) i j = pandas_cell to_float c (nth i (col_cells c) None).
Proof.
  intros Hi Hj. unfold at_, to_matrix. cbn [m_cells].
  rewrite (nth_error_nth (map _ (seq 0 (num_rows t))) i [] (x := map (fun c => pandas_cell to_float c (nth i (col_cells c) None)) t)).
  - apply nth_error_nth. rewrite nth_error_map, Hj. reflexivity.
  - rewrite nth_error_map. rewrite nth_error_nth' with (d := 0) by (rewrite seq_length; lia). rewrite seq_nth by lia. reflexivity.
Qed.

Lemma nth_map_seq {A} (f : nat -> A) n i d : i < n -> nth i (map f (seq 0 n)) d = f i.
Proof. intros H. rewrite nth_indep with (d' := f 0) by (rewrite map_length, seq_length; lia). rewrite map_nth, seq_nth by lia. reflexivity. Qed.
Lemma list_ext {A} (l l' : list A) d : length l = length l' -> (forall i, i < length l -> nth i l d = nth i l' d) -> l = l'.
Proof. intros L H. apply (nth_ext l l' d d L H). Qed.
Lemma map_combine_seq {A B} (f : nat -> A -> B) (l : list A) (g : A -> B) : forall k,
  (forall i x, nth_error l i = Some x -> f (k + i) x = g x) -> map (fun p => f (fst p) (snd p)) (combine (seq k (length l)) l) = map g l.
Proof.
  induction l as [|x l IH]; intros k H; cbn; auto. f_equal.
  - rewrite <- (H 0 x eq_refl). now rewrite Nat.add_0_r.
  - apply IH. intros i y E. rewrite <- (H (S i) y E). f_equal. lia.
Qed.

Definition built (names : list String.string) (d : ty) (m : matrix) : table :=
  map (fun p => Col (snd p) d (map (fun row => Some (nth (fst p) row NaN)) (m_cells m))) (combine (seq 0 (length names)) names).
Lemma built_len names d m : length (built names d m) = length names.
Proof. unfold built. rewrite map_length, combine_length, seq_length. lia. Qed.
Lemma combine_seq_nth {A} (l : list A) : forall k j x, nth_error l j = Some x -> nth_error (combine (seq k (length l)) l) j = Some (k + j, x).
Proof.
  induction l as [|y l IH]; intros k [|j] x E; cbn in *; try discriminate.
  - injection E as ->. now rewrite Nat.add_0_r.
  - rewrite (IH (S k) j x E). f_equal. f_equal. lia.
Qed.
Lemma built_nth names d m j x : nth_error names j = Some x ->
  nth_error (built names d m) j = Some (Col x d (map (fun row => Some (nth j row NaN)) (m_cells m))).
Proof. intros E. unfold built. rewrite nth_error_map, (combine_seq_nth names 0 j x E). reflexivity. Qed.
Lemma built_rows names d m : names <> [] -> num_rows (built names d m) = length (m_cells m).
Proof. intros H. destruct names as [|x r]; [contradiction|]. cbn. now rewrite map_length. Qed.
Lemma built_nonull names d m c : In c (built names d m) -> no_nulls c /\ col_ty c = d.
Proof.
  intros H. unfold built in H. apply in_map_iff in H. destruct H as ([i x] & <- & _). split; auto.
  unfold no_nulls. cbn. apply Forall_map, Forall_forall. discriminate.
Qed.

Lemma tensor2table_built names m d : m_cols m = length names -> m_ty m = Some d -> plain d -> tensor2table names m = Some (built names d m).
Proof.
  intros C T (P1 & P2 & P3). unfold tensor2table. rewrite C, Nat.eqb_refl, T. cbn [negb]. destruct d; auto; now (destruct P2 + destruct P3 + destruct P1).
Qed.

Lemma round_trip names m d r : m_cols m = length names -> names <> [] -> m_ty m = Some d -> plain d -> matrix_ok m ->
  (r = None \/ r = Some (m_rows m)) ->
  table2tensor to_float common (MT d r (length names)) (built names d m) = Some m.
Proof.
  intros C NE T P [L R] Hr. unfold table2tensor. cbn [mt_rows mt_ty].
  assert (NR : num_rows (built names d m) = m_rows m) by (rewrite built_rows by auto; auto).
  replace (match r with Some n => num_rows (built names d m) =? n | None => true end) with true.
  2:{ destruct Hr as [-> | ->]; auto. now rewrite NR, Nat.eqb_refl. }
  cbn [negb]. cbv zeta.
  assert (FT : frame_ty common (map pandas_ty (built names d m)) = Some d).
  { apply frame_same.
    - intros E. apply (f_equal (@length _)) in E. rewrite map_length, built_len in E. destruct names; [contradiction|discriminate].
    - apply Forall_map, Forall_forall. intros c Hc. destruct (built_nonull _ _ _ _ Hc) as [N1 N2].
      rewrite pandas_ty_plain; [now rewrite N2|auto|rewrite N2; apply P]. }
  cbn [m_ty to_matrix]. rewrite FT, ty_beq_refl. f_equal.
  unfold to_matrix. rewrite FT, NR, built_len, <- C. destruct m as [mt mr mc cells]. cbn [m_ty m_rows m_cols m_cells] in *. subst mt. f_equal.
  apply (list_ext _ _ []).
  - now rewrite map_length, seq_length.
  - intros i Hi. rewrite map_length, seq_length in Hi. rewrite nth_map_seq by exact Hi.
    assert (Ri : length (nth i cells []) = mc) by (rewrite Forall_forall in R; apply R; apply nth_In; lia).
    apply (list_ext _ _ NaN).
    + rewrite map_length, built_len. lia.
    + intros j Hj. rewrite map_length, built_len in Hj.
      destruct (nth_error names j) as [x|] eqn:En; [|apply nth_error_None in En; lia].
      pose proof (built_nth names d (Mat (Some d) mr mc cells) j x En) as B. cbn [m_cells] in B.
      erewrite nth_error_nth; [|rewrite nth_error_map, B; reflexivity]. cbn [col_cells].
      rewrite (nth_indep _ None (Some (nth j [] NaN))) by (rewrite map_length; lia).
      rewrite (map_nth (fun row => Some (nth j row NaN)) cells [] i).
      apply pandas_cell_plain.
      * apply (built_nonull names d (Mat (Some d) mr mc cells)). eapply nth_error_In. exact B.
      * cbn [col_cells]. apply in_map_iff. exists (nth i cells []). split; auto. apply nth_In. lia.
Qed.

Lemma round_trip_back t d r : t <> [] -> table_ok t -> plain d -> Forall (fun c => no_nulls c /\ col_ty c = d) t ->
  (r = None \/ r = Some (num_rows t)) ->
  exists m, table2tensor to_float common (MT d r (length t)) t = Some m /\ tensor2table (map col_name t) m = Some t.
Proof.
  intros NE OK P F Hr. exists (to_matrix to_float common t).
  assert (FT : frame_ty common (map pandas_ty t) = Some d).
  { apply frame_same; [destruct t; [contradiction|discriminate]|]. apply Forall_map. eapply Forall_impl; [|exact F].
    intros c [N1 N2]. rewrite pandas_ty_plain; [now rewrite N2|auto|rewrite N2; apply P]. }
  split.
  - unfold table2tensor. cbn [mt_rows mt_ty].
    replace (match r with Some n => num_rows t =? n | None => true end) with true by (destruct Hr as [-> | ->]; auto; now rewrite Nat.eqb_refl).
    cbn [negb]. cbv zeta. cbn [m_ty to_matrix]. rewrite FT, ty_beq_refl. reflexivity.
  - rewrite (tensor2table_built _ _ d); [|cbn; now rewrite map_length|exact FT|exact P]. f_equal. unfold built.
    rewrite map_length. transitivity (map (fun c : column => c) t); [|apply map_id].
    replace (combine (seq 0 (length t)) (map col_name t)) with (map (fun p => (fst p, col_name (snd p))) (combine (seq 0 (length t)) t)).
    2:{ generalize 0. clear. induction t as [|c t IH]; intros k; cbn; auto. now rewrite IH. }
    rewrite map_map. cbn [fst snd].
    apply (map_combine_seq (fun i c => Col (col_name c) d (map (fun row => Some (nth i row NaN)) (m_cells (to_matrix to_float common t)))) t (fun c => c) 0).
    intros j c E. cbn [Nat.add]. rewrite Forall_forall in F. pose proof (nth_error_In _ _ E) as Hin. destruct (F c Hin) as [N Ty].
    destruct c as [nm ct cells]. cbn [col_name col_ty] in *. subst ct. f_equal.
    unfold table_ok in OK. rewrite Forall_forall in OK. pose proof (OK _ Hin) as Len. cbn [col_cells] in Len.
    cbn [m_cells to_matrix]. rewrite map_map. apply (list_ext _ _ None).
    + now rewrite map_length, seq_length.
    + intros i Hi. rewrite map_length, seq_length in Hi. rewrite nth_map_seq by exact Hi.
      erewrite nth_error_nth; [|rewrite nth_error_map, E; reflexivity]. cbn [col_cells].
      assert (Hc : In (nth i cells None) cells) by (apply nth_In; lia).
      unfold no_nulls in N. cbn [col_cells] in N. rewrite Forall_forall in N. specialize (N _ Hc). destruct (nth i cells None) as [x|] eqn:X; [|contradiction].
      f_equal. apply pandas_cell_plain; [unfold no_nulls; cbn; apply F in Hin; apply Hin|exact Hc].
Qed.
End S.

(** ** constants *)
Lemma any_false f l : any f l = false <-> Forall (fun v => f v = false) l.
Proof.
  unfold any. induction l as [|v l IH]; cbn; [split; auto|]. rewrite orb_false_iff, IH. split; [intros [A B]; auto|intros F; inversion F; auto].
Qed.
Lemma any_true f l : any f l = true <-> Exists (fun v => f v = true) l.
Proof.
  unfold any. rewrite existsb_exists, Exists_exists. reflexivity.
Qed.

Lemma any_cons f v l : any f (v :: l) = f v || any f l. Proof. reflexivity. Qed.
Definition homb (l : list pyval) : bool :=
  (any isstr l && negb (any isbool l) && negb (any isfloat l) && negb (any isint l)) ||
  (any isfloat l && negb (any isstr l) && negb (any isbool l)) ||
  (any isint l && negb (any isstr l) && negb (any isbool l) && negb (any isfloat l) && negb (any isnone l)) ||
  (any isbool l && negb (any isstr l) && negb (any isint l) && negb (any isfloat l) && negb (any isnone l)).

Lemma all_not f l : (forall v, In v l -> f v = false) <-> any f l = false.
Proof. rewrite any_false, Forall_forall. reflexivity. Qed.
Lemma some_is f l : (exists v, In v l /\ f v = true) <-> any f l = true.
Proof. rewrite any_true, Exists_exists. reflexivity. Qed.

Ltac none_of l := apply all_not; let v := fresh in let H := fresh in intros v H.
Lemma homb_spec l : homb l = true <-> homogeneous l.
Proof.
  unfold homb, homogeneous. split.
  - intros H. rewrite !orb_true_iff, !andb_true_iff, !negb_true_iff in H.
    assert (NE : forall f, any f l = true -> l <> []) by (intros f E ->; discriminate).
    destruct H as [[[(((A & B) & C) & D)|((A & B) & C)]|((((A & B) & C) & D) & E)]|((((A & B) & C) & D) & E)]; (split; [eapply NE; eassumption|]).
    + left. split; [|now apply any_true]. rewrite <- all_not in B, C, D. apply Forall_forall. intros v Hv. specialize (B v Hv). specialize (C v Hv). specialize (D v Hv).
      destruct v; cbn in *; auto; discriminate.
    + right; left. split; [|now apply any_true]. rewrite <- all_not in B, C. apply Forall_forall. intros v Hv. specialize (B v Hv). specialize (C v Hv).
      destruct v; cbn in *; auto; discriminate.
    + right; right; left. rewrite <- all_not in B, C, D, E. apply Forall_forall. intros v Hv. specialize (B v Hv). specialize (C v Hv). specialize (D v Hv). specialize (E v Hv).
      destruct v; cbn in *; auto; discriminate.
    + right; right; right. rewrite <- all_not in B, C, D, E. apply Forall_forall. intros v Hv. specialize (B v Hv). specialize (C v Hv). specialize (D v Hv). specialize (E v Hv).
      destruct v; cbn in *; auto; discriminate.
  - intros (NE & [[F X]|[[F X]|[F|F]]]); rewrite Forall_forall in F.
    + apply any_true in X. rewrite X.
      replace (any isbool l) with false by (symmetry; apply all_not; intros v Hv; destruct (F v Hv) as [?| ->]; auto; destruct v; auto; discriminate).
      replace (any isfloat l) with false by (symmetry; apply all_not; intros v Hv; destruct (F v Hv) as [?| ->]; auto; destruct v; auto; discriminate).
      replace (any isint l) with false by (symmetry; apply all_not; intros v Hv; destruct (F v Hv) as [?| ->]; auto; destruct v; auto; discriminate).
      reflexivity.
    + apply any_true in X. rewrite X.
      replace (any isbool l) with false by (symmetry; apply all_not; intros v Hv; destruct (F v Hv) as [?|[?| ->]]; auto; destruct v; auto; discriminate).
      replace (any isstr l) with false by (symmetry; apply all_not; intros v Hv; destruct (F v Hv) as [?|[?| ->]]; auto; destruct v; auto; discriminate).
      cbn. now rewrite ?orb_true_r.
    + assert (X : any isint l = true) by (destruct l as [|v l]; [contradiction|]; cbn; rewrite (F v (or_introl eq_refl)); reflexivity). rewrite X.
      assert (Z0 : forall f, (forall v, isint v = true -> f v = false) -> any f l = false) by (intros f Hf; apply all_not; intros v Hv; apply Hf, F, Hv).
      rewrite !Z0 by (intros []; cbn; auto; discriminate). reflexivity.
    + assert (X : any isbool l = true) by (destruct l as [|v l]; [contradiction|]; cbn; rewrite (F v (or_introl eq_refl)); reflexivity). rewrite X.
      assert (Z0 : forall f, (forall v, isbool v = true -> f v = false) -> any f l = false) by (intros f Hf; apply all_not; intros v Hv; apply Hf, F, Hv).
      rewrite !Z0 by (intros []; cbn; auto; discriminate). reflexivity.
Qed.
Lemma constant_agree l : arrow_type l = AType (pandas_type l) <-> homogeneous l.
Proof.
  rewrite <- homb_spec. unfold homb, arrow_type, pandas_type.
  destruct (any isstr l), (any isbool l), (any isfloat l), (any isint l), (any isnone l); cbn; split; intros H; auto; discriminate.
Qed.
