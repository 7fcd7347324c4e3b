(** Proofs about static table types. *)
From Coq Require Import String List ZArith Bool Arith Lia.
From Verif Require Import TabConvModel TabConvSpec TabConvProofs TabProgModel TabProgSpec.
Import ListNotations.
Local Open Scope nat_scope.

Section P.
Variable to_float : Z -> Z.
Variable common : list (option ty) -> option ty.
Notation op_run := (op_run to_float common).
Notation run := (run to_float common).

Lemma has_nth {ts vs i v} : Forall2 has ts vs -> nth_error vs i = Some v -> exists t, nth_error ts i = Some t /\ has t v.
Proof. intros F. revert i. induction F as [|t w ts vs H F IH]; intros [|i] E; cbn in *; try discriminate; [injection E as <-; eauto|apply IH, E]. Qed.
Lemma has_nth_t {ts vs i t} : Forall2 has ts vs -> nth_error ts i = Some t -> exists v, nth_error vs i = Some v /\ has t v.
Proof. intros F. revert i. induction F as [|t0 w ts vs H F IH]; intros [|i] E; cbn in *; try discriminate; [injection E as <-; eauto|apply IH, E]. Qed.

Lemma pick_table {ts vs i t} : Forall2 has ts vs -> pick as_table_t ts i = Some t -> exists v, pick as_table vs i = Some v /\ table_has t v /\ nth_error vs i = Some (TableV v).
Proof.
  unfold pick. intros F E. destruct (nth_error ts i) as [[a|a]|] eqn:N; try discriminate E. injection E as <-.
  destruct (has_nth_t F N) as (v & -> & H). destruct v; try contradiction. exists t. auto.
Qed.
Lemma pick_tensor {ts vs i t} : Forall2 has ts vs -> pick as_tensor_t ts i = Some t -> exists v, pick as_matrix vs i = Some v /\ tensor_has t v.
Proof.
  unfold pick. intros F E. destruct (nth_error ts i) as [[a|a]|] eqn:N; try discriminate E. injection E as <-.
  destruct (has_nth_t F N) as (v & -> & H). destruct v; try contradiction. exists m. auto.
Qed.
Lemma all_tables {ts vs} : Forall2 has ts vs -> forall args tys, all (pick as_table_t ts) args = Some tys ->
  exists l, all (pick as_table vs) args = Some l /\ Forall2 table_has tys l /\ (Forall null_free vs -> Forall (Forall no_nulls) l).
Proof.
  intros F. induction args as [|i args IH]; intros tys E; cbn in E |- *; [injection E as <-; exists []; auto|].
  destruct (pick as_table_t ts i) eqn:P; [|discriminate]. destruct (all _ args) eqn:A; [|discriminate]. injection E as <-.
  destruct (pick_table F P) as (v & -> & H & N). destruct (IH _ eq_refl) as (l0 & -> & H' & N'). exists (v :: l0). split; [reflexivity|]. split; [constructor; assumption|].
  intros NF. constructor; [|apply N', NF]. rewrite Forall_forall in NF. exact (NF _ (nth_error_In _ _ N)).
Qed.
Lemma all_tensors {ts vs} : Forall2 has ts vs -> forall args tys, all (pick as_tensor_t ts) args = Some tys ->
  exists l, all (pick as_matrix vs) args = Some l /\ Forall2 tensor_has tys l.
Proof.
  intros F. induction args as [|i args IH]; intros tys E; cbn in E |- *; [injection E as <-; exists []; auto|].
  destruct (pick as_tensor_t ts i) eqn:P; [|discriminate]. destruct (all _ args) eqn:A; [|discriminate]. injection E as <-.
  destruct (pick_tensor F P) as (v & -> & H). destruct (IH _ eq_refl) as (l0 & -> & H'). exists (v :: l0). split; [reflexivity|]. constructor; assumption.
Qed.

(** constants *)
Lemma constant_schema data : Forall (fun p => homogeneous (snd p)) data -> exists t, constant_table data = Some t /\
  map (fun c => (col_name c, col_ty c)) t = tt_schema (constant_type data) /\ map col_cells t = map (fun p => map cell_of (snd p)) data.
Proof.
  intros F. induction F as [|[n l] data H F (t & E1 & E2 & E3)]; [exists []; auto|].
  cbn [constant_table]. cbn [snd] in H. apply constant_agree in H. rewrite H, E1. eexists. split; [reflexivity|]. cbn in *. rewrite E2, E3. auto.
Qed.
Lemma pandas_real l : pandas_type l <> TC64 /\ pandas_type l <> TC128.
Proof. unfold pandas_type. repeat (match goal with |- context[if ?b then _ else _] => destruct b end); split; discriminate. Qed.
Lemma constant_has data t : Forall (fun p => homogeneous (snd p)) data -> same_lengths data = true -> constant_table data = Some t -> table_has (constant_type data) t.
Proof.
  intros F S E. destruct (constant_schema data F) as (t' & E' & A & B). rewrite E in E'. injection E' as <-. split; [exact A|]. split; [|split].
  - unfold table_ok. destruct data as [|[n l] data]; [destruct t; [constructor|discriminate B]|]. destruct t as [|c t]; [discriminate B|]. cbn [map] in B. injection B as B1 B2.
    cbn [num_rows]. cbn [same_lengths] in S. rewrite forallb_forall in S. constructor; [reflexivity|]. rewrite B1, map_length.
    apply Forall_forall. intros c' Hc. apply (in_map col_cells) in Hc. rewrite B2 in Hc. apply in_map_iff in Hc. destruct Hc as (p & Hp & Hi). rewrite <- Hp, map_length. apply Nat.eqb_eq, S, Hi.
  - apply Forall_forall. intros c Hc. apply (in_map (fun c => (col_name c, col_ty c))) in Hc. rewrite A in Hc. cbn in Hc. apply in_map_iff in Hc. destruct Hc as (p & Hp & _). injection Hp as _ <-. apply pandas_real.
  - discriminate.
Qed.
Lemma constant_null_free data t : Forall (fun p => ~ In PNone (snd p)) data -> Forall (fun p => homogeneous (snd p)) data -> constant_table data = Some t -> Forall no_nulls t.
Proof.
  intros N F E. destruct (constant_schema data F) as (t' & E' & _ & B). rewrite E in E'. injection E' as <-. apply Forall_forall. intros c Hc.
  apply (in_map col_cells) in Hc. rewrite B in Hc. apply in_map_iff in Hc. destruct Hc as (p & Hp & Hi). rewrite Forall_forall in N. specialize (N p Hi).
  unfold no_nulls. rewrite <- Hp. apply Forall_map, Forall_forall. intros v Hv. destruct v; cbn; try discriminate. intros _. exact (N Hv).
Qed.

(** conversions *)
Lemma t2t_type a nr out : table2tensor_type a nr = Some out -> out = MT (mt_ty out) nr (length (tt_schema a)) /\ tt_schema a <> [] /\ mt_ty out <> TString /\ Forall (fun c => snd c = mt_ty out) (tt_schema a).
Proof.
  unfold table2tensor_type. intros E. assert (E' : match tt_schema a with [] => None | (_, s) :: r => if negb (ty_beq s TString) && forallb (fun c => ty_beq (snd c) s) r then Some (MT s nr (length (tt_schema a))) else None end = Some out) by (destruct nr as [[|]|]; [discriminate E|exact E|exact E]).
  clear E. destruct (tt_schema a) as [|[n s] r]; [discriminate|]. destruct (negb (ty_beq s TString) && forallb (fun c => ty_beq (snd c) s) r) eqn:G; [|discriminate]. injection E' as <-.
  apply andb_prop in G. destruct G as [G1 G2]. cbn [mt_ty]. split; [reflexivity|]. split; [discriminate|]. split; [intros ->; discriminate G1|]. constructor; [reflexivity|].
  apply Forall_forall. intros c Hc. rewrite forallb_forall in G2. apply ty_beq_eq, G2, Hc.
Qed.
Lemma schema_length a t : map (fun c => (col_name c, col_ty c)) t = tt_schema a -> length (tt_schema a) = length t.
Proof. intros <-. apply map_length. Qed.
Lemma t2t_has a t nr out m : table_has a t -> table2tensor_type a nr = Some out -> table2tensor to_float common out t = Some m -> tensor_has out m.
Proof.
  intros (S & OK & _ & _) T E. destruct (t2t_type _ _ _ T) as (Eo & NE & _ & _).
  unfold table2tensor in E. destruct (match mt_rows out with Some n => num_rows t =? n | None => true end) eqn:R; [|discriminate]. cbn [negb] in E. cbv zeta in E.
  destruct (m_ty (to_matrix to_float common t)) as [d|] eqn:D; [|discriminate]. destruct (ty_beq d (mt_ty out)) eqn:Q; [|discriminate]. injection E as <-. apply ty_beq_eq in Q. subst d.
  split; [exact D|]. split; [apply to_matrix_ok|]. split.
  - cbn. rewrite Eo. cbn. symmetry. apply (schema_length a t S).
  - intros n Hn. rewrite Hn in R. apply Nat.eqb_eq in R. exact R.
Qed.
Lemma t2t_runs a t out : table_has a t -> Forall no_nulls t -> table2tensor_type a None = Some out -> exists m, table2tensor to_float common out t = Some m.
Proof.
  intros (S & OK & R & _) N T. destruct (t2t_type _ _ _ T) as (Eo & NE & NS & F). rewrite Eo, (schema_length a t S).
  assert (K : Forall (fun c => no_nulls c /\ col_ty c = mt_ty out) t).
  { rewrite Forall_forall in N, F |- *. intros c Hc. split; [apply N, Hc|]. apply (in_map (fun c => (col_name c, col_ty c))) in Hc. rewrite S in Hc. apply (F _ Hc). }
  assert (NE' : t <> []) by (intros ->; apply NE; rewrite <- S; reflexivity).
  destruct (round_trip_back to_float common t (mt_ty out) None NE' OK) as (m & E & _); [|exact K|left; reflexivity|exists m; exact E].
  split; [exact NS|]. destruct t as [|c t]; [contradiction|]. inversion R; subst. inversion K as [|? ? [_ Kc] _]; subst. rewrite <- Kc. assumption.
Qed.
Lemma t2tab_type a names out : tensor2table_type a names = Some out -> names <> [] /\ length names = mt_cols a /\ out = TT (map (fun n => (n, mt_ty a)) names) None.
Proof.
  unfold tensor2table_type. intros E. destruct ((length names =? 0) || negb (length names =? mt_cols a) || existsb blank names) eqn:G; [discriminate|].
  rewrite !orb_false_iff, negb_false_iff, Nat.eqb_eq, Nat.eqb_neq in G. destruct G as [[G1 G2] _]. match type of E with (if ?b then _ else _) = _ => destruct b; [discriminate|] end. injection E as <-.
  split; [intros ->; apply G1; reflexivity|]. auto.
Qed.
Lemma t2tab_has a m names out t : tensor_has a m -> tensor2table_type a names = Some out -> tensor2table names m = Some t ->
  table_has out t /\ Forall no_nulls t.
Proof.
  intros (D & (L & _) & C & _) T E. destruct (t2tab_type _ _ _ T) as (NE & LN & ->).
  assert (CC : mt_ty a <> TC64 /\ mt_ty a <> TC128).
  { unfold tensor2table in E. destruct (negb (m_cols m =? length names)); [discriminate|]. rewrite D in E. destruct (mt_ty a); try discriminate E; split; discriminate. }
  assert (E' : t = built names (mt_ty a) m).
  { unfold tensor2table in E. replace (m_cols m =? length names) with true in E by (symmetry; apply Nat.eqb_eq; congruence). cbn [negb] in E. rewrite D in E.
    destruct (mt_ty a); try discriminate E; injection E as <-; reflexivity. }
  subst t. split; [|apply Forall_forall; intros c Hc; apply (built_nonull _ _ _ _ Hc)]. split; [|split; [|split]].
  - unfold built. rewrite map_map. cbn [col_name col_ty tt_schema]. apply (map_combine_seq (fun _ x => (x, mt_ty a)) names (fun n => (n, mt_ty a)) 0). reflexivity.
  - unfold table_ok. rewrite built_rows by exact NE. apply Forall_forall. intros c Hc. unfold built in Hc. apply in_map_iff in Hc. destruct Hc as ([i x] & <- & _). cbn. apply map_length.
  - apply Forall_forall. intros c Hc. rewrite (proj2 (built_nonull _ _ _ _ Hc)). exact CC.
  - discriminate.
Qed.

(** one operation *)
Lemma op_sound ts vs o t v : Forall2 has ts vs -> declared_right ts o -> op_type ts o = Some t -> op_run vs t o = Some v -> has t v.
Proof.
  intros F D T R. destruct o as [data|m d|schema contents|[out f|out f] args|x nr|x names|xs]; cbn [op_type op_run declared_right] in *.
  - destruct (same_lengths data) eqn:S; [|discriminate]. injection T as <-. destruct (constant_table data) as [tb|] eqn:E; [|discriminate]. injection R as <-. apply constant_has; assumption.
  - injection T as <-. injection R as <-. destruct D as [D1 D2]. repeat split; try assumption; [apply D2|apply D2|]. cbn. intros n E. injection E as <-. reflexivity.
  - injection T as <-. destruct contents as [tb|]; [|discriminate]. injection R as <-. apply D. reflexivity.
  - destruct (all (pick as_table_t ts) args) as [[|y tys]|] eqn:A; try discriminate. injection T as <-. destruct (all_tables F _ _ A) as (l & E & H & _). rewrite E in R.
    destruct (f l) as [tb|] eqn:Ef; [|discriminate]. injection R as <-. exact (D _ _ _ eq_refl H Ef).
  - destruct (all (pick as_tensor_t ts) args) as [tys|] eqn:A; try discriminate. injection T as <-. destruct (all_tensors F _ _ A) as (l & E & H). rewrite E in R.
    destruct (f l) as [tb|] eqn:Ef; [|discriminate]. injection R as <-. exact (D _ _ _ eq_refl H Ef).
  - destruct (pick as_table_t ts x) as [a|] eqn:P; [|discriminate]. destruct (pick_table F P) as (tb & E & H & _). rewrite E in R.
    destruct (match nr with None => table2tensor_default a | Some r => table2tensor_type a r end) as [out|] eqn:O; [|discriminate]. injection T as <-.
    destruct (table2tensor to_float common out tb) as [m|] eqn:M; [|discriminate]. injection R as <-. destruct nr as [r|]; eapply t2t_has; eassumption.
  - destruct (pick as_tensor_t ts x) as [a|] eqn:P; [|discriminate]. destruct (pick_tensor F P) as (m & E & H). rewrite E in R.
    destruct (tensor2table_type a names) as [out|] eqn:O; [|discriminate]. injection T as <-. destruct (tensor2table names m) as [tb|] eqn:M; [|discriminate]. injection R as <-.
    exact (proj1 (t2tab_has _ _ _ _ _ H O M)).
  - contradiction.
Qed.

Lemma forall2_snoc {A B} (R : A -> B -> Prop) l l' x y : Forall2 R l l' -> R x y -> Forall2 R (l ++ [x]) (l' ++ [y]).
Proof. intros F H. apply Forall2_app; [exact F|constructor; [exact H|constructor]]. Qed.

Lemma run_sound p : forall ts vs ts' vs', Forall2 has ts vs -> each declared_right ts p -> types ts p = Some ts' -> run ts vs p = Some vs' -> Forall2 has ts' vs'.
Proof.
  induction p as [|o p IH]; intros ts vs ts' vs' F D T R; cbn in *; [congruence|]. destruct D as [D1 D2].
  destruct (op_type ts o) as [t|] eqn:O; [|discriminate]. destruct (op_run vs t o) as [v|] eqn:V; [|discriminate].
  eapply IH; [|apply D2; reflexivity|exact T|exact R]. apply forall2_snoc; [exact F|]. eapply op_sound; eassumption.
Qed.

(** the row counts of all table types are unknown *)
Definition open_rows (t : vty) : Prop := match t with TableT a => tt_rows a = None | TensorT _ => True end.
Lemma op_goes ts vs o t : Forall2 has ts vs -> Forall open_rows ts -> Forall null_free vs -> declared_right ts o -> goes_through ts o -> op_type ts o = Some t ->
  open_rows t /\ exists v, op_run vs t o = Some v /\ null_free v.
Proof.
  intros F O N D G T. destruct o as [data|m d|schema contents|[out f|out f] args|x nr|x names|xs]; cbn [op_type op_run declared_right goes_through] in *.
  - destruct (same_lengths data) eqn:S; [|discriminate]. injection T as <-. split; [reflexivity|]. destruct (constant_schema data D) as (tb & E & _). rewrite E. eexists. split; [reflexivity|]. eapply constant_null_free; eassumption.
  - injection T as <-. split; [exact I|]. eexists. split; [reflexivity|]. exact I.
  - injection T as <-. destruct G as [G (tb & -> & Nt)]. split; [exact G|]. eexists. split; [reflexivity|]. exact Nt.
  - destruct (all (pick as_table_t ts) args) as [[|y tys]|] eqn:A; try discriminate. injection T as <-. destruct (all_tables F _ _ A) as (l & E & H & Nl). rewrite E. destruct G as [G1 G2].
    split; [exact G1|]. destruct (G2 _ _ eq_refl H (Nl N)) as (tb & -> & Nt). eexists. split; [reflexivity|]. exact Nt.
  - destruct (all (pick as_tensor_t ts) args) as [tys|] eqn:A; try discriminate. injection T as <-. destruct (all_tensors F _ _ A) as (l & E & H). rewrite E.
    split; [exact I|]. destruct (G _ _ eq_refl H) as (m & ->). eexists. split; [reflexivity|]. exact I.
  - destruct (pick as_table_t ts x) as [a|] eqn:P; [|discriminate]. destruct (pick_table F P) as (tb & E & H & Nx). rewrite E.
    destruct (match nr with None => table2tensor_default a | Some r => table2tensor_type a r end) as [out|] eqn:Ot; [|discriminate]. injection T as <-. split; [exact I|].
    assert (Ra : tt_rows a = None).
    { unfold pick in P. destruct (nth_error ts x) as [[b|b]|] eqn:Nt; try discriminate P. injection P as <-. rewrite Forall_forall in O. exact (O _ (nth_error_In _ _ Nt)). }
    assert (Ot' : table2tensor_type a None = Some out) by (destruct G as [-> | ->]; [unfold table2tensor_default in Ot; rewrite Ra in Ot|]; exact Ot).
    rewrite Forall_forall in N. destruct (t2t_runs a tb out H (N _ (nth_error_In _ _ Nx)) Ot') as (m & ->). eexists. split; [reflexivity|]. exact I.
  - destruct (pick as_tensor_t ts x) as [a|] eqn:P; [|discriminate]. destruct (pick_tensor F P) as (m & E & H). rewrite E.
    destruct (tensor2table_type a names) as [out|] eqn:Ot; [|discriminate]. injection T as <-. pose proof (t2tab_type _ _ _ Ot) as (NE & LN & ->). split; [reflexivity|].
    assert (Pl : plain (mt_ty a)). { apply G. unfold pick in P. destruct (nth_error ts x) as [[b|b]|]; try discriminate P. injection P as <-. reflexivity. }
    assert (M : tensor2table names m = Some (built names (mt_ty a) m)) by (destruct H as (H1 & _ & H3 & _); apply tensor2table_built; [congruence|exact H1|exact Pl]).
    rewrite M. eexists. split; [reflexivity|]. exact (proj2 (t2tab_has _ _ _ _ _ H Ot M)).
  - contradiction.
Qed.
Lemma run_goes p : forall ts vs ts', Forall2 has ts vs -> Forall open_rows ts -> Forall null_free vs ->
  each declared_right ts p -> each goes_through ts p -> types ts p = Some ts' -> exists vs', run ts vs p = Some vs' /\ Forall2 has ts' vs'.
Proof.
  induction p as [|o p IH]; intros ts vs ts' F O N D G T; cbn in *; [injection T as <-; eauto|]. destruct D as [D1 D2], G as [G1 G2].
  destruct (op_type ts o) as [t|] eqn:E; [|discriminate]. destruct (op_goes _ _ _ _ F O N D1 G1 E) as (Ot & v & R & Nv). rewrite R.
  apply IH; [|apply Forall_app; auto|apply Forall_app; auto|apply D2; reflexivity|apply G2; reflexivity|exact T]. apply forall2_snoc; [exact F|]. eapply op_sound; eassumption.
Qed.
End P.
