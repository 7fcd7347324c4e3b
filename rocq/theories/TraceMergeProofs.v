(** Proofs for C197, C198. *)
From Coq Require Import String Ascii List ZArith Bool Arith Lia DecimalString DecimalNat.
From Verif Require Import SerdeModel CtxModel TraceMergeModel TraceMergeSpec.
Import ListNotations.
Local Open Scope string_scope.
Local Open Scope list_scope.

(** ** names *)
Lemma drop_prefix_spec : forall p l r, drop_prefix p l = Some r <-> l = p ++ r.
Proof.
  induction p as [|a p IH]; intros l r; cbn [drop_prefix app]; [split; [intros H; injection H as ->; reflexivity|intros ->; reflexivity]|].
  destruct l as [|b l]; [split; intros H; discriminate H|]. destruct (Ascii.eqb_spec a b) as [->|N].
  - rewrite IH. split; [intros ->; reflexivity|intros H; injection H as ->; reflexivity].
  - split; [intros H; discriminate H|intros H; injection H as H _; congruence].
Qed.
Lemma is_digit_spec c : is_digit c = true <-> (48 <= nat_of_ascii c <= 57)%nat.
Proof. unfold is_digit. rewrite andb_true_iff, !Nat.leb_le. reflexivity. Qed.
Lemma take_digits_spec : forall l ds rest, take_digits l = (ds, rest) ->
  l = ds ++ rest /\ Forall (fun c => is_digit c = true) ds /\ (forall c r, rest = c :: r -> is_digit c = false).
Proof.
  induction l as [|c l IH]; intros ds rest H; cbn in H; [injection H as <- <-; repeat split; [constructor|intros ? ? E; discriminate E]|].
  destruct (is_digit c) eqn:D.
  - destruct (take_digits l) as [d r]. injection H as <- <-. destruct (IH d r eq_refl) as (-> & F & N). repeat split; auto.
  - injection H as <- <-. repeat split; [constructor|]. intros c' r' E. injection E as <- <-. exact D.
Qed.
Lemma take_digits_app : forall ds rest, Forall (fun c => is_digit c = true) ds -> (forall c r, rest = c :: r -> is_digit c = false) ->
  take_digits (ds ++ rest) = (ds, rest).
Proof.
  intros ds rest F N. induction F as [|c ds D F IH]; cbn.
  - destruct rest as [|c r]; [reflexivity|]. cbn. rewrite (N c r eq_refl). reflexivity.
  - rewrite D, IH. reflexivity.
Qed.
Lemma las_app a b : list_ascii_of_string (a ++ b)%string = list_ascii_of_string a ++ list_ascii_of_string b.
Proof. induction a as [|c a IH]; cbn; [reflexivity|]. rewrite IH. reflexivity. Qed.
Lemma las_inj a b : list_ascii_of_string a = list_ascii_of_string b -> a = b.
Proof. intros H. rewrite <- (string_of_list_ascii_of_string a), H. apply string_of_list_ascii_of_string. Qed.

Lemma rank_of_spec fname n : rank_of fname = Some n <-> names_rank fname n.
Proof.
  unfold rank_of, names_rank. split.
  - destruct (drop_prefix _ _) as [l|] eqn:E; [|discriminate]. apply drop_prefix_spec in E.
    destruct (take_digits l) as [ds rest] eqn:T. apply take_digits_spec in T. destruct T as (-> & F & _).
    destruct ds as [|d ds]; [discriminate|]. destruct (drop_prefix (rev (list_ascii_of_string "_rank_")) rest) as [pre|] eqn:P; [|discriminate].
    apply drop_prefix_spec in P. subst rest. intros H. injection H as <-.
    exists (string_of_list_ascii (rev pre)), (rev (d :: ds)). split; [|split; [|split]].
    + apply las_inj. rewrite !las_app, !list_ascii_of_string_of_list_ascii.
      rewrite <- (rev_involutive (list_ascii_of_string fname)), E. rewrite !rev_app_distr, !rev_involutive, !app_assoc. reflexivity.
    + intros H. apply (f_equal (@List.length ascii)) in H. rewrite rev_length in H. discriminate H.
    + rewrite Forall_forall in *. intros c Hc. apply is_digit_spec, F. apply in_rev. exact Hc.
    + reflexivity.
  - intros (pre & ds & -> & Hd & F & ->).
    assert (E : drop_prefix (rev (list_ascii_of_string ".json")) (rev (list_ascii_of_string (pre ++ "_rank_" ++ string_of_list_ascii ds ++ ".json"))) =
      Some (rev ds ++ rev (list_ascii_of_string "_rank_") ++ rev (list_ascii_of_string pre))).
    { apply drop_prefix_spec. rewrite !las_app, list_ascii_of_string_of_list_ascii, !rev_app_distr, !app_assoc. reflexivity. }
    rewrite E, take_digits_app.
    + destruct (rev ds) as [|d l] eqn:Er; [exfalso; apply Hd; rewrite <- (rev_involutive ds), Er; reflexivity|].
      assert (P : drop_prefix (rev (list_ascii_of_string "_rank_")) (rev (list_ascii_of_string "_rank_") ++ rev (list_ascii_of_string pre)) = Some (rev (list_ascii_of_string pre))) by (apply drop_prefix_spec; reflexivity).
      rewrite P, <- Er, rev_involutive. reflexivity.
    + rewrite Forall_forall in *. intros c Hc. apply is_digit_spec, F, in_rev, Hc.
    + intros c r H. cbn in H. injection H as <- _. reflexivity.
Qed.

(** the names that save_trace uses *)
Lemma show_digits : forall u, Forall (fun c => (48 <= nat_of_ascii c <= 57)%nat) (list_ascii_of_string (NilEmpty.string_of_uint u)).
Proof. induction u; cbn [NilEmpty.string_of_uint list_ascii_of_string]; constructor; try assumption; cbn; lia. Qed.
Lemma show_value : forall u a, fold_left (fun a c => 10 * a + (nat_of_ascii c - 48))%nat (list_ascii_of_string (NilEmpty.string_of_uint u)) a = Nat.of_uint_acc u a.
Proof.
  induction u; intros a; cbn [NilEmpty.string_of_uint list_ascii_of_string fold_left Nat.of_uint_acc]; [reflexivity|..];
    rewrite IHu; f_equal; rewrite Nat.tail_mul_spec; unfold nat_of_ascii; cbn [N_of_ascii N_of_digits N.to_nat]; cbn; lia.
Qed.
Lemma show_names job r : names_rank (trace_name job (Some r)) r.
Proof.
  exists ("trace_" ++ job)%string, (list_ascii_of_string (show r)). split; [|split; [|split]].
  - rewrite string_of_list_ascii_of_string. unfold trace_name. apply las_inj. rewrite !las_app. rewrite !app_assoc. reflexivity.
  - unfold show. intros H. pose proof (show_value (Nat.to_uint r) 0) as V. rewrite H in V. cbn [fold_left] in V.
    change (Nat.of_uint_acc (Nat.to_uint r) 0) with (Nat.of_uint (Nat.to_uint r)) in V. rewrite DecimalNat.Unsigned.of_to in V. subst r. discriminate H.
  - apply show_digits.
  - unfold show. rewrite show_value. change (Nat.of_uint_acc (Nat.to_uint r) 0) with (Nat.of_uint (Nat.to_uint r)). symmetry. apply DecimalNat.Unsigned.of_to.
Qed.

(** ** events *)
Lemma sfind_sput_same {A} k (v : A) l : sfind k (sput k v l) = Some v.
Proof. induction l as [|[k' w] l IH]; cbn; [rewrite String.eqb_refl; reflexivity|]. destruct (String.eqb k' k) eqn:E; cbn; [rewrite String.eqb_refl; reflexivity|]. rewrite E. exact IH. Qed.
Lemma sfind_sput_other {A} k k' (v : A) l : k' <> k -> sfind k' (sput k v l) = sfind k' l.
Proof.
  intros N. induction l as [|[k0 w] l IH]; cbn.
  - destruct (String.eqb_spec k k'); [congruence|reflexivity].
  - destruct (String.eqb_spec k0 k) as [->|N0]; cbn.
    + destruct (String.eqb_spec k k'); [congruence|reflexivity].
    + destruct (String.eqb k0 k'); [reflexivity|exact IH].
Qed.

Section M.
Variable float_pid : Z -> Z -> Z.
Notation renumber := (renumber float_pid).
Notation merge_events := (merge_events float_pid).
Notation merge_file := (merge_file float_pid).

Lemma renumber_proper rank e : proper_event e -> exists e', renumber rank e = Some e' /\ attributed rank e e' /\ proper_event e'.
Proof.
  intros ((kv & ->) & (z & Hp) & Ha). cbn [field] in *. unfold renumber, TraceMergeModel.renumber. cbv zeta. rewrite Hp. cbn [new_pid].
  set (off := match rank with Some r => ((Z.of_nat r + 1) * 10000)%Z | None => 0%Z end).
  set (kv1 := sput "pid" (JInt (off + z mod 10000)) kv).
  assert (P1 : sfind "pid" kv1 = Some (JInt (off + z mod 10000))) by apply sfind_sput_same.
  assert (O1 : forall k, k <> "pid" -> sfind k kv1 = sfind k kv) by (intros k N; apply sfind_sput_other; exact N).
  destruct rank as [r|].
  - rewrite O1 by discriminate.
    assert (A : exists a, (match sfind "args" kv with None => Some [] | Some (JObj a) => Some a | Some _ => None end) = Some a /\
      forall k, sfind k a = match sfind "args" kv with Some j => field k j | None => None end).
    { destruct Ha as [-> | [a ->]]; [exists []; split; reflexivity|exists a; split; reflexivity]. }
    destruct A as (a & EA & FA). rewrite EA. eexists. split; [reflexivity|]. split.
    + split; [|split]; cbn [field].
      * intros k N1 N2. rewrite sfind_sput_other by exact N2. apply O1, N1.
      * intros z' Hz. rewrite Hp in Hz. injection Hz as <-. rewrite sfind_sput_other by discriminate. exact P1.
      * eexists. split; [apply sfind_sput_same|]. cbn [field]. split; [apply sfind_sput_same|].
        intros k N. rewrite sfind_sput_other by exact N. apply FA.
    + split; [eauto|]. cbn [field]. split; [eexists; rewrite sfind_sput_other by discriminate; exact P1|]. right. eexists. apply sfind_sput_same.
  - eexists. split; [reflexivity|]. split.
    + split; [|split]; cbn [field].
      * intros k N1 _. apply O1, N1.
      * intros z' Hz. rewrite Hp in Hz. injection Hz as <-. exact P1.
      * apply O1. discriminate.
    + split; [eauto|]. cbn [field]. split; [eauto|]. rewrite O1 by discriminate. exact Ha.
Qed.
Lemma merge_events_proper rank es : Forall proper_event es -> Forall2 (attributed rank) es (merge_events rank es) /\ Forall proper_event (merge_events rank es).
Proof.
  intros H. induction H as [|e es He _ IH]; cbn; [split; constructor|]. destruct (renumber_proper rank e He) as (e' & E & A & P).
  rewrite E. destruct IH. split; constructor; assumption.
Qed.
Lemma merge_events_app rank a b : Forall proper_event a -> merge_events rank (a ++ b) = merge_events rank a ++ merge_events rank b.
Proof.
  intros H. induction H as [|e es He _ IH]; cbn; [reflexivity|]. destruct (renumber_proper rank e He) as (e' & E & _ & _). rewrite E, IH. reflexivity.
Qed.
Lemma merge_file_holds name data es : holds_events data es -> merge_file (name, data) = merge_events (rank_of name) es.
Proof.
  intros (d & -> & F). unfold merge_file, TraceMergeModel.merge_file. cbn [snd fst]. f_equal.
  destruct d; try discriminate F. cbn [field] in F. cbn [events_of]. rewrite F. reflexivity.
Qed.
End M.

(** ** the tracer *)
Lemma events_run : forall h t, map snd (events (fold_left act h t)) = map snd (events t) ++ logged h.
Proof.
  induction h as [|a h IH]; intros t; cbn [fold_left logged flat_map]; [rewrite app_nil_r; reflexivity|]. rewrite IH. destruct a as [r e|job rank]; cbn [act events].
  - rewrite map_app. cbn. rewrite <- app_assoc. reflexivity.
  - destruct (_ <? _)%nat; reflexivity.
Qed.
Lemma length_logged h : List.length (events (run h)) = List.length (logged h).
Proof. rewrite <- (map_length snd). unfold run. rewrite events_run. reflexivity. Qed.
