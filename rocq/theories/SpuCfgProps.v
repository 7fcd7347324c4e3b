(** C102: an SPU configuration survives transport.  C103: every way of writing a
    configuration file option has the documented effect. *)
From Coq Require Import String Ascii.
From Coq Require Import List ZArith Bool Lia.
From Verif Require Import SpuCfgModel.
Import ListNotations.
Local Open Scope string_scope.

(** A link description that sets nothing. *)
Definition sets_nothing (l : link_desc) : Prop := l = LD JNull JNull JNull JNull JNull JNull JNull.
(** The two text options are absent or not empty (false, 0, ""). *)
Definition plain_texts (l : link_desc) : Prop :=
  (brpc_channel_protocol l = JNull \/ truthy (brpc_channel_protocol l) = true) /\
  (brpc_channel_connection_type l = JNull \/ truthy (brpc_channel_connection_type l) = true).

Ltac nn v := destruct (is_none v) eqn:?; [destruct v; try discriminate|].

Lemma get_link : forall l k, 
  get k (link_to_json l) JNull =
  (if String.eqb "recv_timeout_ms" k then recv_timeout_ms l else
   if String.eqb "http_timeout_ms" k then http_timeout_ms l else
   if String.eqb "http_max_payload_size" k then http_max_payload_size l else
   if String.eqb "brpc_channel_protocol" k then brpc_channel_protocol l else
   if String.eqb "brpc_channel_connection_type" k then brpc_channel_connection_type l else
   if String.eqb "connect_retry_times" k then connect_retry_times l else
   if String.eqb "connect_retry_interval_ms" k then connect_retry_interval_ms l else JNull).
Proof.
  intros l k.
  assert (G : forall kvs, NoDup (map fst kvs) ->
     get k (filter (fun p => negb (is_none (snd p))) kvs) JNull = get k kvs JNull).
  { induction kvs as [|[a v] kvs IH]; intros N; [reflexivity|]. inversion N as [|? ? N1 N2]; subst.
    simpl. unfold get in *. destruct (is_none v) eqn:E; simpl.
    - rewrite IH by assumption. destruct v; try discriminate.
      destruct (String.eqb a k) eqn:E2; auto. apply String.eqb_eq in E2; subst.
      destruct (lookup k kvs) eqn:E3; auto. exfalso. apply N1. clear - E3.
      induction kvs as [|[b w] kvs IH]; simpl in *; [discriminate|].
      destruct (String.eqb b k) eqn:E; [apply String.eqb_eq in E; auto | auto].
    - destruct (String.eqb a k); auto. }
  unfold link_to_json. rewrite G.
  - unfold get; cbn [lookup].
    repeat match goal with |- context [String.eqb ?a k] => destruct (String.eqb a k); [reflexivity|] end.
    reflexivity.
  - simpl. repeat constructor; simpl; intuition discriminate.
Qed.

Lemma link_json_empty : forall l, link_to_json l = [] <-> sets_nothing l.
Proof.
  intros l; unfold sets_nothing; split.
  - intros H. assert (G : forall k, get k (link_to_json l) JNull = JNull) by (rewrite H; reflexivity).
    destruct l as [a b c d e f g].
    pose proof (G "recv_timeout_ms") as G1. pose proof (G "http_timeout_ms") as G2.
    pose proof (G "http_max_payload_size") as G3. pose proof (G "brpc_channel_protocol") as G4.
    pose proof (G "brpc_channel_connection_type") as G5. pose proof (G "connect_retry_times") as G6.
    pose proof (G "connect_retry_interval_ms") as G7.
    rewrite get_link in *; simpl in *. congruence.
  - intros ->; reflexivity.
Qed.

Lemma link_round_trip : forall l, plain_texts l -> link_from_dict (link_to_json l) = l.
Proof.
  intros l [P1 P2]. unfold link_from_dict. rewrite !get_link. cbn [String.eqb Ascii.eqb Bool.eqb].
  destruct l as [a b c d e f g]; simpl in *. unfold py_or.
  destruct P1 as [->|P1]; destruct P2 as [->|P2]; simpl; rewrite ?P1, ?P2; reflexivity.
Qed.

Lemma link_fields : forall l,
  brpc_channel_protocol (link_from_dict (link_to_json l)) =
    (if truthy (brpc_channel_protocol l) then brpc_channel_protocol l else JNull) /\
  brpc_channel_connection_type (link_from_dict (link_to_json l)) =
    (if truthy (brpc_channel_connection_type l) then brpc_channel_connection_type l else JNull).
Proof. intros l; unfold link_from_dict; simpl; rewrite !get_link; split; reflexivity. Qed.

Lemma config_from_to : forall c,
  config_from_dict (config_to_json c) =
  Some (match link c with
        | None => c
        | Some l => {| protocol := protocol c; field := field c; fxp_fraction_bits := fxp_fraction_bits c;
                       enable_pphlo_profile := enable_pphlo_profile c; enable_hal_profile := enable_hal_profile c;
                       enable_pphlo_trace := enable_pphlo_trace c; enable_action_trace := enable_action_trace c;
                       link := match link_to_json l with [] => None | _ => Some (link_from_dict (link_to_json l)) end |}
        end).
Proof.
  intros [p f x a b c d [l|]]; unfold config_from_dict, config_to_json; cbn -[link_to_json link_from_dict].
  - destruct (link_to_json l) eqn:E; reflexivity.
  - reflexivity.
Qed.

(** ** C102: exactly the configurations that survive to_json / from_json. *)
Theorem C102_round_trip_exact : forall c,
  config_from_dict (config_to_json c) = Some c <->
  (forall l, link c = Some l -> ~ sets_nothing l /\ plain_texts l).
Proof.
  intros c. rewrite config_from_to. split.
  - intros H l Hl. rewrite Hl in H. destruct c as [p f x a b c d o]; simpl in *. subst o.
    injection H as H. destruct (link_to_json l) as [|kv r] eqn:E; [discriminate|].
    injection H as H. rewrite <- E in H. split.
    + intros S. apply link_json_empty in S. congruence.
    + destruct (link_fields l) as [F1 F2]. rewrite H in F1, F2. split.
      * destruct (truthy (brpc_channel_protocol l)); auto.
      * destruct (truthy (brpc_channel_connection_type l)); auto.
  - intros H. destruct c as [p f x a b c d [l|]]; simpl in *; [|reflexivity].
    destruct (H l eq_refl) as [N P]. f_equal. f_equal.
    destruct (link_to_json l) as [|kv r] eqn:E; [apply link_json_empty in E; contradiction|].
    rewrite <- E. rewrite link_round_trip by assumption. reflexivity.
Qed.
Print Assumptions C102_round_trip_exact.

Definition cfg (l : option link_desc) : spu_config :=
  SC (JStr "ABY3") (JStr "FM64") (JInt 20) true false true false l.
Definition ld1 : link_desc := LD (JInt 5) JNull (JInt 9) (JStr "h2") JNull JNull (JInt 0).
Example C102_case : config_from_dict (config_to_json (cfg (Some ld1))) = Some (cfg (Some ld1)) /\
  config_from_dict (config_to_json (cfg None)) = Some (cfg None).
Proof. split; reflexivity. Qed.

(** A configuration with an empty link description arrives as another one. *)
Theorem C141_empty_link_refuted : forall l, sets_nothing l ->
  config_from_dict (config_to_json (cfg (Some l))) = Some (cfg None).
Proof. intros l ->; reflexivity. Qed.
Print Assumptions C141_empty_link_refuted.

(** ** C102: what the workers do with the arrived configuration: the SPU runs with
    the same link options as at the sender, unless a text option is the empty
    text (or another empty value). *)
Theorem C102_same_options : forall base c,
  (forall l, link c = Some l -> plain_texts l) ->
  exists c', config_from_dict (config_to_json c) = Some c' /\
    effective base c' = effective base c /\
    protocol c' = protocol c /\ field c' = field c /\ fxp_fraction_bits c' = fxp_fraction_bits c /\
    enable_pphlo_profile c' = enable_pphlo_profile c /\ enable_hal_profile c' = enable_hal_profile c /\
    enable_pphlo_trace c' = enable_pphlo_trace c /\ enable_action_trace c' = enable_action_trace c.
Proof.
  intros base c H. rewrite config_from_to. eexists; split; [reflexivity|].
  destruct c as [p f x a b c d [l|]]; simpl in *; [|repeat split; reflexivity].
  split; [|repeat split; reflexivity].
  destruct (link_to_json l) as [|kv r] eqn:E.
  - apply link_json_empty in E. unfold sets_nothing in E; subst l. destruct base; reflexivity.
  - rewrite <- E. rewrite link_round_trip by auto. reflexivity.
Qed.
Print Assumptions C102_same_options.

Definition base1 : brpc := BC (JStr "http") (JStr "pooled") (JInt 100000) (JInt 33554432) JNull (JInt 60) (JInt 1000).
Example C102_same_options_case :
  effective base1 (cfg (Some ld1)) = BC (JStr "h2") (JStr "pooled") (JInt 5) (JInt 9) JNull (JInt 60) (JInt 0) /\
  effective base1 (cfg None) = base1.
Proof. split; reflexivity. Qed.

Theorem C141_empty_text_refuted : forall base,
  b_protocol base <> JStr "" ->
  let c := cfg (Some (LD (JInt 5) JNull JNull (JStr "") JNull JNull JNull)) in
  exists c', config_from_dict (config_to_json c) = Some c' /\ effective base c' <> effective base c.
Proof.
  intros base Hb c. eexists; split; [reflexivity|]. unfold effective; simpl.
  intros E. injection E as E. contradiction.
Qed.
Print Assumptions C141_empty_text_refuted.

(** The options the SPU runs with, after transport: every option the sender set
    (to any value but None), and the worker's own for the others. *)
Theorem C102_options_used : forall base c c' l,
  link c = Some l -> plain_texts l -> config_from_dict (config_to_json c) = Some c' ->
  forall (here : link_desc -> jv) (there : brpc -> jv),
    In (here, there) [(brpc_channel_protocol, b_protocol); (brpc_channel_connection_type, b_connection_type);
                      (recv_timeout_ms, b_recv_timeout_ms); (http_max_payload_size, b_http_max_payload_size);
                      (http_timeout_ms, b_http_timeout_ms); (connect_retry_times, b_connect_retry_times);
                      (connect_retry_interval_ms, b_connect_retry_interval_ms)] ->
    (here l <> JNull -> there (effective base c') = here l) /\
    (here l = JNull -> there (effective base c') = there base).
Proof.
  intros base c c' l Hl Hp H.
  destruct (C102_same_options base c) as (c2 & E & Ef & _); [congruence|].
  assert (c2 = c') by congruence. subst c2. rewrite Ef. unfold effective. rewrite Hl.
  assert (O : forall v b, (v <> JNull -> over v b = v) /\ (v = JNull -> over v b = b)).
  { intros v b. split; [destruct v; intros; try reflexivity; congruence | intros ->; reflexivity]. }
  intros here there Hin. simpl in Hin.
  repeat (destruct Hin as [Hin|Hin]; [injection Hin as <- <-; simpl; apply O|]). contradiction.
Qed.
Print Assumptions C102_options_used.

Example C102_options_used_case : plain_texts ld1 /\ recv_timeout_ms ld1 = JInt 5 /\
  connect_retry_interval_ms ld1 = JInt 0 /\ http_timeout_ms ld1 = JNull.
Proof. repeat split; simpl; auto. Qed.

(** Truth in these statements is Python's: null, false, 0, "" and {} are false, all else is true. *)
Theorem C103_truth : forall v, truthy v = false <-> In v [JNull; JBool false; JInt 0; JStr ""; JObj []].
Proof.
  intros v. cbn [In]. split.
  - destruct v as [|[|]|z|s|[|]]; cbn; intros H; try discriminate H; auto 6.
    + apply negb_false_iff, Z.eqb_eq in H. subst. auto.
    + apply negb_false_iff, String.eqb_eq in H. subst. auto 6.
  - intros [<-|[<-|[<-|[<-|[<-|[]]]]]]; reflexivity.
Qed.
Print Assumptions C103_truth.
(** ** C103: reading a configuration: a runtime option is taken from the
    runtime_config section if it is there, else from the top level, else the
    default; flags must be booleans or "true"/"false"; a link option given under
    its full name wins over its short name. *)
Theorem C103_option_sources : forall d rc c,
  get "runtime_config" d (JObj []) = JObj rc -> config_from_dict d = Some c ->
  protocol c = get "protocol" rc (get "protocol" d (JStr "SEMI2K")) /\
  field c = get "field" rc (get "field" d (JStr "FM128")) /\
  fxp_fraction_bits c = get "fxp_fraction_bits" rc (get "fxp_fraction_bits" d (JInt 18)) /\
  parse_bool (get "enable_pphlo_profile" rc (get "enable_pphlo_profile" d (JBool false))) = Some (enable_pphlo_profile c) /\
  parse_bool (get "enable_hal_profile" rc (get "enable_hal_profile" d (JBool false))) = Some (enable_hal_profile c) /\
  parse_bool (get "enable_pphlo_trace" rc (get "enable_pphlo_trace" d (JBool false))) = Some (enable_pphlo_trace c) /\
  parse_bool (get "enable_action_trace" rc (get "enable_action_trace" d (JBool false))) = Some (enable_action_trace c) /\
  (forall l, get "link_desc" d JNull = JObj l -> l <> [] -> link c = Some (link_from_dict l)) /\
  (truthy (get "link_desc" d JNull) = false -> link c = None).
Proof.
  intros d rc c Hr H. unfold config_from_dict in H. rewrite Hr in H.
  destruct (parse_bool (get "enable_pphlo_profile" rc (get "enable_pphlo_profile" d (JBool false)))) as [f1|]; [|discriminate].
  destruct (parse_bool (get "enable_hal_profile" rc (get "enable_hal_profile" d (JBool false)))) as [f2|]; [|discriminate].
  destruct (parse_bool (get "enable_pphlo_trace" rc (get "enable_pphlo_trace" d (JBool false)))) as [f3|]; [|discriminate].
  destruct (parse_bool (get "enable_action_trace" rc (get "enable_action_trace" d (JBool false)))) as [f4|]; [|discriminate].
  destruct (truthy (get "link_desc" d JNull)) eqn:T.
  - destruct (get "link_desc" d JNull) eqn:L; try discriminate. injection H as <-; simpl.
    repeat split; auto.
    + intros l0 E _. injection E as ->. reflexivity.
    + discriminate.
  - injection H as <-; simpl. repeat split; auto.
    intros l E Hne. rewrite E in T. destruct l; [contradiction Hne; reflexivity | discriminate].
Qed.
Print Assumptions C103_option_sources.

(** What a flag may be: a boolean, or the word true / false in any mixture of
    capital and small letters, between any number of spaces. *)
Fixpoint spaces (n : nat) : string := match n with O => "" | S n' => String " " (spaces n') end.
Definition capital_of (c d : ascii) : Prop :=
  exists k, k < 26 /\ c = ascii_of_nat (65 + k) /\ d = ascii_of_nat (97 + k).
Fixpoint same_word (w t : string) : Prop :=
  match w, t with
  | EmptyString, EmptyString => True
  | String c w', String d t' => (c = d \/ capital_of c d) /\ same_word w' t'
  | _, _ => False
  end.
Definition word (b : bool) : string := if b then "true" else "false".

Lemma app_nil_r_s : forall s : string, s ++ "" = s.
Proof. induction s; simpl; congruence. Qed.
Lemma app_assoc_s : forall a b c : string, (a ++ b) ++ c = a ++ b ++ c.
Proof. induction a; simpl; intros; congruence. Qed.
Lemma rev_s_spec : forall s acc, rev_s s acc = rev_s s "" ++ acc.
Proof.
  induction s as [|c s IH]; simpl; intros acc; [reflexivity|].
  rewrite IH, (IH (String c "")), app_assoc_s. reflexivity.
Qed.
Lemma rev_s_app : forall a b, rev_s (a ++ b) "" = rev_s b "" ++ rev_s a "".
Proof.
  induction a as [|c a IH]; simpl; intros b; [rewrite app_nil_r_s; reflexivity|].
  rewrite rev_s_spec, IH, app_assoc_s. rewrite (rev_s_spec a (String c "")). reflexivity.
Qed.
Lemma rev_s_rev_s : forall s, rev_s (rev_s s "") "" = s.
Proof.
  induction s as [|c s IH]; simpl; [reflexivity|]. rewrite (rev_s_spec s (String c "")), rev_s_app, IH. reflexivity.
Qed.
Lemma spaces_snoc : forall n, spaces n ++ " " = String " " (spaces n).
Proof. induction n; simpl; congruence. Qed.
Lemma rev_spaces : forall n, rev_s (spaces n) "" = spaces n.
Proof. induction n; simpl; [reflexivity|]. rewrite rev_s_spec, IHn, spaces_snoc. reflexivity. Qed.
Lemma lstrip_cons : forall c s, c <> " "%char -> lstrip (String c s) = String c s.
Proof.
  intros c s H. destruct c as [[] [] [] [] [] [] [] []]; try reflexivity. contradiction H; reflexivity.
Qed.
Lemma lstrip_spec : forall s, exists n, s = spaces n ++ lstrip s.
Proof.
  induction s as [|c s [n IH]]; [exists 0; reflexivity|].
  destruct (ascii_dec c " ") as [->|H].
  - exists (S n). simpl. congruence.
  - exists 0. rewrite lstrip_cons by assumption. reflexivity.
Qed.
Lemma lstrip_spaces : forall n s, lstrip (spaces n ++ s) = lstrip s.
Proof. induction n; simpl; auto. Qed.
Lemma strip_spec : forall s, exists n m, s = spaces n ++ strip s ++ spaces m.
Proof.
  intros s. unfold strip. destruct (lstrip_spec s) as [n Hn].
  destruct (lstrip_spec (rev_s (lstrip s) "")) as [m Hm].
  exists n, m. rewrite Hn at 1. f_equal.
  rewrite <- (rev_s_rev_s (lstrip s)) at 1. rewrite Hm at 1.
  rewrite rev_s_app, rev_spaces. reflexivity.
Qed.
(** a text with a letter at both ends *)
Definition tight (w : string) : Prop := lstrip w = w /\ lstrip (rev_s w "") = rev_s w "".
Lemma lstrip_app : forall w t, w <> "" -> lstrip w = w -> lstrip (w ++ t) = w ++ t.
Proof.
  intros w t Hne H. destruct w as [|c w]; [congruence|].
  destruct (ascii_dec c " ") as [->|Hc]; [|simpl append; apply lstrip_cons; assumption].
  exfalso. simpl in H.
  assert (L : forall s, String.length (lstrip s) <= String.length s).
  { intros s. destruct (lstrip_spec s) as [n E].
    assert (LA : forall a b, String.length (a ++ b) = String.length a + String.length b).
    { induction a; simpl; intros; auto. }
    rewrite E at 2. rewrite LA. lia. }
  specialize (L w). rewrite H in L. simpl in L. lia.
Qed.
Lemma strip_tight : forall n m w, w <> "" -> tight w -> strip (spaces n ++ w ++ spaces m) = w.
Proof.
  intros n m w Hne [T1 T2]. unfold strip. rewrite lstrip_spaces, lstrip_app by assumption.
  rewrite rev_s_app, rev_spaces, lstrip_spaces, T2. apply rev_s_rev_s.
Qed.

Ltac letters := repeat match goal with
  | H : same_word ?w _ |- _ => destruct w; simpl in H; try contradiction
  | H : _ /\ _ |- _ => destruct H
  end.
Lemma lower_capital : forall c d, capital_of c d -> lower c = d.
Proof.
  intros c d (k & Hk & -> & ->).
  do 26 (destruct k as [|k]; [reflexivity|]). lia.
Qed.
Lemma lower_small : forall k, k < 26 -> lower (ascii_of_nat (97 + k)) = ascii_of_nat (97 + k).
Proof. intros k Hk. do 26 (destruct k as [|k]; [reflexivity|]). lia. Qed.
Lemma lower_inv : forall c, c = lower c \/ capital_of c (lower c).
Proof.
  intros c. unfold lower. destruct (Nat.leb 65 (nat_of_ascii c) && Nat.leb (nat_of_ascii c) 90) eqn:E; auto.
  right. apply andb_true_iff in E. destruct E as [E1 E2]. apply Nat.leb_le in E1, E2.
  exists (nat_of_ascii c - 65). split; [lia|]. split.
  - replace (65 + (nat_of_ascii c - 65)) with (nat_of_ascii c) by lia. symmetry; apply ascii_nat_embedding.
  - f_equal; lia.
Qed.
Fixpoint small (t : string) : Prop :=
  match t with EmptyString => True | String d t' => (exists k, k < 26 /\ d = ascii_of_nat (97 + k)) /\ small t' end.
Lemma lower_s_iff : forall t w, small t -> (lower_s w = t <-> same_word w t).
Proof.
  induction t as [|d t IH]; intros w Hs; destruct w as [|c w]; simpl; try (split; [discriminate | contradiction]).
  - split; auto.
  - destruct Hs as [(k & Hk & Ed) Hs]. specialize (IH w Hs). split.
    + intros H. injection H as H1 H2. split; [|apply IH; assumption].
      rewrite <- H1. apply lower_inv.
    + intros [H1 H2]. apply IH in H2. f_equal; [|assumption].
      destruct H1 as [->|H1]; [subst d; apply lower_small; assumption | apply lower_capital; assumption].
Qed.
Lemma small_word : forall b, small (word b).
Proof.
  intros []; simpl; repeat split;
    match goal with |- exists k, _ /\ ?d = _ => exists (nat_of_ascii d - 97) end;
    (split; [apply Nat.ltb_lt; reflexivity | reflexivity]).
Qed.
Lemma word_tight : forall b w, same_word w (word b) -> w <> "" /\ tight w.
Proof.
  intros b w H. apply (lower_s_iff _ _ (small_word b)) in H.
  assert (NS : forall c, lower c <> " "%char -> c <> " "%char) by (intros c Hc ->; apply Hc; reflexivity).
  destruct b; simpl in H;
    (do 5 (destruct w as [|? w]; simpl in H; try discriminate));
    try (destruct w; simpl in H; try discriminate); injection H as;
    (split; [discriminate|]; split; simpl; apply lstrip_cons; apply NS; congruence).
Qed.

Theorem C103_flags : forall v b,
  parse_bool v = Some b <->
  v = JBool b \/ exists n w m, v = JStr (spaces n ++ w ++ spaces m) /\ same_word w (word b).
Proof.
  intros v b. split.
  - destruct v; simpl; try discriminate; [intros H; injection H as ->; auto|].
    intros H. right. destruct (strip_spec s) as (n & m & E). exists n, (strip s), m.
    split; [congruence|]. apply (lower_s_iff _ _ (small_word b)).
    destruct (String.eqb (lower_s (strip s)) "true") eqn:E1.
    + injection H as <-. apply String.eqb_eq in E1. exact E1.
    + destruct (String.eqb (lower_s (strip s)) "false") eqn:E2; [|discriminate].
      injection H as <-. apply String.eqb_eq in E2. exact E2.
  - intros [->|(n & w & m & -> & H)]; [reflexivity|].
    destruct (word_tight b w H) as [Hne Ht]. unfold parse_bool. rewrite strip_tight by assumption.
    apply (lower_s_iff _ _ (small_word b)) in H. rewrite H. destruct b; reflexivity.
Qed.
Print Assumptions C103_flags.

Example C103_flags_case : parse_bool (JStr "  fALSe ") = Some false /\ same_word "fALSe" (word false) /\
  parse_bool (JStr "no") = None /\ parse_bool (JInt 1) = None.
Proof.
  split; [reflexivity|]. split; [|split; reflexivity].
  apply (lower_s_iff _ _ (small_word false)); reflexivity.
Qed.

(** Every link option, including the two short names. *)
Theorem C103_link_options : forall d,
  let l := link_from_dict d in
  recv_timeout_ms l = get "recv_timeout_ms" d JNull /\
  http_timeout_ms l = get "http_timeout_ms" d JNull /\
  http_max_payload_size l = get "http_max_payload_size" d JNull /\
  connect_retry_times l = get "connect_retry_times" d JNull /\
  connect_retry_interval_ms l = get "connect_retry_interval_ms" d JNull /\
  (forall s, s <> "" -> lookup "brpc_channel_protocol" d = Some (JStr s) -> brpc_channel_protocol l = JStr s) /\
  (lookup "brpc_channel_protocol" d = None -> brpc_channel_protocol l = get "protocol" d JNull) /\
  (forall s, s <> "" -> lookup "brpc_channel_connection_type" d = Some (JStr s) -> brpc_channel_connection_type l = JStr s) /\
  (lookup "brpc_channel_connection_type" d = None -> brpc_channel_connection_type l = get "connection_type" d JNull).
Proof.
  intros d l. subst l. unfold link_from_dict; simpl. repeat split; auto;
    unfold get, py_or; intros; try rewrite H0; try rewrite H; simpl; auto;
    apply String.eqb_neq in H; rewrite H; reflexivity.
Qed.
Print Assumptions C103_link_options.

(** Bad flags and bad sections are refused. *)
Theorem C103_refuses : forall d,
  (forall k, In k ["enable_pphlo_profile"; "enable_hal_profile"; "enable_pphlo_trace"; "enable_action_trace"] ->
     lookup "runtime_config" d = None -> parse_bool (get k d (JBool false)) = None ->
     config_from_dict d = None) /\
  (forall v, lookup "runtime_config" d = Some v -> v <> JNull -> (forall o, v <> JObj o) ->
     config_from_dict d = None) /\
  (forall v, lookup "link_desc" d = Some v -> truthy v = true -> (forall o, v <> JObj o) ->
     config_from_dict d = None).
Proof.
  intros d. repeat split.
  - intros k Hk Hr Hp. unfold config_from_dict. unfold get at 1. rewrite Hr.
    assert (G : forall j v, get j [] v = v) by reflexivity. rewrite !G.
    simpl in Hk. destruct Hk as [<-|[<-|[<-|[<-|[]]]]]; rewrite Hp; auto;
      repeat match goal with |- context [match parse_bool ?x with _ => _ end] => destruct (parse_bool x); auto end.
  - intros v Hv Hn Ho. unfold config_from_dict. unfold get at 1. rewrite Hv.
    destruct v; auto; [contradiction Hn; reflexivity | contradiction (Ho kvs eq_refl)].
  - intros v Hv Ht Ho. unfold config_from_dict.
    destruct (match get "runtime_config" d (JObj []) with JNull => Some [] | JObj r => Some r | _ => None end); auto.
    repeat match goal with |- context [match parse_bool ?x with _ => _ end] => destruct (parse_bool x); auto end.
    replace (get "link_desc" d JNull) with v by (unfold get; rewrite Hv; reflexivity).
    rewrite Ht. destruct v; auto. contradiction (Ho kvs eq_refl).
Qed.
Print Assumptions C103_refuses.

Example C103_case :
  config_from_dict [("runtime_config", JObj [("protocol", JStr "ABY3"); ("enable_hal_profile", JStr " True ")]);
                    ("protocol", JStr "SEMI2K"); ("field", JStr "FM64");
                    ("link_desc", JObj [("protocol", JStr "h2"); ("recv_timeout_ms", JInt 7)])]
  = Some (SC (JStr "ABY3") (JStr "FM64") (JInt 18) false true false false
            (Some (LD (JInt 7) JNull JNull (JStr "h2") JNull JNull JNull))) /\
  config_from_dict [("enable_hal_profile", JStr "yes")] = None.
Proof. split; reflexivity. Qed.
