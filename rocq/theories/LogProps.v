(** C188-C191: logging. *)
From Coq Require Import String List Bool Arith Lia.
From Verif Require Import LogModel LogSpec.
Import ListNotations.

Lemma handle_app_apps l hs k :
  handle_app l k hs = map DApp (filter (fun i => nth (i - k) hs 0 <=? l) (seq k (List.length hs))).
Proof.
  revert k. induction hs as [|lv r IH]; intros k; [reflexivity|].
  cbn [handle_app List.length seq filter]. rewrite Nat.sub_diag.
  change (nth 0 (lv :: r) 0) with lv. rewrite (IH (S k)).
  assert (E : filter (fun i => nth (i - k) (lv :: r) 0 <=? l) (seq (S k) (List.length r)) =
              filter (fun i => nth (i - S k) r 0 <=? l) (seq (S k) (List.length r))).
  { apply filter_ext_in. intros i Hi. apply in_seq in Hi.
    replace (i - k) with (S (i - S k)) by lia. reflexivity. }
  rewrite E. destruct (lv <=? l); reflexivity.
Qed.

Lemma handle_app_spec ap l : handle_app l 0 (app_handlers ap) = apps ap l.
Proof.
  rewrite handle_app_apps. unfold apps. f_equal. apply filter_ext. intros i. now rewrite Nat.sub_0_r.
Qed.

(** *** C188 *)

(** Whatever calls were made before (successful or not), after disable_logging no record is
    written anywhere; the same holds from the import on until the first setup_logging. *)
Theorem C188_disabled_is_silent (can_open : string -> bool) (calls : list call) (g : logger) (ap : app) (l : nat) :
  emit ap (run can_open (calls ++ [Disable]) g) l = [] /\ emit ap import_logger l = [].
Proof.
  split.
  - unfold run. rewrite fold_left_app. cbn [fold_left step]. unfold emit, disable. cbn.
    destruct (_ <=? l); reflexivity.
  - unfold emit, import_logger. cbn. destruct (_ <=? l); reflexivity.
Qed.
Print Assumptions C188_disabled_is_silent.

Example C188_example :
  let a := mk_args (Some INFO) (Some "app.log"%string) StNone false true in
  let ap := mk_app WARNING [0; ERROR] in
  emit ap (run (fun _ => true) [Setup a] import_logger) ERROR = [DStream stderr; DFile "app.log"; DApp 0; DApp 1] /\
  emit ap (run (fun _ => true) [Setup a; Setup a; Disable] import_logger) ERROR = [].
Proof. split; reflexivity. Qed.

(** *** C189: after any setup_logging that succeeds, a record goes once to every destination
    asked for and nowhere else. *)

Theorem C189_every_record_once_refuted :
  ~ (forall can_open calls a lv g' ap l,
       a_level a = Some lv -> documented lv ->
       setup can_open a (run can_open calls import_logger) = (true, g') ->
       emit ap g' l = expected ap a lv l).
Proof.
  intros H.
  set (a := mk_args (Some INFO) None StNone false false).
  specialize (H (fun _ => true) [Setup a] a INFO _ (mk_app WARNING []) ERROR eq_refl (or_intror (or_introl eq_refl)) eq_refl).
  vm_compute in H. discriminate H.
Qed.
Print Assumptions C189_every_record_once_refuted.

(** Calling setup_logging twice writes every record twice, n times n times. *)
Theorem C189_repeated_calls_multiply_refuted can_open lv n :
  documented lv ->
  let a := mk_args (Some lv) None StNone false false in
  forall ap l, lv <= l ->
  emit ap (run can_open (repeat (Setup a) n) (disable import_logger)) l =
    if n =? 0 then [] else repeat (DStream stderr) n.
Proof.
  intros D a ap l Hl.
  assert (lv <> 0) as Hlv by (unfold documented, DEBUG, INFO, WARNING, ERROR, CRITICAL in D; cbn in D; lia).
  assert (G : forall n g, lg_propagate g = false -> lg_handlers g <> [] -> n <> 0 ->
     run can_open (repeat (Setup a) n) g = mk_logger lv (lg_handlers g ++ repeat (HStream stderr lv) n) false).
  { clear n. induction n as [|n IH]; intros g Hp Hh Hn; [congruence|].
    cbn [repeat run fold_left step]. fold (run can_open (repeat (Setup a) n)).
    change (snd (setup can_open a g)) with (mk_logger lv (lg_handlers g ++ [HStream stderr lv]) false).
    destruct n as [|n]; [reflexivity|].
    change (fold_left (step can_open) ?x ?y) with (run can_open x y).
    rewrite IH; [|reflexivity| |discriminate]; cbn [lg_handlers].
    - now rewrite <- app_assoc.
    - destruct (lg_handlers g); discriminate. }
  destruct n as [|n].
  - cbn. unfold emit. cbn. now destruct (_ <=? l).
  - rewrite G; [|reflexivity|discriminate|discriminate]. unfold emit.
    cbn [lg_level lg_handlers lg_propagate disable].
    rewrite (proj2 (Nat.eqb_neq lv 0) Hlv), (proj2 (Nat.leb_le lv l) Hl).
    change (S n =? 0) with false. cbn [List.app handle_app flat_map handle].
    assert (E : forall m, flat_map (handle l) (repeat (HStream stderr lv) m) = repeat (DStream stderr) m).
    { induction m as [|m IHm]; [reflexivity|]. cbn [repeat flat_map handle].
      rewrite (proj2 (Nat.leb_le lv l) Hl), IHm. reflexivity. }
    rewrite app_nil_r. apply E.
Qed.
Print Assumptions C189_repeated_calls_multiply_refuted.

(** setup_logging(stream=False, force=True), which asks for no output at all, lets warnings
    go to sys.stderr. *)
Theorem C189_stream_false_refuted can_open calls lv l ap :
  documented lv -> lv <= l -> WARNING <= l ->
  let a := mk_args (Some lv) None StFalse true false in
  emit ap (run can_open (calls ++ [Setup a]) import_logger) l = [DStream stderr] /\ expected ap a lv l = [].
Proof.
  intros D Hl Hw a. unfold run. rewrite fold_left_app. cbn [fold_left step].
  assert (lv <> 0) as Hlv by (unfold documented, DEBUG, INFO, WARNING, ERROR, CRITICAL in D; cbn in D; lia).
  split.
  - unfold setup, a, emit. cbn [a_level a_propagate a_force a_filename a_stream truthy andb negb snd lg_level lg_handlers lg_propagate].
    rewrite (proj2 (Nat.eqb_neq lv 0) Hlv), (proj2 (Nat.leb_le lv l) Hl), (proj2 (Nat.leb_le WARNING l) Hw). reflexivity.
  - unfold expected. now rewrite (proj2 (Nat.leb_le lv l) Hl).
Qed.
Print Assumptions C189_stream_false_refuted.

(** A setup_logging that raises because the file cannot be opened has already removed the
    old handlers. *)
Theorem C189_failed_call_changes_refuted :
  exists can_open a g ap l,
    fst (setup can_open a g) = false /\ emit ap g l <> [] /\ emit ap (snd (setup can_open a g)) l <> emit ap g l.
Proof.
  exists (fun _ => false), (mk_args (Some ERROR) (Some "x"%string) StFalse true false),
    (run (fun _ => true) [Setup (mk_args (Some INFO) (Some "app.log"%string) StFalse true false)] import_logger),
    (mk_app WARNING []), INFO. repeat split; discriminate.
Qed.
Print Assumptions C189_failed_call_changes_refuted.

(** *** C190: the part that holds: with force, or as the first call after the import or after
    disable_logging. *)
Theorem C190_fresh_setup_delivers_once can_open (calls : list call) (g g' : logger) (a : args) (lv : nat) (ap : app) (l : nat) :
  a_level a = Some lv -> documented lv ->
  a_force a = true \/ g = import_logger \/ g = run can_open (calls ++ [Disable]) import_logger ->
  asked a <> [] \/ (a_propagate a = true /\ app_handlers ap <> []) ->
  setup can_open a g = (true, g') ->
  emit ap g' l = expected ap a lv l.
Proof.
  intros El D Hg Hask Hs.
  assert (lv <> 0) as Hlv by (unfold documented, DEBUG, INFO, WARNING, ERROR, CRITICAL in D; cbn in D; lia).
  assert (Hh : a_force a = true \/ lg_handlers g = [HNull]).
  { destruct Hg as [Hf|[->| ->]]; [left; exact Hf|right; reflexivity|right].
    unfold run. rewrite fold_left_app. reflexivity. }
  clear Hg. unfold expected. rewrite <- handle_app_spec.
  destruct a as [al af ast afo apr]. cbn [a_level a_force a_stream a_filename a_propagate] in *. subst al.
  unfold setup in Hs. cbn [a_level a_force a_stream a_filename a_propagate] in Hs.
  unfold asked in *. cbn [a_stream a_filename a_propagate] in *.
  assert (E : forall hs p, emit ap (mk_logger lv hs p) l =
     if lv <=? l then match hs, (if p then app_handlers ap else []) with
       | [], [] => if WARNING <=? l then [DStream stderr] else []
       | hs, up => flat_map (handle l) hs ++ handle_app l 0 up end else []).
  { intros. unfold emit. cbn [lg_level lg_handlers lg_propagate]. rewrite (proj2 (Nat.eqb_neq lv 0) Hlv). destruct (lv <=? l), hs, p, (app_handlers ap); reflexivity. }
  destruct (lv <=? l) eqn:Ell.
  2: { assert (G : exists hs p, g' = mk_logger lv hs p).
       { destruct apr, (truthy af), ast; repeat match type of Hs with context [if ?c then (_, _) else _] => destruct c end;
         inversion Hs; eauto. }
       destruct G as [hs [p ->]]. rewrite E. reflexivity. }
  destruct Hh as [->|Hn]; [|rewrite Hn in Hs; destruct afo];
  destruct apr; cbn [andb negb is_null] in Hs;
    destruct (truthy af) as [f|], ast; cbn [List.app] in Hs, Hask |- *;
    repeat match type of Hs with context [if ?c then (_, _) else _] => destruct c end;
    inversion Hs; subst g'; clear Hs; rewrite E; cbn [flat_map handle List.app]; rewrite ?Ell; cbn [List.app handle_app];
    try reflexivity;
    try (destruct (app_handlers ap) as [|h r] eqn:Ea; [|reflexivity]);
    try reflexivity; try (exfalso; destruct Hask as [H|[H1 H2]]; congruence).
Qed.
Print Assumptions C190_fresh_setup_delivers_once.

(** With propagate alone, a fresh set-up uses the application's handlers and nothing else. *)
Example C190_example :
  let a := mk_args (Some INFO) None StNone false true in
  let ap := mk_app WARNING [DEBUG; ERROR] in
  setup (fun _ => true) a import_logger = (true, mk_logger INFO [] true) /\
  emit ap (mk_logger INFO [] true) WARNING = [DApp 0] /\ expected ap a INFO WARNING = [DApp 0] /\
  let b := mk_args (Some WARNING) (Some "m.log"%string) (StGiven 7) true false in
  let g := run (fun _ => true) [Setup a; Setup a] import_logger in
  fst (setup (fun _ => true) b g) = true /\
  emit ap (snd (setup (fun _ => true) b g)) ERROR = [DStream 7; DFile "m.log"] /\
  emit ap (snd (setup (fun _ => true) b g)) INFO = [].
Proof. repeat split. Qed.

(** setup_logging raises exactly if the level is no level or a file asked for cannot be opened. *)
Theorem C190_setup_raises can_open (a : args) (g : logger) :
  fst (setup can_open a g) = false <-> (a_level a = None \/ file_fails can_open a).
Proof.
  unfold setup, file_fails. destruct (a_level a) as [lv|]; [|split; [left; reflexivity|reflexivity]].
  assert (H : forall f, a_filename a = Some f -> truthy (a_filename a) = (if String.eqb f "" then None else Some f)).
  { intros f ->. destruct f; reflexivity. }
  destruct (a_filename a) as [f|] eqn:Ef.
  - rewrite (H f eq_refl). destruct (String.eqb_spec f "") as [->|Hf].
    + destruct (a_propagate a), (a_stream a); cbn; split; try discriminate; intros [X|(f & X & Y & _)]; try discriminate; injection X as <-; exfalso; apply Y; reflexivity.
    + destruct (can_open f) eqn:C; destruct (a_propagate a), (a_stream a); cbn; split; try discriminate; try reflexivity; try (intros _; right; exists f; auto);
      intros [X|(f' & X & Y & Z)]; try discriminate; injection X as <-; congruence.
  - cbn [truthy]. destruct (a_propagate a), (a_stream a); cbn; split; try discriminate; intros [X|(f & X & _)]; discriminate.
Qed.
Print Assumptions C190_setup_raises.
(** Without force the handlers installed before the call stay installed (the placeholder of a fresh
    or disabled logger may go); with force none of them stays. *)
Theorem C190_handlers_kept can_open (a : args) (g : logger) :
  (a_force a = false -> lg_handlers g <> [HNull] -> exists added, lg_handlers (snd (setup can_open a g)) = (lg_handlers g ++ added)%list) /\
  (a_force a = true -> a_level a <> None ->
     lg_handlers (snd (setup can_open a g)) = lg_handlers (snd (setup can_open a (mk_logger (lg_level g) [] (lg_propagate g))))).
Proof.
  destruct a as [al af ast afo apr]. unfold setup. cbn [a_level a_force a_stream a_filename a_propagate]. split.
  - intros -> Hn. destruct al as [lv|]; [|exists []; cbn; rewrite app_nil_r; reflexivity].
    assert (F : (if apr && negb false then match lg_handlers g with [h] => is_null h | _ => false end else false) = false).
    { destruct apr; [|reflexivity]. cbn. destruct (lg_handlers g) as [|h [|]]; try reflexivity. destruct h; try reflexivity. congruence. }
    rewrite F. destruct apr, (truthy af) as [f|], ast; try destruct (can_open f); cbn [snd lg_handlers]; rewrite <- ?app_assoc;
      first [exists []; rewrite app_nil_r; reflexivity | eexists; reflexivity].
  - intros -> Hl. destruct al as [lv|]; [|congruence]. rewrite andb_false_r. cbn [lg_handlers]. destruct apr, (truthy af) as [f|], ast; try destruct (can_open f); reflexivity.
Qed.
Print Assumptions C190_handlers_kept.
Example C190_setup_raises_example :
  fst (setup (fun f => String.eqb f "a.log") (mk_args (Some INFO) (Some "a.log"%string) StFalse false false) import_logger) = true /\
  file_fails (fun f => String.eqb f "a.log") (mk_args (Some INFO) (Some "b.log"%string) StFalse false false).
Proof. split; [reflexivity|]. exists "b.log"%string. repeat split. discriminate. Qed.

(** *** C191: loggers are below "mplang". *)

Theorem C191_hierarchy_refuted : ~ (forall name, in_hierarchy (get_logger name)).
Proof.
  intros H. destruct (H "mplang_app"%string) as [E|[r E]]; discriminate E.
Qed.
Print Assumptions C191_hierarchy_refuted.

(** Exactly the names that begin with "mplang" without being in the hierarchy are left
    outside; every other name is put below "mplang", or is there already and kept. *)
Theorem C191_hierarchy_exact_partial (name : string) :
  (in_hierarchy name -> get_logger name = name) /\
  (String.prefix "mplang" name = false -> get_logger name = ("mplang." ++ name)%string) /\
  (in_hierarchy (get_logger name) <-> (in_hierarchy name \/ String.prefix "mplang" name = false)) /\
  get_logger (get_logger name) = get_logger name.
Proof.
  assert (P : forall n, in_hierarchy n -> String.prefix "mplang" n = true).
  { intros n [->|[r ->]]; reflexivity. }
  unfold get_logger. repeat split.
  - intros H. now rewrite (P _ H).
  - intros ->. reflexivity.
  - intros H. destruct (String.prefix "mplang" name) eqn:E; [left; exact H|now right].
  - intros [H|H]; [rewrite (P _ H); exact H|rewrite H; right; eauto].
  - destruct (String.prefix "mplang" name) eqn:E; [now rewrite E|reflexivity].
Qed.
Print Assumptions C191_hierarchy_exact_partial.

Example C191_example :
  get_logger "mplang.edsl.graph" = "mplang.edsl.graph"%string /\ get_logger "my.tool" = "mplang.my.tool"%string /\
  get_logger "mplangx" = "mplangx"%string.
Proof. repeat split. Qed.
