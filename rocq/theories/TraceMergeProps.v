(** C197, C198: merged execution traces. *)
From Coq Require Import String Ascii List ZArith Bool Arith Lia.
From Verif Require Import SerdeModel CtxModel TraceMergeModel TraceMergeSpec TraceMergeProofs.
Import ListNotations.
Local Open Scope string_scope.
Local Open Scope list_scope.

(** ** C197 *)

(** Merging proper trace files keeps every event of every file exactly once, in the order of the
    files and of the events in them; each is attributed to the rank its file's name gives, and is
    otherwise unchanged. *)
Theorem C197_merge_keeps_events :
  forall (float_pid : Z -> Z -> Z) (files : list (string * option json)) (contents : list (list json)),
  files <> [] -> Forall2 (fun f es => holds_events (snd f) es /\ Forall proper_event es) files contents ->
  exists outs : list (list json),
    merged (trace_merge float_pid files) (concat outs) /\ length outs = length files /\
    forall i name data es, nth_error files i = Some (name, data) -> nth_error contents i = Some es ->
      exists out, nth_error outs i = Some out /\ Forall2 (attributed (rank_of name)) es out.
Proof.
  intros fp files contents Hne H. exists (map (merge_file fp) files). split; [|split].
  - unfold merged, trace_merge. destruct files as [|f files]; [congruence|]. eexists. split; [reflexivity|]. cbn [field]. rewrite flat_map_concat_map. reflexivity.
  - apply map_length.
  - clear Hne. intros i name data es Hf Hc. revert i Hf Hc. induction H as [|f c files contents [Hh Hp] H IH]; intros [|i] Hf Hc; try discriminate Hf; cbn in Hf, Hc.
    + injection Hf as ->. injection Hc as ->. eexists. split; [reflexivity|]. rewrite (merge_file_holds fp name data es Hh). apply merge_events_proper, Hp.
    + exact (IH i Hf Hc).
Qed.
Print Assumptions C197_merge_keeps_events.

(** The rank is read off the name: ..._rank_<digits>.json and nothing else; for the files that
    workers with a rank save it is that rank, whatever the job is called. *)
Theorem C197_rank_of_names :
  (forall fname n, rank_of fname = Some n <-> names_rank fname n) /\
  (forall job r, rank_of (trace_name job (Some r)) = Some r).
Proof. split; [exact rank_of_spec|]. intros job r. apply rank_of_spec, show_names. Qed.
Print Assumptions C197_rank_of_names.

(** Processes of different ranks (or of a file without rank) stay apart in the merged trace;
    processes of the same rank stay apart unless their numbers agree modulo 10000. *)
Theorem C197_processes :
  forall (rank1 rank2 : option nat) (e1 e2 e1' e2' : json) (p1 p2 : Z),
  field "pid" e1 = Some (JInt p1) -> field "pid" e2 = Some (JInt p2) ->
  attributed rank1 e1 e1' -> attributed rank2 e2 e2' ->
  (field "pid" e1' = field "pid" e2' <-> rank1 = rank2 /\ (p1 mod 10000 = p2 mod 10000)%Z).
Proof.
  intros r1 r2 e1 e2 e1' e2' p1 p2 H1 H2 (_ & A1 & _) (_ & A2 & _). rewrite (A1 _ H1), (A2 _ H2). unfold relocated_pid.
  pose proof (Z.mod_pos_bound p1 10000 eq_refl). pose proof (Z.mod_pos_bound p2 10000 eq_refl). split.
  - intros E. injection E as E. destruct r1 as [r1|], r2 as [r2|].
    + assert (r1 = r2) by lia. subst. split; [reflexivity|lia].
    + exfalso. lia.
    + exfalso. lia.
    + split; [reflexivity|lia].
  - intros [-> ->]. reflexivity.
Qed.
Print Assumptions C197_processes.

(** An event that cannot be processed (args null, a pid that is no number, not an object ...) costs
    the rest of its own file only; an unreadable file costs nothing else. *)
Theorem C197_damage_is_local :
  forall (float_pid : Z -> Z -> Z) (before after : list (string * option json)) (name : string) (good bad_and_rest : list json),
  Forall proper_event good -> (forall e rest, bad_and_rest = e :: rest -> renumber float_pid (rank_of name) e = None) ->
  let file es := (name, Some (JObj [("traceEvents", JArr es)])) in
  trace_merge float_pid (before ++ file (good ++ bad_and_rest) :: after) = trace_merge float_pid (before ++ file good :: after) /\
  (forall files, files <> [] -> trace_merge float_pid (before ++ (name, None) :: files ++ after) = trace_merge float_pid (before ++ files ++ after)).
Proof.
  intros fp before after name good bad Hg Hb file.
  assert (N : forall f, before ++ f :: after <> []) by (intros f; destruct before; discriminate).
  assert (M : forall fs, fs <> [] -> trace_merge fp fs = Some (JObj [("traceEvents", JArr (flat_map (merge_file fp) fs))])) by (intros [|f fs]; [congruence|reflexivity]).
  split.
  - rewrite !M by apply N. do 5 f_equal. rewrite !flat_map_app. cbn [flat_map]. f_equal. f_equal.
    unfold file. rewrite (merge_file_holds fp name (Some (JObj [("traceEvents", JArr good)])) good) by (eexists; split; reflexivity).
    rewrite (merge_file_holds fp name (Some (JObj [("traceEvents", JArr (good ++ bad))])) (good ++ bad)) by (eexists; split; reflexivity).
    rewrite merge_events_app by exact Hg. rewrite <- (app_nil_r (merge_events fp (rank_of name) good)) at 2. f_equal.
    destruct bad as [|e rest]; [reflexivity|]. cbn. rewrite (Hb e rest eq_refl). reflexivity.
  - intros fs Hfs. rewrite !M by (destruct before, fs; cbn; congruence). do 5 f_equal. rewrite !flat_map_app. cbn [flat_map]. rewrite flat_map_app. reflexivity.
Qed.
Print Assumptions C197_damage_is_local.
Definition ev (name : string) (pid : Z) : json := JObj [("name", JStr name); ("pid", JInt pid); ("args", JObj [("opcode", JStr "x")])].
Example C197_example :
  trace_merge (fun _ f => f)
    [("out/trace_j1_rank_1.json", Some (JObj [("traceEvents", JArr [ev "a" 123456; JObj [("pid", JInt 7)]])]));
     ("trace_j1_rank_x.json", Some (JObj [("traceEvents", JArr [ev "b" 123456; JNull; ev "c" 1])])); ("t.json", None)] =
  Some (JObj [("traceEvents", JArr
    [JObj [("name", JStr "a"); ("pid", JInt 23456); ("args", JObj [("opcode", JStr "x"); ("rank", JInt 1)])];
     JObj [("pid", JInt 20007); ("args", JObj [("rank", JInt 1)])];
     JObj [("name", JStr "b"); ("pid", JInt 3456); ("args", JObj [("opcode", JStr "x")])]])]) /\
  proper_event (ev "a" 123456) /\ rank_of "trace_j1_rank_12.json" = Some 12%nat.
Proof.
  split; [reflexivity|]. split; [|reflexivity]. split; [eexists; reflexivity|]. split; [eexists; reflexivity|]. right. eexists. reflexivity.
Qed.

(** ** C198 (refuted): in the merged trace every event is attributed to the party that executed it, once. *)

Lemma saved h job rank : (100 <= length (logged h))%nat ->
  sfind (trace_name job rank) (files (run (h ++ [Save job rank]))) = Some (JObj [("traceEvents", JArr (logged h))]).
Proof.
  intros H. unfold run. rewrite fold_left_app. cbn [fold_left act]. fold (run h). rewrite length_logged.
  rewrite (proj2 (Nat.ltb_ge _ _) H). cbn [files]. rewrite sfind_sput_same. unfold trace_file, run. rewrite events_run. reflexivity.
Qed.
(** The simulated parties share one tracer.  Whatever was logged before party r saves, by whichever
    party and for whichever job, is in r's file and is attributed to r. *)
Theorem C198_every_party_claims_all_refuted :
  forall (float_pid : Z -> Z -> Z) (history : list action) (job : string) (r executed_by : nat) (e : json),
  (100 <= length (logged history))%nat -> Forall proper_event (logged history) -> In (Log executed_by e) history ->
  let name := trace_name job (Some r) in
  exists data out e', sfind name (files (run (history ++ [Save job (Some r)]))) = Some data /\
    merged (trace_merge float_pid [(name, Some data)]) out /\ In e' out /\ attributed (Some r) e e'.
Proof.
  intros fp h job r by_ e HL HP HI name. exists (JObj [("traceEvents", JArr (logged h))]), (merge_events fp (Some r) (logged h)).
  assert (Hin : In e (logged h)) by (unfold logged; apply in_flat_map; eexists; split; [exact HI|left; reflexivity]).
  destruct (merge_events_proper fp (Some r) (logged h) HP) as [F _].
  assert (X : exists e', In e' (merge_events fp (Some r) (logged h)) /\ attributed (Some r) e e').
  { clear -F Hin. revert F Hin. generalize (merge_events fp (Some r) (logged h)) as out. generalize (logged h) as es. intros es out F.
    induction F as [|x y es out A F IH]; intros Hin; [destruct Hin|]. destruct Hin as [->|Hin]; [exists y; split; [left; reflexivity|exact A]|].
    destruct (IH Hin) as (e' & I & A'). exists e'. split; [right; exact I|exact A']. }
  destruct X as (e' & I & A). exists e'. split; [apply saved, HL|]. split; [|split; [exact I|exact A]].
  eexists. split; [reflexivity|]. cbn [field sfind String.eqb Ascii.eqb Bool.eqb]. rewrite flat_map_concat_map. cbn [map concat]. rewrite app_nil_r.
  rewrite (merge_file_holds fp _ _ (logged h)) by (eexists; split; reflexivity).
  unfold name. rewrite (proj2 (rank_of_spec _ _) (show_names job r)). reflexivity.
Qed.
Print Assumptions C198_every_party_claims_all_refuted.

(** The tracer is never emptied, so the file of a later job repeats the events of the earlier jobs:
    merging the files of two jobs of one party shows them twice. *)
Theorem C198_jobs_repeat_refuted :
  forall (h1 h2 : list action) (job1 job2 : string) (rank : option nat),
  (100 <= length (logged h1))%nat -> trace_name job1 rank <> trace_name job2 rank ->
  (forall j r, In (Save j r) h2 -> trace_name j r <> trace_name job1 rank) ->
  let disk := files (run (h1 ++ [Save job1 rank] ++ h2 ++ [Save job2 rank])) in
  sfind (trace_name job1 rank) disk = Some (JObj [("traceEvents", JArr (logged h1))]) /\
  sfind (trace_name job2 rank) disk = Some (JObj [("traceEvents", JArr (logged h1 ++ logged h2))]).
Proof.
  intros h1 h2 job1 job2 rank HL Hn Hs disk.
  assert (E2 : logged (h1 ++ [Save job1 rank] ++ h2) = logged h1 ++ logged h2) by (unfold logged; rewrite !flat_map_app; reflexivity).
  assert (HL2 : (100 <= length (logged (h1 ++ [Save job1 rank] ++ h2)))%nat) by (rewrite E2, app_length; lia).
  assert (Ed : disk = files (run ((h1 ++ [Save job1 rank] ++ h2) ++ [Save job2 rank]))) by (unfold disk; rewrite <- !app_assoc; reflexivity).
  split.
  - rewrite Ed. unfold run. rewrite fold_left_app. cbn [fold_left act]. fold (run (h1 ++ [Save job1 rank] ++ h2)). rewrite length_logged.
    rewrite (proj2 (Nat.ltb_ge _ _) HL2). cbn [files]. rewrite sfind_sput_other by exact Hn.
    unfold run. rewrite app_assoc, fold_left_app. fold (run (h1 ++ [Save job1 rank])).
    pose proof (saved h1 job1 rank HL) as S1. revert S1. generalize (run (h1 ++ [Save job1 rank])) as t. clear -Hs.
    induction h2 as [|a h2 IH]; intros t S1; cbn [fold_left]; [exact S1|]. apply IH; [intros j r Hi; apply Hs; right; exact Hi|].
    destruct a as [b e|j r]; cbn [act files]; [exact S1|]. destruct (_ <? _)%nat; [exact S1|]. cbn [files].
    rewrite sfind_sput_other; [exact S1|]. intros X. apply (Hs j r); [left; reflexivity|]. symmetry. exact X.
  - rewrite Ed, saved by exact HL2. rewrite E2. reflexivity.
Qed.
Print Assumptions C198_jobs_repeat_refuted.

(** HTTP workers save files without a rank: their events carry no rank after the merge, and two
    workers whose process numbers agree modulo 10000 are one process. *)
Theorem C198_http_workers_collide_refuted :
  forall (job : string) (e1 e2 e1' e2' : json) (p1 p2 : Z),
  rank_of (trace_name job None) = None ->
  field "pid" e1 = Some (JInt p1) -> field "pid" e2 = Some (JInt p2) -> (p1 mod 10000 = p2 mod 10000)%Z ->
  attributed (rank_of (trace_name job None)) e1 e1' -> attributed (rank_of (trace_name job None)) e2 e2' ->
  field "pid" e1' = field "pid" e2' /\ field "args" e1' = field "args" e1 /\ field "args" e2' = field "args" e2.
Proof.
  intros job e1 e2 e1' e2' p1 p2 Hr H1 H2 Hm A1 A2. split; [apply (C197_processes _ _ _ _ _ _ _ _ H1 H2 A1 A2); auto|].
  rewrite Hr in A1, A2. destruct A1 as (_ & _ & A1), A2 as (_ & _ & A2). auto.
Qed.
Print Assumptions C198_http_workers_collide_refuted.

(** A merged trace that is merged again (the output matches the pattern on the next run) loses the
    separation of the ranks: the same process number of every rank becomes one process. *)
Theorem C198_merged_again_refuted :
  forall (r1 r2 : nat) (e1 e2 e1' e2' e1'' e2'' : json) (p : Z),
  field "pid" e1 = Some (JInt p) -> field "pid" e2 = Some (JInt p) ->
  attributed (Some r1) e1 e1' -> attributed (Some r2) e2 e2' -> attributed None e1' e1'' -> attributed None e2' e2'' ->
  field "pid" e1'' = field "pid" e2''.
Proof.
  intros r1 r2 e1 e2 e1' e2' e1'' e2'' p H1 H2 (_ & A1 & _) (_ & A2 & _) (_ & B1 & _) (_ & B2 & _).
  rewrite (B1 _ (A1 _ H1)), (B2 _ (A2 _ H2)). unfold relocated_pid. do 2 f_equal.
  rewrite !Z.add_0_l. rewrite !(Z.add_comm (_ * 10000)). rewrite !Z.mod_add by discriminate. reflexivity.
Qed.
Print Assumptions C198_merged_again_refuted.
Definition busy : list action := map (fun i => Log (i mod 2) (ev "op" 4242)) (seq 0 100).
Example C198_example :
  (100 <= length (logged busy))%nat /\ Forall proper_event (logged busy) /\ In (Log 1 (ev "op" 4242)) busy /\
  rank_of (trace_name "job-7" None) = None /\ trace_name "a" (Some 0%nat) <> trace_name "b" (Some 0%nat).
Proof.
  split; [vm_compute; lia|]. split.
  - apply Forall_forall. intros e He. unfold logged, busy in He. apply in_flat_map in He. destruct He as (a & Ha & He).
    apply in_map_iff in Ha. destruct Ha as (i & <- & _). destruct He as [<-|[]].
    split; [eexists; reflexivity|]. split; [eexists; reflexivity|]. right. eexists. reflexivity.
  - split; [apply in_map_iff; exists 1%nat; split; [reflexivity|apply in_seq; lia]|]. split; [reflexivity|]. intros H. discriminate H.
Qed.
