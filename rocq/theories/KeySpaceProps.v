(** C216: requests and SPU links never use each other's message keys. *)
From Coq Require Import List String Ascii Lia.
From Verif Require Import CtxModel CtxProofs KeySpaceModel KeySpaceSpec.
Import ListNotations.
Local Open Scope string_scope.

(** ids of a run: the job id, or the job id followed by a dot *)
Definition under (job id : string) : Prop := id = job \/ exists s, id = job +++ "." +++ s.
Lemma under_child job id n s : under job id -> under job (child_id id n s).
Proof.
  intros [->|(t & ->)]; right; unfold child_id; destruct s as [s|].
  - eexists. reflexivity.
  - eexists. reflexivity.
  - exists (t +++ "." +++ show n +++ "." +++ s). rewrite !app_assoc_s. reflexivity.
  - exists (t +++ "." +++ show n). rewrite !app_assoc_s. reflexivity.
Qed.
Lemma under_key job id q : under job id -> exists c s, msg_key id q = job +++ String c s /\ (c = "."%char \/ c = ":"%char).
Proof.
  unfold msg_key. intros [->|(t & ->)].
  - exists ":"%char, (show q). split; [reflexivity|auto].
  - exists "."%char, (t +++ ":" +++ show q). split; [rewrite !app_assoc_s; reflexivity|auto].
Qed.
Lemma keys_under job ops k : In k (job_keys job ops) -> exists c s, k = job +++ String c s /\ (c = "."%char \/ c = ":"%char).
Proof.
  unfold job_keys, crun.
  assert (G : forall st, (forall c, In c (fst st) -> under job (cid c)) -> (forall u, In u (snd st) -> exists c s, snd u = job +++ String c s /\ (c = "."%char \/ c = ":"%char)) ->
    forall u, In u (snd (fold_left cexec ops st)) -> exists c s, snd u = job +++ String c s /\ (c = "."%char \/ c = ":"%char)).
  { induction ops as [|o ops IH]; intros [h log] Hh Hl u Hu; [apply Hl, Hu|]. cbn [fold_left] in Hu. revert u Hu. apply IH; cbn [fst snd] in *.
    - assert (U : forall l i x, (forall c, In c l -> under job (cid c)) -> under job (cid x) -> forall c, In c (upd l i x) -> under job (cid c)).
      { induction l as [|a l IHl]; intros [|i] x Hl' Hx c Hc; cbn in Hc; [contradiction|contradiction| |]; destruct Hc as [<-|Hc]; auto; [apply Hl'; now right|apply Hl'; now left|]. eapply IHl; [|exact Hx|exact Hc]. intros; apply Hl'; now right. }
      intros c Hc. destruct o as [i s|i p]; cbn [cexec] in Hc; destruct (nth_error h i) as [x|] eqn:E; cbn [fst] in Hc; auto; apply nth_error_In in E.
      + apply in_app_iff in Hc. destruct Hc as [Hc|[<-|[]]]; [|apply under_child, Hh, E]. eapply U; [exact Hh| |exact Hc]. exact (Hh x E).
      + eapply U; [exact Hh| |exact Hc]. exact (Hh x E).
    - intros u Hu. destruct o as [i s|i p]; cbn [cexec] in Hu; destruct (nth_error h i) as [x|] eqn:E; cbn [snd] in Hu; auto. apply in_app_iff in Hu. destruct Hu as [Hu|[<-|[]]]; [auto|].
      cbn [snd]. apply under_key, Hh. apply nth_error_In in E. exact E. }
  intros Hk. apply in_map_iff in Hk. destruct Hk as (u & <- & Hu). eapply G; [| |exact Hu]; cbn [fst snd]; [intros c [<-|[]]; left; reflexivity|intros u' []].
Qed.
Lemma split_point a : forall b c d s t, a +++ String c s = b +++ String d t -> a = b \/ (exists r, a = b +++ String d r) \/ (exists r, b = a +++ String c r).
Proof.
  induction a as [|x a IH]; intros [|y b] c d s t E; cbn in E.
  - left. reflexivity.
  - right. right. injection E as -> E. exists b. reflexivity.
  - right. left. injection E as -> E. exists a. reflexivity.
  - injection E as <- E. destruct (IH _ _ _ _ _ E) as [->|[(r & ->)|(r & ->)]]; [left; reflexivity|right; left; exists r; reflexivity|right; right; exists r; reflexivity].
Qed.
Lemma apart_keys a b c d s t : apart a b -> (c = "."%char \/ c = ":"%char) -> (d = "."%char \/ d = ":"%char) -> a +++ String c s <> b +++ String d t.
Proof.
  intros (N & N1 & N2) Hc Hd E. destruct (split_point _ _ _ _ _ _ E) as [->|[(r & ->)|(r & ->)]]; [congruence|apply N1|apply N2]; exists r;
    [destruct Hd as [->| ->]|destruct Hc as [->| ->]]; auto.
Qed.

(** Two requests whose job ids are apart never use a common key, whatever contexts they spawn (with
    whatever suffixes) and whatever they exchange. *)
Theorem C216_jobs_apart_partial : forall (job job' : string) (ops ops' : list cop) (k : string),
  apart job job' -> In k (job_keys job ops) -> ~ In k (job_keys job' ops').
Proof.
  intros job job' ops ops' k A H H'. destruct (keys_under _ _ _ H) as (c & s & -> & Hc). destruct (keys_under _ _ _ H') as (d & t & E & Hd). exact (apart_keys _ _ _ _ _ _ A Hc Hd E).
Qed.
Print Assumptions C216_jobs_apart_partial.

(** No request whose job id is apart from "spu" ever uses a key of an SPU link, whatever the tag. *)
Theorem C216_spu_apart_partial : forall (job : string) (ops : list cop) (tag : string),
  apart job "spu" -> ~ In (spu_key tag) (job_keys job ops).
Proof.
  intros job ops tag A H. destruct (keys_under _ _ _ H) as (c & s & E & Hc). symmetry in E. refine (apart_keys job "spu" c ":" s tag A Hc (or_intror eq_refl) _). exact E.
Qed.
Print Assumptions C216_spu_apart_partial.

(** Ids without dots and colons are apart as soon as they differ. *)
Theorem C216_plain_ids_apart : forall a b : string, plain a -> plain b -> a <> b -> apart a b.
Proof.
  assert (I : forall a c r, In c (list_ascii_of_string (a +++ String c r))) by (induction a; cbn; auto).
  intros a b (A1 & A2) (B1 & B2) N. split; [exact N|]. split; intros (s & [->| ->]); [apply A1|apply A2|apply B1|apply B2]; apply I.
Qed.
Print Assumptions C216_plain_ids_apart.

(** Otherwise they can meet: a request named like a context spawned by another one uses that context's
    keys, message by message; *)
Theorem C216_spawned_name_refuted : forall (job : string) (suffix : option string) (peer : nat),
  exists job' k, job' <> job /\ In k (job_keys job [OSpawn 0 suffix; OMsg 1 peer]) /\ In k (job_keys job' [OMsg 0 peer]).
Proof.
  intros job suffix peer. exists (child_id job 0 suffix), (msg_key (child_id job 0 suffix) 0). split; [|split; left; reflexivity].
  intros E. apply (f_equal String.length) in E. assert (L : forall a b, String.length (a +++ b) = String.length a + String.length b) by (induction a; cbn; intros; auto).
  unfold child_id in E. destruct suffix; rewrite !L in E; cbn [String.length] in E; lia.
Qed.
Print Assumptions C216_spawned_name_refuted.
(** and a request whose id starts with "spu:" uses keys of SPU links. *)
Theorem C216_spu_name_refuted : forall (rest : string) (peer : nat),
  exists tag, In (spu_key tag) (job_keys ("spu:" +++ rest) [OMsg 0 peer]).
Proof. intros rest peer. exists (rest +++ ":" +++ show 0). left. unfold spu_key, msg_key. cbn [cid new_ctx cseq]. rewrite !app_assoc_s. reflexivity. Qed.
Print Assumptions C216_spu_name_refuted.

Example C216_ex : apart "anonymous" "spu" /\ apart "job-1" "job-10" /\
  job_keys "job-1" [OMsg 0 2; OSpawn 0 (Some "g.3"); OMsg 1 2; OMsg 0 2] = ["job-1:0"; "job-1.0.g.3:0"; "job-1:1"] /\
  job_keys "job-1.0.g.3" [OMsg 0 2] = ["job-1.0.g.3:0"] /\ spu_key "root:0->1" = "spu:root:0->1".
Proof.
  split; [|split; [|split; [reflexivity|split; reflexivity]]];
    (apply C216_plain_ids_apart; [split; cbn; intuition discriminate|split; cbn; intuition discriminate|discriminate]).
Qed.
