(** C194, C195: messages between HTTP workers. *)
From Coq Require Import String Ascii List Bool Arith NArith ZArith Lia.
From Coq Require Import DecimalString DecimalNat.
From Verif Require Import Base64Model CtxModel SerdeModel SerdeSpec BinModel JsonText SerdeProps HttpWireModel HttpWireSpec HttpWireProofs.
Import ListNotations.
Local Open Scope string_scope.
Local Open Scope list_scope.
Local Open Scope nat_scope.

(** *** C194.  A message arrives under exactly the key it was sent under iff the key has no
    meaning in a URL. *)
Theorem C194_key_arrives_iff : forall key, deliver_key key = Some key <-> no_url_meaning key.
Proof. exact deliver_same_iff. Qed.
Print Assumptions C194_key_arrives_iff.

(** Under such a key, in the binary and in the JSON mode, whatever the value: if the sender can
    encode it (see C20, C21), the receiver's mailbox gets the value (arrays and scalars in their
    canonical form), from the sender's rank, under the key; bytes arrive as the same bytes. *)
Theorem C194_message_arrives : forall (float_int : Z -> option Z) (itemsize : string -> option Z) (fprint : Z -> string) (fparse : string -> option Z)
    (gz : string -> string) (gunzip : string -> option string) (use_binary : bool) (rank : nat) (key : string) (x : pv) r,
  float_text fprint fparse -> (forall s, gunzip (gz s) = Some s) -> wf_pv float_int itemsize x -> text_pv x ->
  no_url_meaning key -> encode fprint gz use_binary rank x = Ok r ->
  transmit float_int itemsize fprint fparse gz gunzip use_binary rank key x = Some (rank, key, norm x).
Proof.
  intros float_int itemsize fprint fparse gz gunzip ub rank key x r Hf Hg Hw Ht Hk He.
  unfold transmit. rewrite He. rewrite (proj2 (deliver_same_iff key) Hk).
  assert (Pn : parse_int (show rank) = Some rank) by (unfold parse_int, show; rewrite NilEmpty.usu; cbn; now rewrite DecimalNat.Unsigned.of_to).
  unfold encode in He. destruct ub.
  - assert (G : forall c, dumps_binary (json_dumps fprint (compact true)) x = Ok c ->
      decode_request float_int itemsize fparse gunzip (Octets (show rank) "0" "binary-container" c) = Ok (rank, norm x)).
    { intros c Hc. cbn [decode_request]. rewrite Pn. change (String.eqb "0" "1") with false. change (String.eqb "binary-container" "binary-container") with true. cbv iota.
      rewrite (C21_binary_roundtrip float_int itemsize fprint fparse x c Hf Hw Ht Hc). reflexivity. }
    destruct x; try (destruct (dumps_binary _ _) as [c| | | |] eqn:Hc in He; [|discriminate He..]; cbn in He; injection He as <-; rewrite (G c Hc); reflexivity).
    injection He as <-. cbn [decode_request]. rewrite Pn. reflexivity.
  - assert (G : decode_request float_int itemsize fparse gunzip (Json (dumps_b64 fprint gz x) rank false) = Ok (rank, norm x)).
    { cbn [decode_request]. rewrite (proj2 (C20_dumps_loads float_int itemsize fprint fparse gz gunzip x Hf Hg Hw Ht)). reflexivity. }
    destruct x; try (injection He as <-; rewrite G; reflexivity).
    injection He as <-. cbn [decode_request]. rewrite b64_roundtrip. reflexivity.
Qed.
Print Assumptions C194_message_arrives.

(** Job ids (and suffixes of child contexts) made of letters, digits, dashes, underscores and
    dots, as uuids and digests are: every message of every history of communication contexts
    arrives under its own key. *)
Theorem C194_job_messages : forall root ops, simple root -> Forall suffix_ok ops ->
  Forall (fun u : use => deliver_key (snd u) = Some (snd u)) (snd (crun root ops)).
Proof.
  intros root ops Hr Ho. destruct (crun_simple root ops Hr Ho) as [_ H]. eapply Forall_impl; [|exact H].
  intros u (j & n & Hj & ->). apply deliver_same_iff, simple_key, Hj.
Qed.
Print Assumptions C194_job_messages.

Example C194_example :
  simple "0f8b-Job_1.x" /\
  map snd (snd (crun "0f8b-Job_1.x" [OMsg 0 1; OSpawn 0 (Some "deadbeef.3"); OMsg 1 1; OMsg 0 1])) = ["0f8b-Job_1.x:0"; "0f8b-Job_1.x.0.deadbeef.3:0"; "0f8b-Job_1.x:1"] /\
  no_url_meaning "100% of job [a]:0" /\ quote "100% of job [a]:0" = "100%25%20of%20job%20[a]:0" /\ ~ no_url_meaning "%41:0".
Proof.
  split; [intros c H; cbn in H; unfold simple_char; cbn; repeat (destruct H as [<-|H]; [tauto|]); destruct H|].
  split; [reflexivity|]. split; [apply C194_key_arrives_iff; reflexivity|]. split; [reflexivity|]. intros H. apply C194_key_arrives_iff in H. discriminate H.
Qed.
Example C194_transmit_example : forall ub, exists r,
  encode (fun _ => "") (fun s => s) ub 2 (PList [PInt 7; PStr "ab"; PBytes "xyz"]) = Ok r /\
  transmit (fun _ => None) (fun _ => None) (fun _ => "") (fun _ => None) (fun s => s) (fun s => Some s) ub 2 "job:0" (PList [PInt 7; PStr "ab"; PBytes "xyz"]) =
    Some (2, "job:0", PList [PInt 7; PStr "ab"; PBytes "xyz"]).
Proof. intros []; eexists; split; vm_compute; reflexivity. Qed.

(** *** C195: requests with different job ids, whatever the ids, exchange their messages and do not
    touch each other's.  Refuted over HTTP.
    1. No message of a job whose id contains a slash can be sent. *)
Theorem C195_slash_refuted : forall a b n, simple a -> simple b -> a <> "." -> a <> ".." -> deliver_key (msg_key (a +++ "/" +++ b) n) = None.
Proof. exact deliver_slash. Qed.
Print Assumptions C195_slash_refuted.
(** 2. All messages of a job whose id contains a hash sign arrive under one key, which is the
    key of none of them: the receiver waits for ever, and a second message overflows. *)
Theorem C195_hash_refuted : forall j s, simple j -> simple s -> ~ In j [""; "."; ".."] ->
  forall n, deliver_key (msg_key (j +++ "#" +++ s) n) = Some j /\ forall i, j <> msg_key (j +++ "#" +++ s) i.
Proof.
  intros j s Hj Hs D n. split; [apply deliver_hash; assumption|]. intros i E. apply (f_equal String.length) in E. unfold msg_key in E. rewrite !app_s in E.
  assert (L : forall a b, String.length (a +++ b) = String.length a + String.length b) by (induction a; cbn; intros; auto). rewrite !L in E. cbn [String.length] in E. lia.
Qed.
Print Assumptions C195_hash_refuted.
(** 3. Every job without a slash in its id has a namesake: another id, all of whose messages
    arrive under the keys of the job, where the job's own receives find them. *)
Theorem C195_namesake_refuted : forall j, j <> "" -> ~ In "/"%char (list_ascii_of_string j) ->
  exists j', j' <> j /\ forall n, deliver_key (msg_key j' n) = Some (msg_key j n).
Proof.
  intros j Hj Hs. exists (escape_all j). split.
  - intros E. pose proof (escape_all_len j Hj). rewrite E in H. lia.
  - intros n. apply deliver_escaped. apply all_chars_in. intros c Hc. unfold noslash. apply negb_true_iff, Ascii.eqb_neq. intros ->. contradiction.
Qed.
Print Assumptions C195_namesake_refuted.
Example C195_example :
  deliver_key "team/a:0" = None /\ deliver_key "job#1:0" = Some "job" /\ deliver_key "job#1:1" = Some "job" /\ deliver_key "%6Aob:0" = Some "job:0" /\
  deliver_key "x/../job:0" = Some "job:0".
Proof. repeat split. Qed.
