(** C215: clusters on one machine, started by options or from a generated file. *)
From Coq Require Import String Ascii.
From Coq Require Import List Arith Bool Lia FinFun.
From Verif Require Import CliModel CliSpec CliProps CliGenModel.
Import ListNotations.
Local Open Scope string_scope.

Lemma nth_seq_map {A} (f : nat -> A) w i : (i < w)%nat -> nth_error (map f (seq 0 w)) i = Some (f i).
Proof. intros H. rewrite nth_error_map. replace (nth_error (seq 0 w) i) with (Some i); [reflexivity|]. symmetry. rewrite (nth_error_nth' _ 0) by (rewrite seq_length; exact H). rewrite seq_nth by exact H. reflexivity. Qed.

Lemma gen_spu p base w : forall s, map (fun p0 => (fst p0, hd "" (split ":" (snd (snd p0))) ++ ":" ++ dec (base + fst p0)))
     (enum_from s (map (fun i => ("node_" ++ dec i, "127.0.0.1:" ++ dec (p + i))) (seq s w))) = map (fun i => (i, "127.0.0.1:" ++ dec (base + i))) (seq s w).
Proof.
  induction w as [|w IH]; intros s; [reflexivity|]. cbn [seq map enum_from fst snd]. rewrite IH. reflexivity.
Qed.

(** Without a file and without --endpoints: worker i listens on port base + i and is known to the
    others under that port; with --spu-base-port every worker, and nobody else, has an SPU address, all
    different, and none of them is the address of a worker if the two port ranges are disjoint. *)
Theorem C215_by_options :
  forall (a : args) (p : nat), a_config a = None -> given (a_endpoints a) = None -> a_base_port a = Some p ->
  exists r, build_endpoints a = Some r /\ world r = a_world_size a /\
    List.length (endpoints r) = a_world_size a /\
    (forall i : nat, (i < a_world_size a)%nat ->
       worker a i = Some (p + i, endpoints r, spu_endpoints r) /\ nth_error (endpoints r) i = Some ("http://127.0.0.1:" ++ dec (p + i))) /\
    (a_spu_base_port a = None -> spu_endpoints r = None) /\
    (forall q : nat, a_spu_base_port a = Some q -> (0 < q)%nat -> exists spu, spu_endpoints r = Some spu /\
       List.length spu = a_world_size a /\
       (forall i : nat, (i < a_world_size a)%nat -> nth_error spu i = Some (i, "127.0.0.1:" ++ dec (q + i))) /\
       NoDup (map snd spu) /\
       ((p + a_world_size a <= q)%nat \/ (q + a_world_size a <= p)%nat ->
          forall x u : string, In x (map snd spu) -> In u (endpoints r) -> u <> "http://" ++ x)).
Proof.
  intros a p Hc Hg Hp. exists (from_defaults a).
  assert (B : build_endpoints a = Some (from_defaults a)) by (unfold build_endpoints; rewrite Hc, Hg; reflexivity).
  assert (Dp : forall m n, "127.0.0.1:" ++ dec m = "127.0.0.1:" ++ dec n -> m = n).
  { intros m n E. cbn [String.append] in E. injection E as E. apply dec_inj, E. }
  split; [exact B|]. split; [reflexivity|]. unfold worker. rewrite B. unfold from_defaults. cbn [endpoints ports world spu_endpoints]. rewrite Hp.
  split; [rewrite !map_length, seq_length; reflexivity|]. split; [|split].
  - intros i Hi. rewrite (nth_seq_map (fun i => p + i)) by exact Hi. rewrite map_map, (nth_seq_map (fun i => "http://127.0.0.1:" ++ dec (p + i))) by exact Hi.
    apply Nat.ltb_lt in Hi. rewrite Hi. split; reflexivity.
  - intros ->. reflexivity.
  - intros q -> Hq. destruct q as [|q]; [lia|]. eexists. split; [reflexivity|]. split; [rewrite map_length, seq_length; reflexivity|].
    split; [intros i Hi; apply (nth_seq_map (fun i => (i, "127.0.0.1:" ++ dec (S q + i)))); exact Hi|]. rewrite map_map. cbn [snd]. split.
    + apply Injective_map_NoDup; [intros i j E; apply Dp in E; lia|apply seq_NoDup].
    + intros D x u Hx Hu E. apply in_map_iff in Hx. destruct Hx as (i & <- & Hi). apply in_map_iff in Hu. destruct Hu as (v & <- & Hv). apply in_map_iff in Hv. destruct Hv as (j & <- & Hj).
      apply in_seq in Hi, Hj. change ("http://127.0.0.1:" ++ dec (p + j)) with ("http://" ++ ("127.0.0.1:" ++ dec (p + j))) in E. cbn [String.append] in E. injection E as E.
      apply dec_inj in E. lia.
Qed.
Print Assumptions C215_by_options.

Lemma gen_build w p spu spu' w' p' : (0 < w)%nat ->
  build_endpoints (Args (Some (config_gen w p spu)) None None spu' w' p') = Some {| endpoints := map (fun p => "http://127.0.0.1:" ++ dec p) (map (fun i => p + i) (seq 0 w)); ports := map (fun i => p + i) (seq 0 w); world := w;
     spu_endpoints := if match spu with Some (S _) => true | _ => false end then Some (map (fun i => (i, "127.0.0.1:" ++ dec (port_or spu' (p + 1000) + i))) (seq 0 w)) else None |}.
Proof.
  intros Hw.
  assert (Ne : nodes (config_gen w p spu) <> []) by (destruct w; [lia|discriminate]).
  assert (Ep : map (fun n => normalize_endpoint (snd n)) (nodes (config_gen w p spu)) = map (fun p => "http://127.0.0.1:" ++ dec p) (map (fun i => p + i) (seq 0 w))).
  { cbn [nodes config_gen]. rewrite !map_map. reflexivity. }
  assert (Pp : mapM port_of (map (fun p => "http://127.0.0.1:" ++ dec p) (map (fun i => p + i) (seq 0 w))) = Some (map (fun i => p + i) (seq 0 w))).
  { generalize (map (fun i => p + i) (seq 0 w)). induction l as [|x l IH]; [reflexivity|]. cbn [map mapM]. rewrite default_port, IH. reflexivity. }
  assert (Sp : forall base, map (fun p0 => (fst p0, hd "" (split ":" (snd (snd p0))) ++ ":" ++ dec (base + fst p0))) (enum_from 0 (nodes (config_gen w p spu))) =
     map (fun i => (i, "127.0.0.1:" ++ dec (base + i))) (seq 0 w)).
  { intros base. cbn [nodes config_gen]. apply gen_spu. }
  assert (Dv : existsb (fun d => String.eqb (upper (snd d)) "SPU") (devices (config_gen w p spu)) = match spu with Some (S _) => true | _ => false end).
  { cbn [devices config_gen]. rewrite existsb_app. replace (existsb _ (map (fun i => ("P" ++ dec i, "ppu")) (seq 0 w))) with false.
    - destruct spu as [[|q]|]; reflexivity.
    - symmetry. apply not_true_is_false. intros E. apply existsb_exists in E. destruct E as (x & Hx & E). apply in_map_iff in Hx. destruct Hx as (i & <- & _). discriminate E. }
  unfold build_endpoints. cbn [a_config a_endpoints given a_spu_base_port]. unfold from_config. destruct (nodes (config_gen w p spu)) as [|n ns] eqn:En; [congruence|].
    rewrite Ep, Pp, Dv, Sp. assert (List.length (n :: ns) = w) as -> by (rewrite <- En; cbn [nodes config_gen]; rewrite map_length, seq_length; reflexivity).
    replace (hd 0 (map (fun i => p + i) (seq 0 w))) with p by (destruct w; [lia|cbn; lia]). reflexivity.
Qed.

(** A file generated with -w and -p, read by worker, up, status or run, means the same workers at the
    same addresses as these options themselves; with the same --spu-base-port at both times (or none)
    also the same SPU addresses.  Only an empty cluster cannot be read back. *)
Theorem C215_generated_file :
  forall (w p : nat) (spu spu' : option nat) (w' : nat) (p' : option nat), (0 < w)%nat ->
  let from_file := Args (Some (config_gen w p spu)) None None spu' w' p' in
  let by_options := Args None None None spu' w (Some p) in
  exists r r', build_endpoints from_file = Some r /\ build_endpoints by_options = Some r' /\
    endpoints r = endpoints r' /\ ports r = ports r' /\ world r = world r' /\ run_urls from_file = run_urls by_options /\
    (spu' = spu -> (forall q, spu = Some q -> (0 < q)%nat) -> r = r').
Proof.
  intros w p spu spu' w' p' Hw from_file by_options.
  pose proof (gen_build w p spu spu' w' p' Hw) as F.
  eexists. exists (from_defaults by_options). split; [exact F|]. split; [reflexivity|]. split; [reflexivity|]. split; [reflexivity|]. split; [reflexivity|]. split.
  - unfold run_urls. cbn [a_config from_file by_options]. replace (distinct _) with true; [|symmetry; apply distinct_NoDup].
    + unfold build_endpoints, by_options. cbn [a_config a_endpoints given]. cbn [nodes config_gen from_defaults endpoints a_base_port a_world_size]. rewrite !map_map. reflexivity.
    + cbn [nodes config_gen]. rewrite map_map. cbn [fst]. apply Injective_map_NoDup; [intros i j E; cbn [String.append] in E; injection E as E; apply dec_inj, E|apply seq_NoDup].
  - intros -> Hq. unfold from_defaults, by_options. cbn [a_base_port a_world_size a_spu_base_port]. destruct spu as [[|q]|]; [|reflexivity|reflexivity]. specialize (Hq 0 eq_refl). lia.
Qed.
Print Assumptions C215_generated_file.

(** The SPU port given when the file was generated is not in the file: read back without the option,
    the workers' SPU ports start at base + 1000 instead. *)
Theorem C215_spu_port_forgotten_refuted :
  forall (w p q w' : nat) (p' : option nat), (0 < w)%nat -> (0 < q)%nat -> q <> (p + 1000)%nat ->
  exists r r' spu spu', build_endpoints (Args (Some (config_gen w p (Some q))) None None None w' p') = Some r /\
    build_endpoints (Args None None None (Some q) w (Some p)) = Some r' /\
    spu_endpoints r = Some spu /\ spu_endpoints r' = Some spu' /\
    nth_error spu 0 = Some (0, "127.0.0.1:" ++ dec (p + 1000)) /\ nth_error spu' 0 = Some (0, "127.0.0.1:" ++ dec q) /\ spu <> spu'.
Proof.
  intros w p q w' p' Hw Hq N.
  destruct (C215_generated_file w p (Some q) None w' p' Hw) as (r & _ & B & _). exists r, (from_defaults (Args None None None (Some q) w (Some p))).
  assert (S1 : spu_endpoints r = Some (map (fun i => (i, "127.0.0.1:" ++ dec (p + 1000 + i))) (seq 0 w))).
  { rewrite gen_build in B by exact Hw. injection B as <-. cbn [spu_endpoints]. destruct q; [lia|reflexivity]. }
  destruct q as [|q]; [lia|]. eexists. eexists. split; [exact B|]. split; [reflexivity|]. split; [exact S1|]. split; [reflexivity|].
  destruct w as [|w]; [lia|]. cbn [seq map nth_error a_world_size]. rewrite !Nat.add_0_r. split; [reflexivity|]. split; [reflexivity|].
  intros E. cbn [String.append] in E. injection E as E _. apply dec_inj in E. lia.
Qed.
Print Assumptions C215_spu_port_forgotten_refuted.

(** --endpoints without a file: the SPU addresses do not follow; they stay on this machine, one for
    each of the -w workers (three by default) whatever the number of endpoints. *)
Theorem C215_endpoints_option_refuted :
  forall (a : args) (r : addrs) (text : string) (q : nat), a_config a = None -> given (a_endpoints a) = Some text ->
  a_spu_base_port a = Some q -> (0 < q)%nat -> build_endpoints a = Some r ->
  world r = List.length (split "," text) /\
  spu_endpoints r = Some (map (fun i => (i, "127.0.0.1:" ++ dec (q + i))) (seq 0 (a_world_size a))).
Proof.
  intros a r text q Hc Hg Hs Hq H. unfold build_endpoints in H. rewrite Hc, Hg in H. destruct (mapM port_of _) as [ps|]; [|discriminate H]. injection H as <-. cbn [world spu_endpoints].
  rewrite map_length. split; [reflexivity|]. unfold from_defaults. cbn [spu_endpoints]. rewrite Hs. destruct q; [lia|reflexivity].
Qed.
Print Assumptions C215_endpoints_option_refuted.

Example C215_ex :
  worker (Args None None None (Some 9100) 2 (Some 8100)) 1 =
    Some (8101, ["http://127.0.0.1:8100"; "http://127.0.0.1:8101"], Some [(0, "127.0.0.1:9100"); (1, "127.0.0.1:9101")]) /\
  config_gen 2 8100 (Some 9100) =
    Conf [("node_0", "127.0.0.1:8100"); ("node_1", "127.0.0.1:8101")] [("P0", "ppu"); ("P1", "ppu"); ("SPU0", "SPU")] /\
  worker (Args (Some (config_gen 2 8100 (Some 9100))) None None (Some 9100) 3 None) 1 = worker (Args None None None (Some 9100) 2 (Some 8100)) 1 /\
  worker (Args (Some (config_gen 2 8100 (Some 9300))) None None None 3 None) 1 =
    Some (8101, ["http://127.0.0.1:8100"; "http://127.0.0.1:8101"], Some [(0, "127.0.0.1:9100"); (1, "127.0.0.1:9101")]) /\
  worker (Args None (Some "h1:9,h2:9,h3:9,h4:9") None (Some 9100) 3 (Some 8100)) 3 =
    Some (9, ["http://h1:9"; "http://h2:9"; "http://h3:9"; "http://h4:9"], Some [(0, "127.0.0.1:9100"); (1, "127.0.0.1:9101"); (2, "127.0.0.1:9102")]).
Proof. repeat split; vm_compute; reflexivity. Qed.
