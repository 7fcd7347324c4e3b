(** C42: cluster specifications.  J is the type of JSON values carried by a specification
    (device configurations, runtime information), with the constructors [json_str] and
    [empty_dict] and the truth test the code uses. *)
From Coq Require Import List Bool Arith Lia String Sorted Permutation List.
From Verif Require Import ClusterModel ClusterSpec ClusterProofs.
Import ListNotations.
Local Open Scope nat_scope.

(** instance of the examples: JSON values are strings, {} is the empty string *)
Definition tr (s : string) : bool := negb (String.eqb s "").
Definition js (s : string) : string := s.
Definition ex_cfg : config string :=
  Config _ None (Some [NC _ (Some "alice"%string) (Some "a:1"%string) None;
                       NC _ (Some "bob"%string) (Some "b:2"%string) (Some [("version"%string, "2"%string); ("zone"%string, "eu"%string)])])
    (Some [("SP"%string, DC _ (Some "SPU"%string) (Some ["bob"; "alice"]%string) None); ("P0"%string, DC _ (Some "PPU"%string) (Some ["alice"]%string) None)]).

(** from_dict accepts exactly the valid configurations. *)
Theorem C42_accepts_iff : forall (J : Type) (json_str : string -> J) (empty_dict : J) (truthy : J -> bool) (cf : config J),
  (exists c, from_dict J json_str empty_dict truthy cf = Some c) <-> valid_config cf.
Proof. intros. apply from_dict_iff. Qed.
Print Assumptions C42_accepts_iff.
Example C42_accepts_ex : (exists c, from_dict string js ""%string tr ex_cfg = Some c) /\
  (forall c, from_dict string js ""%string tr (Config _ None (cf_nodes _ ex_cfg) (Some [("P0"%string, DC _ (Some "PPU"%string) (Some ["alice"; "bob"]%string) None)])) <> Some c) /\
  (forall c, from_dict string js ""%string tr (Config _ None (cf_nodes _ ex_cfg) (Some [("S"%string, DC _ (Some "SPU"%string) (Some ["carol"]%string) None)])) <> Some c).
Proof. split; [eexists; vm_compute; reflexivity|]. split; intros c H; vm_compute in H; discriminate H. Qed.

(** Kinds are compared letter by letter without regard to case: two texts have the same lower-case
    form exactly when they have the same length and at each position the same character, or the same
    letter of the two alphabets. *)
Theorem C42_kinds_ignore_case : forall a b : string,
  lower a = lower b <-> (String.length a = String.length b /\ forall i x y, String.get i a = Some x -> String.get i b = Some y ->
    x = y \/ exists k u v, String.get k caps = Some u /\ String.get k smalls = Some v /\ ((x = u /\ y = v) \/ (x = v /\ y = u))).
Proof. exact lower_spec. Qed.
Print Assumptions C42_kinds_ignore_case.
Example C42_kinds_ex : lower "Ppu"%string = lower "pPU"%string /\ lower "SP[U"%string <> lower "SP{U"%string.
Proof. split; vm_compute; [reflexivity|discriminate]. Qed.
(** get_devices_by_kind lists, in the order of the specification, the devices whose kind is the given
    one up to case; get_node_by_rank finds a node of that rank, and fails only if there is none. *)
Theorem C42_lookups : forall (J : Type) (c : cluster J) (kind : string) (rank : nat),
  (exists keep : list bool, length keep = length (c_devices J c) /\
     get_devices_by_kind J c kind = map fst (filter snd (combine (map snd (c_devices J c)) keep)) /\
     forall i kv, nth_error (c_devices J c) i = Some kv -> (nth_error keep i = Some true <-> lower (d_kind J (snd kv)) = lower kind)) /\
  match get_node_by_rank J c rank with
  | Some n => n_rank J n = rank /\ exists name, In (name, n) (c_nodes J c)
  | None => forall name n, In (name, n) (c_nodes J c) -> n_rank J n <> rank
  end.
Proof. intros. split; [apply by_kind_spec|apply by_rank_spec]. Qed.
Print Assumptions C42_lookups.
Example C42_lookups_ex : exists c, from_dict string js ""%string tr ex_cfg = Some c /\
  map (d_name string) (get_devices_by_kind string c "spu") = ["SP"%string] /\ option_map (n_name string) (get_node_by_rank string c 1) = Some "bob"%string.
Proof. eexists. split; [vm_compute; reflexivity|]. split; vm_compute; reflexivity. Qed.

(** The j-th node of an accepted configuration becomes rank j, is found under its own name, and
    its endpoint is the j-th one of [endpoints]. *)
Theorem C42_ranks : forall (J : Type) (json_str : string -> J) (empty_dict : J) (truthy : J -> bool) (cf : config J) (c : cluster J) (ns : list (node_cfg J)),
  from_dict J json_str empty_dict truthy cf = Some c -> cf_nodes _ cf = Some ns ->
  world_size _ c = length ns /\ length (endpoints _ c) = length ns /\
  forall (j : nat) (nc : node_cfg J), nth_error ns j = Some nc -> exists (name ep : string) (nd : node J),
    nc_name _ nc = Some name /\ nc_endpoint _ nc = Some ep /\ get name (c_nodes _ c) = Some nd /\
    n_name _ nd = name /\ n_rank _ nd = j /\ n_endpoint _ nd = ep /\ nth_error (endpoints _ c) j = Some ep.
Proof.
  intros J js0 e t cf c ns H Hn. destruct (from_dict_nodes js0 e t cf c ns H Hn) as [W K]. split; [exact W|]. split.
  - unfold endpoints. rewrite map_length. rewrite <- (Permutation_length (proj1 (sort_spec (map snd (c_nodes _ c))))). rewrite map_length. exact W.
  - intros j nc E. destruct (K j nc E) as (name & ep & A & B & nd & R). exists name, ep, nd. split; [exact A|]. split; [exact B|]. exact R.
Qed.
Print Assumptions C42_ranks.

(** Endpoints are listed in rank order, whatever the specification. *)
Theorem C42_endpoints : forall (J : Type) (c : cluster J), exists l : list (node J),
  Permutation (map snd (c_nodes _ c)) l /\ StronglySorted (fun a b => n_rank _ a <= n_rank _ b) l /\ endpoints _ c = map (n_endpoint J) l.
Proof. intros J c. exists (fold_right (insert_node J) [] (map snd (c_nodes _ c))). destruct (sort_spec (map snd (c_nodes _ c))) as [A B]. auto. Qed.
Print Assumptions C42_endpoints.
Example C42_endpoints_ex :
  let ri := RI string ""%string ""%string ""%string [] in
  endpoints _ (Cluster _ "c"%string [("a"%string, Node _ "a"%string 1 "ea"%string ri); ("b"%string, Node _ "b"%string 0 "eb"%string ri)] []) = ["eb"; "ea"]%string.
Proof. reflexivity. Qed.

(** Whatever from_dict builds survives to_dict / from_dict unchanged. *)
Theorem C42_round_trip : forall (J : Type) (json_str : string -> J) (empty_dict : J) (truthy : J -> bool) (cf : config J) (c : cluster J),
  dicts_ok cf -> from_dict J json_str empty_dict truthy cf = Some c -> from_dict J json_str empty_dict truthy (to_dict _ c) = Some c.
Proof. intros J s e t cf c OK H. apply roundtrip_iff. exact (from_dict_regular s e t cf c OK H). Qed.
Print Assumptions C42_round_trip.
Example C42_round_trip_ex : dicts_ok ex_cfg /\ exists c, from_dict string js ""%string tr ex_cfg = Some c /\ from_dict string js ""%string tr (to_dict _ c) = Some c /\ c_id _ c = "cluster_2"%string /\ endpoints _ c = ["a:1"; "b:2"]%string.
Proof.
  split.
  - intros ns nc d E Hi Hd. injection E as <-. destruct Hi as [<-|[<-|[]]]; [discriminate Hd|]. injection Hd as <-. cbn. repeat constructor; cbn; intuition discriminate.
  - eexists. split; [vm_compute; reflexivity|]. split; [vm_compute; reflexivity|]. split; vm_compute; reflexivity.
Qed.

(** Of the specifications a program can construct, exactly the regular ones survive. *)
Theorem C42_round_trip_iff : forall (J : Type) (json_str : string -> J) (empty_dict : J) (truthy : J -> bool) (c : cluster J),
  from_dict J json_str empty_dict truthy (to_dict _ c) = Some c <-> regular empty_dict truthy c.
Proof. intros. apply roundtrip_iff. Qed.
Print Assumptions C42_round_trip_iff.

(** ClusterSpec.simple: accepted arguments, world size, and round trip. *)
Theorem C42_simple : forall (J : Type) (json_str : string -> J) (empty_dict : J) (truthy : J -> bool) (world : nat) (eps : option (list string)) (k : option nat)
    (cfg version platform : J) (ob : option (list J)) (ppu spu : bool),
  (forall l o, ob = Some l -> In o l -> truthy o = true \/ o = empty_dict) ->
  ((exists c, simple J empty_dict world eps k cfg version platform ob ppu spu = Some c) <-> simple_ok world eps k ob ppu spu) /\
  (forall c, simple J empty_dict world eps k cfg version platform ob ppu spu = Some c ->
     world_size _ c = world /\ from_dict J json_str empty_dict truthy (to_dict _ c) = Some c).
Proof.
  intros J s e t world eps k cfg v p ob ppu spu H. destruct (simple_iff e t world eps k cfg v p ob ppu spu H) as [A B].
  split; [exact A|]. intros c Hc. destruct (B c Hc) as [R W]. split; [exact W|]. apply roundtrip_iff, R.
Qed.
Print Assumptions C42_simple.
Example C42_simple_ex : exists c, simple string ""%string 3 None (Some 2) "semi"%string "1"%string "linux"%string None true true = Some c /\ endpoints _ c = ["localhost:5000"; "localhost:5001"; "localhost:5002"]%string
  /\ map fst (c_devices _ c) = ["P0"; "P1"; "P2"; "SP0"]%string.
Proof. eexists. split; [vm_compute; reflexivity|]. split; vm_compute; reflexivity. Qed.

(** A hand-built specification accepted by the constructor need not survive: to_dict does not
    write ranks, so nodes listed out of rank order are renumbered, and their devices too. *)
Theorem C120_handbuilt_refuted : exists c c' : cluster string,
  make _ c = Some c /\ from_dict string js ""%string tr (to_dict _ c) = Some c' /\ endpoints _ c = ["eb"; "ea"]%string /\ endpoints _ c' = ["ea"; "eb"]%string /\
  map (n_rank _) (flat_map (fun kv => d_members _ (snd kv)) (c_devices _ c)) = [1] /\ map (n_rank _) (flat_map (fun kv => d_members _ (snd kv)) (c_devices _ c')) = [0].
Proof.
  pose (ri := RI string ""%string ""%string ""%string []). pose (a := Node _ "a"%string 1 "ea"%string ri). pose (b := Node _ "b"%string 0 "eb"%string ri).
  exists (Cluster _ "c"%string [("a"%string, a); ("b"%string, b)] [("P"%string, Device _ "P"%string "PPU"%string [a] ""%string)]). eexists.
  split; [vm_compute; reflexivity|]. split; [vm_compute; reflexivity|]. repeat split; vm_compute; reflexivity.
Qed.
Print Assumptions C120_handbuilt_refuted.
