(** Which cluster configurations are valid, and which specifications survive to_dict/from_dict. *)
From Coq Require Import Bool Arith String List.
From Verif Require Import ClusterModel.
Import ListNotations.
Local Open Scope nat_scope.

Section Spec.
Context {J : Type}.
Variable empty_dict : J.
Variable truthy : J -> bool.
Notation runtime_info := (runtime_info J). Notation cluster := (cluster J).

(** runtime information that survives being written and read *)
Definition rt_normal (r : runtime_info) : Prop :=
  (truthy (ri_ops _ r) = true \/ ri_ops _ r = empty_dict) /\ NoDup (map fst (ri_extra _ r)) /\
  (forall k, In k (map fst (ri_extra _ r)) -> known k = false).
(** what to_dict / from_dict preserves *)
Definition regular (c : cluster) : Prop :=
  post_init _ c = true /\ NoDup (map fst (c_nodes _ c)) /\
  (forall j kv, nth_error (c_nodes _ c) j = Some kv -> n_rank _ (snd kv) = j /\ rt_normal (n_rt _ (snd kv))) /\
  (forall kv m, In kv (c_devices _ c) -> In m (d_members _ (snd kv)) -> get (n_name _ m) (c_nodes _ c) = Some m).

(** dictionaries in a configuration have distinct keys *)
Definition dicts_ok (cf : config J) : Prop :=
  forall ns nc d, cf_nodes _ cf = Some ns -> In nc ns -> nc_rt _ nc = Some d -> NoDup (map fst d).

(** nodes have a name and an endpoint and distinct names; devices have a kind and members among
    the nodes; a PPU has one member *)
Definition valid_config (cf : config J) : Prop :=
  exists (ns : list (node_cfg J)) (ds : dict (dev_cfg J)) (names : list string),
    cf_nodes _ cf = Some ns /\ cf_devices _ cf = Some ds /\
    map (nc_name J) ns = map Some names /\ NoDup names /\ (forall nc : node_cfg J, In nc ns -> nc_endpoint _ nc <> None) /\
    (forall (name : string) (dc : dev_cfg J), In (name, dc) ds -> exists (kind : string) (ms : list string),
       dc_kind _ dc = Some kind /\ dc_members _ dc = Some ms /\ (forall m : string, In m ms -> In m names) /\
       (lower kind = "ppu"%string -> length ms = 1)).
(** the arguments ClusterSpec.simple accepts *)
Definition simple_ok (world : nat) (endpoints : option (list string)) (spu_world : option nat) (op_bindings : option (list J)) (ppu spu : bool) : Prop :=
  (forall l, endpoints = Some l -> length l = world) /\ (forall l, op_bindings = Some l -> length l = world) /\ (ppu = true \/ spu = true) /\
  (spu = true -> forall k, spu_world = Some k -> k <= world).
End Spec.
