(** Model of libs/device/cluster.py: ClusterSpec, its validation, to_dict / from_dict, endpoints
    and ClusterSpec.simple.  A Python dict is the list of its items (distinct keys); JSON values
    are an abstract type J with the few operations the code uses on them. *)
From Coq Require Import List Bool Arith String Ascii DecimalString Decimal.
Import ListNotations.
Local Open Scope nat_scope.

Definition dict (A : Type) : Type := list (string * A).
Fixpoint get {A : Type} (k : string) (d : dict A) : option A :=
  match d with [] => None | (k', v) :: d => if String.eqb k k' then Some v else get k d end.
(** d[k] = v *)
Fixpoint set {A : Type} (k : string) (v : A) (d : dict A) : dict A :=
  match d with [] => [(k, v)] | (k', v') :: d => if String.eqb k k' then (k', v) :: d else (k', v') :: set k v d end.
(** d.update(e) *)
Definition update {A : Type} (d e : dict A) : dict A := fold_left (fun d kv => set (fst kv) (snd kv) d) e d.
Definition has {A : Type} (k : string) (d : dict A) : bool := match get k d with Some _ => true | None => false end.

(** str.lower on ASCII *)
Definition lower_ascii (c : ascii) : ascii :=
  let n := nat_of_ascii c in if (65 <=? n) && (n <=? 90) then ascii_of_nat (n + 32) else c.
Fixpoint lower (s : string) : string := match s with EmptyString => EmptyString | String c s => String (lower_ascii c) (lower s) end.
Definition str (n : nat) : string := NilEmpty.string_of_uint (Nat.to_uint n).

(** the case of ASCII letters, by the two alphabets: specification of str.lower on them *)
Definition caps : string := "ABCDEFGHIJKLMNOPQRSTUVWXYZ".
Definition smalls : string := "abcdefghijklmnopqrstuvwxyz".

Section Cluster.
Variable J : Type.
Variable json_str : string -> J.     (* a string as a JSON value *)
Variable empty_dict : J.             (* {} *)
Variable truthy : J -> bool.

(** 27-43 RuntimeInfo, 56-66 Node, 77-87 Device, 103-112 ClusterSpec *)
Record runtime_info : Type := RI { ri_version : J; ri_platform : J; ri_ops : J; ri_extra : dict J }.
Record node : Type := Node { n_name : string; n_rank : nat; n_endpoint : string; n_rt : runtime_info }.
Record device : Type := Device { d_name : string; d_kind : string; d_members : list node; d_config : J }.
Record cluster : Type := Cluster { c_id : string; c_nodes : dict node; c_devices : dict device }.

(** the configuration accepted by from_dict; an absent field is None *)
Record node_cfg : Type := NC { nc_name : option string; nc_endpoint : option string; nc_rt : option (dict J) }.
Record dev_cfg : Type := DC { dc_kind : option string; dc_members : option (list string); dc_config : option J }.
Record config : Type := Config { cf_id : option string; cf_nodes : option (list node_cfg); cf_devices : option (dict dev_cfg) }.

(** 119-147 __post_init__ *)
Definition post_init (c : cluster) : bool :=
  forallb (fun kv => String.eqb (fst kv) (n_name (snd kv))) (c_nodes c) &&
  forallb (fun kv => String.eqb (fst kv) (d_name (snd kv))) (c_devices c) &&
  forallb (fun kv => forallb (fun m => has (n_name m) (c_nodes c)) (d_members (snd kv))) (c_devices c) &&
  forallb (fun kv => negb (String.eqb (lower (d_kind (snd kv))) "ppu") || (List.length (d_members (snd kv)) =? 1)) (c_devices c).
Definition make (c : cluster) : option cluster := if post_init c then Some c else None.

(** 157-160 get_devices_by_kind, 162-168 get_node_by_rank (None = KeyError) *)
Definition get_devices_by_kind (c : cluster) (kind : string) : list device :=
  filter (fun d => String.eqb (lower (d_kind d)) (lower kind)) (map snd (c_devices c)).
Definition get_node_by_rank (c : cluster) (rank : nat) : option node :=
  find (fun n => n_rank n =? rank) (map snd (c_nodes c)).

(** 45-53, 68-74, 94-100, 170-178 to_dict: ranks are not written *)
Definition rt_to_dict (r : runtime_info) : dict J :=
  update [("version"%string, ri_version r); ("platform"%string, ri_platform r); ("op_bindings"%string, ri_ops r)] (ri_extra r).
Definition node_to_dict (n : node) : node_cfg := NC (Some (n_name n)) (Some (n_endpoint n)) (Some (rt_to_dict (n_rt n))).
Definition dev_to_dict (d : device) : dev_cfg := DC (Some (d_kind d)) (Some (map n_name (d_members d))) (Some (d_config d)).
Definition to_dict (c : cluster) : config :=
  Config (Some (c_id c)) (Some (map (fun kv => node_to_dict (snd kv)) (c_nodes c))) (Some (map (fun kv => (fst kv, dev_to_dict (snd kv))) (c_devices c))).

(** 202-219 *)
Definition known (k : string) : bool := String.eqb k "version" || String.eqb k "platform" || String.eqb k "op_bindings".
Definition getd {A : Type} (k : string) (d : dict A) (default : A) : A := match get k d with Some v => v | None => default end.
Definition rt_of (o : option (dict J)) : runtime_info :=
  let d := match o with Some d => d | None => [] end in
  let ops := getd "op_bindings" d empty_dict in
  RI (getd "version" d (json_str "N/A")) (getd "platform" d (json_str "N/A")) (if truthy ops then ops else empty_dict) (filter (fun kv => negb (known (fst kv))) d).
(** 200-230: rank = position; a repeated name is an error *)
Fixpoint nodes_of (i : nat) (acc : dict node) (l : list node_cfg) : option (dict node) :=
  match l with
  | [] => Some acc
  | nc :: l =>
      match nc_name nc, nc_endpoint nc with
      | Some name, Some ep => if has name acc then None else nodes_of (S i) (acc ++ [(name, Node name i ep (rt_of (nc_rt nc)))]) l
      | _, _ => None
      end
  end.
(** 232-248 *)
Fixpoint members_of (nodes : dict node) (ms : list string) : option (list node) :=
  match ms with
  | [] => Some []
  | m :: ms => match get m nodes, members_of nodes ms with Some n, Some l => Some (n :: l) | _, _ => None end
  end.
Fixpoint devices_of (nodes : dict node) (l : dict dev_cfg) : option (dict device) :=
  match l with
  | [] => Some []
  | (name, dc) :: l =>
      match dc_members dc, dc_kind dc with
      | Some ms, Some kind =>
          match members_of nodes ms, devices_of nodes l with
          | Some mem, Some ds => Some ((name, Device name kind mem (match dc_config dc with Some c => c | None => empty_dict end)) :: ds)
          | _, _ => None
          end
      | _, _ => None
      end
  end.
(** 190-252 from_dict *)
Definition from_dict (cf : config) : option cluster :=
  match cf_nodes cf, cf_devices cf with
  | Some ns, Some ds =>
      match nodes_of 0 [] ns with
      | Some nodes =>
          match devices_of nodes ds with
          | Some devs => make (Cluster (match cf_id cf with Some i => i | None => append "cluster_" (str (List.length nodes)) end) nodes devs)
          | None => None
          end
      | None => None
      end
  | _, _ => None
  end.

(** 180-188 endpoints: stable sort by rank *)
Fixpoint insert_node (n : node) (l : list node) : list node :=
  match l with [] => [n] | m :: l => if n_rank n <=? n_rank m then n :: m :: l else m :: insert_node n l end.
Definition endpoints (c : cluster) : list string :=
  map n_endpoint (fold_right insert_node [] (map snd (c_nodes c))).
Definition world_size (c : cluster) : nat := List.length (c_nodes c).

(** 254-352 simple; [spu_config] is the {protocol, field} dict *)
Definition simple_node (endpoints : option (list string)) (op_bindings : option (list J)) (version platform : J) (i : nat) : string * node :=
  let name := append "node" (str i) in
  (name, Node name i
    (match endpoints with Some l => nth i l EmptyString | None => append "localhost:" (str (5000 + i)) end)
    (RI version platform (match op_bindings with Some l => nth i l empty_dict | None => empty_dict end) [])).
Definition simple (world : nat) (endpoints : option (list string)) (spu_world : option nat) (spu_config : J) (version platform : J)
    (op_bindings : option (list J)) (enable_ppu enable_spu : bool) : option cluster :=
  if match endpoints with Some l => negb (List.length l =? world) | None => false end then None
  else if match op_bindings with Some l => negb (List.length l =? world) | None => false end then None
  else if negb enable_ppu && negb enable_spu then None
  else
    let nodes := map (simple_node endpoints op_bindings version platform) (seq 0 world) in
    let ppus := if enable_ppu then map (fun i => (append "P" (str i), Device (append "P" (str i)) "ppu" [snd (simple_node endpoints op_bindings version platform i)] empty_dict)) (seq 0 world) else [] in
    let k := match spu_world with Some k => k | None => world end in
    match (if enable_spu then option_map (fun ms => [("SP0"%string, Device "SP0" "SPU" ms spu_config)]) (members_of nodes (map (fun i => append "node" (str i)) (seq 0 k))) else Some []) with
    | None => None      (* KeyError: more SPU members than nodes *)
    | Some spus => make (Cluster (append "__sim_" (str world)) nodes (ppus ++ spus))
    end.
End Cluster.
