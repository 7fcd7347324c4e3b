(** * SPU configuration: [dialects/spu.py:97-234] and the effective link options
    of [backends/spu_state.py:46-93, 146-170].
    JSON values are the ones a configuration can contain; a Python exception is
    [None].  Simplified: str.strip()/lower() of [_parse_bool] works on ASCII
    spaces and letters. *)
From Coq Require Import String Ascii.
From Coq Require Import List ZArith Bool Lia.
Import ListNotations.
Local Open Scope string_scope.

Inductive jv := JNull | JBool (b : bool) | JInt (z : Z) | JStr (s : string)
              | JObj (kvs : list (string * jv)).

Fixpoint lookup (k : string) (d : list (string * jv)) : option jv :=
  match d with
  | [] => None
  | (a, v) :: d' => if String.eqb a k then Some v else lookup k d'
  end.
(** dict.get(k, default) *)
Definition get (k : string) (d : list (string * jv)) (dflt : jv) : jv :=
  match lookup k d with Some v => v | None => dflt end.

(** Truth value of Python. *)
Definition truthy (v : jv) : bool :=
  match v with
  | JNull => false | JBool b => b | JInt z => negb (Z.eqb z 0)
  | JStr s => negb (String.eqb s "") | JObj [] => false | JObj _ => true
  end.
(** a or b *)
Definition py_or (a b : jv) : jv := if truthy a then a else b.

(** spu.py:112-122 SPULinkDesc: seven optional fields (Python does not check the
    annotations, so a field is any value; None is [JNull]). *)
Record link_desc := LD {
  recv_timeout_ms : jv; http_timeout_ms : jv; http_max_payload_size : jv;
  brpc_channel_protocol : jv; brpc_channel_connection_type : jv;
  connect_retry_times : jv; connect_retry_interval_ms : jv }.

(** spu.py:124-139 SPULinkDesc.from_dict on a dict (given an SPULinkDesc it returns it:
    not modelled, since the dict then is not JSON). *)
Definition link_from_dict (d : list (string * jv)) : link_desc :=
  let g k := get k d JNull in
  {| recv_timeout_ms := g "recv_timeout_ms";
     http_timeout_ms := g "http_timeout_ms";
     http_max_payload_size := g "http_max_payload_size";
     brpc_channel_protocol := py_or (g "brpc_channel_protocol") (g "protocol");
     brpc_channel_connection_type := py_or (g "brpc_channel_connection_type") (g "connection_type");
     connect_retry_times := g "connect_retry_times";
     connect_retry_interval_ms := g "connect_retry_interval_ms" |}.

Definition is_none (v : jv) : bool := match v with JNull => true | _ => false end.

(** spu.py:141-151 SPULinkDesc.to_json: the fields that are not None. *)
Definition link_to_json (l : link_desc) : list (string * jv) :=
  filter (fun p => negb (is_none (snd p)))
    [ ("recv_timeout_ms", recv_timeout_ms l);
      ("http_timeout_ms", http_timeout_ms l);
      ("http_max_payload_size", http_max_payload_size l);
      ("brpc_channel_protocol", brpc_channel_protocol l);
      ("brpc_channel_connection_type", brpc_channel_connection_type l);
      ("connect_retry_times", connect_retry_times l);
      ("connect_retry_interval_ms", connect_retry_interval_ms l) ].

(** spu.py:154-177 SPUConfig. *)
Record spu_config := SC {
  protocol : jv; field : jv; fxp_fraction_bits : jv;
  enable_pphlo_profile : bool; enable_hal_profile : bool;
  enable_pphlo_trace : bool; enable_action_trace : bool;
  link : option link_desc }.

Definition lower (c : ascii) : ascii :=
  let n := nat_of_ascii c in
  if Nat.leb 65 n && Nat.leb n 90 then ascii_of_nat (n + 32) else c.
Fixpoint lower_s (s : string) : string :=
  match s with EmptyString => EmptyString | String c s' => String (lower c) (lower_s s') end.
Fixpoint lstrip (s : string) : string :=
  match s with String " " s' => lstrip s' | _ => s end.
Fixpoint rev_s (s acc : string) : string :=
  match s with EmptyString => acc | String c s' => rev_s s' (String c acc) end.
Definition strip (s : string) : string := rev_s (lstrip (rev_s (lstrip s) "")) "".

(** spu.py:97-109 [_parse_bool]. *)
Definition parse_bool (v : jv) : option bool :=
  match v with
  | JBool b => Some b
  | JStr s => let n := lower_s (strip s) in
              if String.eqb n "true" then Some true
              else if String.eqb n "false" then Some false else None
  | _ => None
  end.

(** spu.py:179-213 SPUConfig.from_dict. *)
Definition config_from_dict (d : list (string * jv)) : option spu_config :=
  match (match get "runtime_config" d (JObj []) with
         | JNull => Some []
         | JObj r => Some r
         | _ => None
         end) with
  | None => None
  | Some rc =>
      let opt k dflt := get k rc (get k d dflt) in
      let ld := get "link_desc" d JNull in
      let flag k := parse_bool (opt k (JBool false)) in
      match flag "enable_pphlo_profile", flag "enable_hal_profile",
            flag "enable_pphlo_trace", flag "enable_action_trace" with
      | Some a, Some b, Some c, Some e =>
          let mk l := Some {| protocol := opt "protocol" (JStr "SEMI2K");
                              field := opt "field" (JStr "FM128");
                              fxp_fraction_bits := opt "fxp_fraction_bits" (JInt 18);
                              enable_pphlo_profile := a; enable_hal_profile := b;
                              enable_pphlo_trace := c; enable_action_trace := e;
                              link := l |} in
          if truthy ld
          then match ld with
               | JObj l => mk (Some (link_from_dict l))
               | _ => None                                    (* TypeError *)
               end
          else mk None
      | _, _, _, _ => None
      end
  end.

(** spu.py:218-230 SPUConfig.to_json. *)
Definition config_to_json (c : spu_config) : list (string * jv) :=
  [ ("protocol", protocol c); ("field", field c); ("fxp_fraction_bits", fxp_fraction_bits c);
    ("enable_pphlo_profile", JBool (enable_pphlo_profile c));
    ("enable_hal_profile", JBool (enable_hal_profile c));
    ("enable_pphlo_trace", JBool (enable_pphlo_trace c));
    ("enable_action_trace", JBool (enable_action_trace c)) ]
  ++ match link c with Some l => [("link_desc", JObj (link_to_json l))] | None => [] end.

(** spu_state.py:46-93 BrpcLinkConfig (values from the environment or defaults). *)
Record brpc := BC {
  b_protocol : jv; b_connection_type : jv; b_recv_timeout_ms : jv;
  b_http_max_payload_size : jv; b_http_timeout_ms : jv;
  b_connect_retry_times : jv; b_connect_retry_interval_ms : jv }.

Definition over (v base : jv) : jv := if is_none v then base else v.

(** spu_state.py:146-170 [_effective_brpc_config]. *)
Definition effective (base : brpc) (c : spu_config) : brpc :=
  match link c with
  | None => base
  | Some l =>
      {| b_protocol := over (brpc_channel_protocol l) (b_protocol base);
         b_connection_type := over (brpc_channel_connection_type l) (b_connection_type base);
         b_recv_timeout_ms := over (recv_timeout_ms l) (b_recv_timeout_ms base);
         b_http_max_payload_size := over (http_max_payload_size l) (b_http_max_payload_size base);
         b_http_timeout_ms := over (http_timeout_ms l) (b_http_timeout_ms base);
         b_connect_retry_times := over (connect_retry_times l) (b_connect_retry_times base);
         b_connect_retry_interval_ms := over (connect_retry_interval_ms l) (b_connect_retry_interval_ms base) |}
  end.
