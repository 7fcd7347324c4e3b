(** Model of libs/device/api.py (device inference, transfers between devices, fetch), of the
    TEE session cache, and of the SPU link/runtime cache (backends/spu_state.py, with the local
    ranks of backends/spu_impl.py).  Transfers are written with the SIMP operations of SimpModel
    and return, besides the result, every multi-party object they create, marked [Sent] when it
    arrived through a shuffle and [Made] when a party computed it. *)
From Coq Require Import Bool Arith String List.
From Verif Require Import SimpModel.
Import ListNotations.
Local Open Scope nat_scope.

(* ---------------------------------------------------------------- device inference *)

(** device.kind.upper() *)
Inductive kind : Type := PPU | SPU | TEE | OtherKind.
Definition is_secure (k : kind) : bool := match k with SPU | TEE => true | _ => false end.

Inductive inferred : Type := Dev (d : string) | InferenceError | KeyError.
(** api.py:122-171 _infer_device_from_args: [args] are the flattened arguments, [Some d] for an
    Object bound to device d, [None] for anything else; the set of devices is its duplicate-free
    list (no result depends on its order: the code only takes the element of a singleton) *)
Definition infer (auto : bool) (kind_of : string -> option kind) (args : list (option string)) : inferred :=
  let devices := nodup string_dec (flat_map (fun a => match a with Some d => [d] | None => [] end) args) in
  match devices with
  | [] => InferenceError
  | [d] => Dev d
  | _ =>
      if negb auto then InferenceError
      else if existsb (fun d => match kind_of d with None => true | _ => false end) devices then KeyError
      else match filter (fun d => match kind_of d with Some k => is_secure k | None => false end) devices with
           | [d] => Dev d
           | _ => InferenceError
           end
  end.

(* ---------------------------------------------------------------- transfers *)

Section Transfer.
Variables (VT V : Type).
Variable vt_eqb : VT -> VT -> bool.
Variable n : nat.                         (* world size *)
Variables (share_t key_t : VT).           (* value types of shares and of key material *)
Variables (make_shares : V -> nat -> list V) (reconstruct : list V -> V)
          (encrypt decrypt : V -> V -> V) (pub hkdf quote attest : V -> V) (derive : V -> V -> V).
Notation object := (object VT V). Notation local := (local VT V).

Inductive step : Type := Made (x : object) | Sent (x : object).
Record device : Type := Device { dv_name : string; dv_kind : kind; dv_members : list nat }.

(** simp.pcall_static on objects *)
Definition pcall (ps : list nat) (f : local) (xs : list object) : option (list object) :=
  match type_pcall_static VT V ps f (map fst xs), run_pcall VT V n false (fun _ => true) (fun r => inb r (norm ps)) f (map snd xs) with
  | Some ts, Some vs => Some (combine ts vs)
  | _, _ => None
  end.
Definition pcall1 (ps : list nat) (f : local) (xs : list object) : option object :=
  match pcall ps f xs with Some [y] => Some y | _ => None end.
Definition fn1 (t : VT) (f : V -> V) : local := Local _ _ [t] (fun args _ => match args with [Some a] => Some (f a) | _ => None end).
Definition fn2 (t : VT) (f : V -> V -> V) : local := Local _ _ [t] (fun args _ => match args with [Some a; Some b] => Some (f a b) | _ => None end).
Definition const (t : VT) (v : V) : local := Local _ _ [t] (fun _ _ => Some v).
Fixpoint all_some {A : Type} (l : list (option A)) : option (list A) :=
  match l with [] => Some [] | Some a :: l => option_map (cons a) (all_some l) | None :: _ => None end.

(** 385-468 _ensure_tee_session without the cache: fresh key pairs [tsk], [vsk] *)
Definition session (frm tee : nat) (tsk vsk : V) : option ((object * object) * list step) :=
  match pcall1 [tee] (const key_t tsk) [], pcall1 [tee] (const key_t (pub tsk)) [] with
  | Some tee_sk, Some tee_pk =>
  match pcall1 [tee] (fn1 key_t quote) [tee_pk] with
  | Some q =>
  match shuffle_static VT V n q [(frm, tee)] with
  | Some q_at =>
  match pcall1 [frm] (fn1 key_t attest) [q_at], pcall1 [frm] (const key_t vsk) [], pcall1 [frm] (const key_t (pub vsk)) [] with
  | Some tee_pk_at, Some v_sk, Some v_pk =>
  match shuffle_static VT V n v_pk [(tee, frm)] with
  | Some v_pk_at =>
  match pcall1 [frm] (fn2 key_t derive) [v_sk; tee_pk_at], pcall1 [tee] (fn2 key_t derive) [tee_sk; v_pk_at] with
  | Some shared_frm, Some shared_tee =>
  match pcall1 [frm] (fn1 key_t hkdf) [shared_frm], pcall1 [tee] (fn1 key_t hkdf) [shared_tee] with
  | Some sf, Some st => Some ((sf, st), [Made tee_sk; Made tee_pk; Made q; Sent q_at; Made tee_pk_at; Made v_sk; Made v_pk; Sent v_pk_at; Made shared_frm; Made shared_tee; Made sf; Made st])
  | _, _ => None end
  | _, _ => None end
  | None => None end
  | _, _, _ => None end
  | None => None end
  | None => None end
  | _, _ => None
  end.

(** 486-492 *)
Definition ppu_to_ppu (frm to : nat) (obj : object) : option (object * list step) :=
  match shuffle_static VT V n obj [(to, frm)] with Some y => Some (y, [Sent y]) | None => None end.
(** 495-527 and 611-635: shares are dealt in member order *)
Definition to_spu (frm : nat) (members : list nat) (obj : object) : option (object * list step) :=
  let deal := Local VT V (repeat share_t (length members)) (fun args k => match args with [Some v] => nth_error (make_shares v (length members)) k | _ => None end) in
  match pcall [frm] deal [obj] with
  | Some shares =>
      match mapO (fun ts => shuffle_static VT V n (snd ts) [(fst ts, frm)]) (combine members shares) with
      | Some dealt => match converge VT V vt_eqb dealt with Some y => Some (y, map Made shares ++ map Sent dealt ++ [Made y]) | None => None end
      | None => None
      end
  | None => None
  end.
(** 530-553 and 638-657: shares are gathered in member order *)
Definition from_spu (members : list nat) (to : nat) (obj : object) : option (object * list step) :=
  match mapO (fun src => pcall1 [src] (fn1 share_t (fun x => x)) [obj]) members with
  | Some on_source =>
      match mapO (fun ss => shuffle_static VT V n (snd ss) [(to, fst ss)]) (combine members on_source) with
      | Some gathered =>
          let rec := Local VT V [vt _ (fst obj)] (fun args _ => option_map reconstruct (all_some args)) in
          match pcall1 [to] rec gathered with Some y => Some (y, map Made on_source ++ map Sent gathered ++ [Made y]) | None => None end
      | None => None
      end
  | None => None
  end.
(** 560-608: encrypt at the sender with its session key, decrypt at the receiver with its own *)
Definition encrypted (a b : nat) (key_a key_b obj : object) : option (object * list step) :=
  match pcall1 [a] (fn2 key_t encrypt) [key_a; obj] with
  | Some ct =>
      match shuffle_static VT V n ct [(b, a)] with
      | Some ct_at => match pcall1 [b] (fn2 (vt _ (fst obj)) decrypt) [key_b; ct_at] with Some y => Some (y, [Made ct; Sent ct_at; Made y]) | None => None end
      | None => None
      end
  | None => None
  end.
Definition with_session (frm tee : nat) (cached : option (object * object)) (tsk vsk : V) (k : object -> object -> option (object * list step)) : option (object * list step) :=
  match cached with
  | Some (sf, st) => k sf st
  | None =>
      match session frm tee tsk vsk with
      | Some ((sf, st), tr) => match k sf st with Some (y, tr') => Some (y, tr ++ tr') | None => None end
      | None => None
      end
  end.
(** 471-664 _d2d; [cached] is the TEE session found in the cache, if any *)
Definition d2d (from to_ : device) (cached : option (object * object)) (tsk vsk : V) (obj : object) : option (object * list step) :=
  if String.eqb (dv_name from) (dv_name to_) then Some (obj, [])
  else match dv_kind from, dv_kind to_ with
       | PPU, PPU => match dv_members from, dv_members to_ with [a], [b] => ppu_to_ppu a b obj | _, _ => None end
       | PPU, SPU | TEE, SPU => match dv_members from with [a] => to_spu a (dv_members to_) obj | _ => None end
       | SPU, PPU | SPU, TEE => match dv_members to_ with [b] => from_spu (dv_members from) b obj | _ => None end
       | PPU, TEE => match dv_members from, dv_members to_ with
                     | [a], [b] => with_session a b cached tsk vsk (fun sf st => encrypted a b sf st obj)
                     | _, _ => None end
       | TEE, PPU => match dv_members from, dv_members to_ with
                     | [b], [a] => with_session a b cached tsk vsk (fun sf st => encrypted b a st sf obj)
                     | _, _ => None end
       | _, _ => None      (* NotImplementedError, DeviceError *)
       end.

(** 770-786 fetch: the values the driver fetches from the members; for an SPU the first one *)
Definition fetch (dev : device) (obj : object) : option V :=
  match dv_kind dev with
  | PPU | TEE => match dv_members dev with [r] => snd obj r | _ => None end
  | SPU => match all_some (map (snd obj) (dv_members dev)) with Some (s :: _) => Some s | _ => None end
  | OtherKind => None
  end.
End Transfer.

(* ---------------------------------------------------------------- TEE session cache *)

(** api.py:73, 425-468: at most one entry per device pair, tagged with id(context).  A context
    is given by its address and by when it was created; Python reuses addresses. *)
Record ctx : Type := Ctx { ctx_addr : nat; ctx_serial : nat }.
Definition sess_cache : Type := list ((string * string) * (nat * nat)).   (* key -> (context id, serial of the context the session lives in) *)
Definition key_eqb (a b : string * string) : bool := String.eqb (fst a) (fst b) && String.eqb (snd a) (snd b).
Definition ensure_session (c : sess_cache) (k : string * string) (cur : ctx) : nat * sess_cache :=
  match find (fun e => key_eqb (fst e) k) c with
  | Some (_, (cid, serial)) =>
      if cid =? ctx_addr cur then (serial, c)
      else (ctx_serial cur, (k, (ctx_addr cur, ctx_serial cur)) :: filter (fun e => negb (key_eqb (fst e) k)) c)
  | None => (ctx_serial cur, (k, (ctx_addr cur, ctx_serial cur)) :: c)
  end.

(* ---------------------------------------------------------------- SPU links *)

(** spu_impl.py:254-314: pcall_static executes with the sorted parties; the local rank is the
    position among them *)
Fixpoint index_of (r : nat) (l : list nat) : option nat :=
  match l with [] => None | x :: l => if x =? r then Some 0 else option_map S (index_of r l) end.
Definition local_rank (members : list nat) (r : nat) : option nat := index_of r (norm members).
(** api.py:512-523: position of a rank among the members = index of the share dealt to it *)
Definition share_index (members : list nat) (r : nat) : option nat := index_of r members.

(** spu_state.py:250-259: cache key of a link; [cfg] stands for protocol, field, fraction bits
    and (brpc) link options; endpoints are listed in the order of the parties when the worker
    has an endpoint map, otherwise the communicator is used *)
Definition link_key : Type := (nat * nat * nat * option (list string))%type.
Record spu_exec : Type := Exec { ex_parties : list nat; ex_cfg : nat }.
Definition key_of (endpoint : option (nat -> string)) (me : nat) (e : spu_exec) : option link_key :=
  match index_of me (ex_parties e) with
  | Some lr => Some (lr, length (ex_parties e), ex_cfg e, option_map (fun ep => map ep (ex_parties e)) endpoint)
  | None => None
  end.
Definition link_key_eqb (a b : link_key) : bool :=
  match a, b with
  | (r, s, c, e), (r', s', c', e') =>
      (r =? r') && (s =? s') && (c =? c') && match e, e' with
                                             | None, None => true
                                             | Some l, Some l' => (length l =? length l') && forallb (fun p => String.eqb (fst p) (snd p)) (combine l l')
                                             | _, _ => false
                                             end
  end.
(** 201-206, 275-296: one link per key; a link remembers the parties it was created for.
    [get_link] returns the parties of the link an execution uses. *)
Definition link_cache : Type := list (link_key * list nat).
Definition get_link (endpoint : option (nat -> string)) (me : nat) (c : link_cache) (e : spu_exec) : option (list nat * link_cache) :=
  match key_of endpoint me e with
  | None => None
  | Some k => match find (fun x => link_key_eqb (fst x) k) c with
              | Some (_, ps) => Some (ps, c)
              | None => Some (ex_parties e, (k, ex_parties e) :: c)
              end
  end.
(** the links used by a history of executions at one rank *)
Fixpoint run_execs (endpoint : option (nat -> string)) (me : nat) (c : link_cache) (es : list spu_exec) : option (list (list nat)) :=
  match es with
  | [] => Some []
  | e :: es => match get_link endpoint me c e with
               | Some (ps, c) => option_map (cons ps) (run_execs endpoint me c es)
               | None => None
               end
  end.

(** a history of session requests; every answer is the serial of the context the session lives in *)
Fixpoint run_sessions (c : sess_cache) (l : list ((string * string) * ctx)) : list nat :=
  match l with
  | [] => []
  | (k, cur) :: l => let (s, c) := ensure_session c k cur in s :: run_sessions c l
  end.

(** api.py:433-468: whether a request goes through key generation, attestation and key derivation
    (lines 442-463) or is answered from the cache *)
Definition makes_handshake (c : sess_cache) (k : string * string) (cur : ctx) : bool :=
  match find (fun e => key_eqb (fst e) k) c with Some (_, (cid, _)) => negb (cid =? ctx_addr cur) | None => true end.
Fixpoint run_handshakes (c : sess_cache) (l : list ((string * string) * ctx)) : list bool :=
  match l with
  | [] => []
  | (k, cur) :: l => makes_handshake c k cur :: run_handshakes (snd (ensure_session c k cur)) l
  end.
