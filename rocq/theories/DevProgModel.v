(** Model of programs of device calls: libs/device/api.py:174-258 (_device_run and its three kinds),
    261-382 (device(...)(fn)), 385-468 (the TEE session cache), 471-664 (_d2d), 667-712 (put), on top
    of the transfers of DeviceModel and the SPU executions of SpuRunModel.

    Simplifications.  Pytrees are flat lists (C26); g_auto_trans is on, as it is by default; one
    context runs the whole program, so that cached sessions are always of the current context (C70,
    C186 deal with several); the [i]-th session takes the [i]-th pair of fresh secret keys; before the
    [k]-th SPU execution the runtimes hold arbitrary variables [left k], whatever ran before; a
    function run on a PPU or TEE is a function of its arguments that returns as many values as its
    trace says, and returns multi-party objects only. *)
From Coq Require Import Bool Arith String List.
From Verif Require Import SimpModel DeviceModel SpuRunModel.
Import ListNotations.
Local Open Scope nat_scope.

Section DevProg.
Variables (VT V : Type).
Variable vt_eqb : VT -> VT -> bool.
Variable n : nat.
Variables (share_t key_t : VT).
Variables (make_shares : V -> nat -> list V) (reconstruct : list V -> V)
          (encrypt decrypt : V -> V -> V) (pub hkdf quote attest : V -> V) (derive : V -> V -> V).
Variable code : Type.
Variable compile : nat -> (list V -> list V) -> option (code * nat).
Variable joint : code -> list (list V) -> option (list (list V)).
Variable is_share : V -> bool.
(** the static type of a Python value or array *)
Variable typ : V -> VT.
(** cluster.devices *)
Variable cluster : string -> option device.
Variable draw : nat -> V * V.
Variable left : nat -> runtimes V.
Notation object := (object VT V).
Notation transfer := (d2d VT V vt_eqb n share_t key_t make_shares reconstruct encrypt decrypt pub hkdf quote attest derive).
Notation spu_run := (device_run VT V vt_eqb n share_t key_t make_shares reconstruct encrypt decrypt pub hkdf quote attest derive code compile joint is_share).

(** the sessions made so far (api.py:73) and how many were made; how many SPU executions there were *)
Record state : Type := State { sessions : list ((string * string) * (object * object)); made : nat; spu_calls : nat }.

(** 385-468; the key is (name of the PPU, name of the TEE) in both directions (566, 592) *)
Definition ensure (st : state) (ppu tee : device) : option ((object * object) * state) :=
  match find (fun e => key_eqb (fst e) (dv_name ppu, dv_name tee)) (sessions st) with
  | Some (_, s) => Some (s, st)
  | None =>
      match dv_members ppu, dv_members tee with
      | [a], [b] =>
          match session VT V n key_t pub hkdf quote attest derive a b (fst (draw (made st))) (snd (draw (made st))) with
          | Some (s, _) => Some (s, State (((dv_name ppu, dv_name tee), s) :: sessions st) (S (made st)) (spu_calls st))
          | None => None
          end
      | _, _ => None
      end
  end.

(** 471-664: an object and the device it lives on *)
Definition move (st : state) (to_ : string) (p : string * object) : option (object * state) :=
  let (tsk, vsk) := draw 0 in     (* not used: a session is at hand where one is needed *)
  if String.eqb (fst p) to_ then Some (snd p, st)
  else match cluster (fst p), cluster to_ with
       | Some from, Some dest =>
           let plain := match transfer from dest None tsk vsk (snd p) with Some (y, _) => Some (y, st) | None => None end in
           let within ppu tee :=
             match ensure st ppu tee with
             | Some (s, st') => match transfer from dest (Some s) tsk vsk (snd p) with Some (y, _) => Some (y, st') | None => None end
             | None => None
             end in
           match dv_kind from, dv_kind dest with
           | PPU, TEE => within from dest
           | TEE, PPU => within dest from
           | _, _ => plain
           end
       | _, _ => None
       end.
Fixpoint moves (st : state) (to_ : string) (ps : list (string * object)) : option (list object * state) :=
  match ps with
  | [] => Some ([], st)
  | p :: r => match move st to_ p with
              | Some (y, st) => match moves st to_ r with Some (ys, st) => Some (y :: ys, st) | None => None end
              | None => None
              end
  end.

(** arguments: objects with their devices, or Python values *)
Inductive darg : Type := OnDevice (d : string) (x : object) | Value (v : V).
Definition dtemplate (args : list darg) : list (option V) := map (fun a => match a with OnDevice _ _ => None | Value v => Some v end) args.
Definition dobjects (args : list darg) : list (string * object) := flat_map (fun a => match a with OnDevice d x => [(d, x)] | Value _ => [] end) args.
Definition as_arg (a : darg) : option (arg VT V) :=
  match a with OnDevice d x => option_map (fun dev => Obj VT V dev x) (cluster d) | Value v => Some (Const VT V v) end.

(** 226-258, 174-223; [types]: what tracing [f] finds for its outputs *)
Definition run_on (st : state) (d : string) (f : list V -> list V) (types : list VT) (args : list darg) : option (list object * state) :=
  match cluster d with
  | None => None                                                         (* DeviceNotFoundError *)
  | Some dev =>
      match dv_kind dev with
      | SPU =>
          match mapO as_arg args with
          | None => None
          | Some args =>
              let (tsk, vsk) := draw 0 in
              match spu_run tsk vsk dev f args (left (spu_calls st)) with
              | Some (ys, _) => Some (ys, State (sessions st) (made st) (S (spu_calls st)))
              | None => None
              end
          end
      | PPU | TEE =>
          match moves st d (dobjects args) with
          | None => None
          | Some (xs, st) =>
              match dv_members dev with
              | [r] => match pcall VT V n [r] (Local VT V types (fun vs k => match all_some vs with Some vs => nth_error (f (fill V (dtemplate args) vs)) k | None => None end)) xs with
                       | Some ys => Some (ys, st)
                       | None => None
                       end
              | _ => None                                                 (* assert *)
              end
          end
      | OtherKind => None
      end
  end.

(** A program: put(device, value), put(device, object), device(d)(f)(...) or device()(f)(...).
    Objects are named by their position. *)
Inductive stmt : Type :=
| PutValue (to_ : string) (v : V)
| PutObject (to_ : string) (i : nat)
| CallOn (d : option string) (f : list V -> list V) (types : list VT) (args : list (ref V)).

Definition dresolve (env : list (string * object)) (a : ref V) : option darg :=
  match a with Ref _ i => option_map (fun p => OnDevice (fst p) (snd p)) (nth_error env i) | Lit _ v => Some (Value v) end.
Definition kind_of (d : string) : option kind := option_map dv_kind (cluster d).
Definition on (d : string) (r : option (list object * state)) : option (list (string * object) * state) :=
  option_map (fun p => (map (pair d) (fst p), snd p)) r.

Definition run_stmt (st : state) (env : list (string * object)) (s : stmt) : option (list (string * object) * state) :=
  match s with
  | PutValue d v =>                                                      (* 684-712 *)
      match cluster d with
      | None => None
      | Some dev =>
          match dv_kind dev with
          | PPU | TEE => match dv_members dev with
                         | [r] => option_map (fun y => ([(d, y)], st)) (pcall1 VT V n [r] (const VT V (typ v) v) [])
                         | _ => None
                         end
          | SPU => on d (run_on st d (fun vs => vs) [] [Value v])         (* 697-701 *)
          | OtherKind => None
          end
      end
  | PutObject d i =>
      match nth_error env i with
      | Some p => match cluster d with None => None | Some _ => option_map (fun r => ([(d, fst r)], snd r)) (move st d p) end
      | None => None
      end
  | CallOn d f types args =>
      match mapO (dresolve env) args with
      | None => None
      | Some args =>
          match (match d with
                 | Some d => Some d
                 | None => match infer true kind_of (map (fun a => match a with OnDevice d _ => Some d | Value _ => None end) args) with Dev d => Some d | _ => None end
                 end) with
          | None => None                                                  (* DeviceInferenceError *)
          | Some d => on d (run_on st d f types args)
          end
      end
  end.
Fixpoint run_prog (st : state) (env : list (string * object)) (p : list stmt) : option (list (string * object)) :=
  match p with
  | [] => Some env
  | s :: r => match run_stmt st env s with Some (more, st) => run_prog st (env ++ more) r | None => None end
  end.
Definition run (p : list stmt) : option (list (string * object)) := run_prog (State [] 0 0) [] p.
End DevProg.
