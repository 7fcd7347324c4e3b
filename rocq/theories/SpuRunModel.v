(** Running functions on an SPU device: libs/device/api.py:174-191, 226-258 (_device_run_spu,
    _device_run), dialects/spu.py:343-476 (run_jax), backends/spu_impl.py:237-359 (exec_impl),
    on top of the transfers of DeviceModel.

    The SPU library is given by [compile] (spu.utils.frontend.compile: code and number of
    outputs of a traced function, None if it cannot be traced) and [joint] (what
    Runtime.run does when every party of a link runs the same code on its shares: one row
    of shares per local rank in, one row per local rank out; None if it raises).
    Simplified: pytrees are flat lists (their bookkeeping is C26); the link connects the
    parties of the execution (C101 says when it does); the dynamic-shape path, which hands
    StableHLO to the same runtime, is left out. *)
From Coq Require Import Bool Arith String List.
From Verif Require Import SimpModel DeviceModel.
Import ListNotations.
Local Open Scope nat_scope.

Section SpuRun.
Variables (VT V : Type).
Variable vt_eqb : VT -> VT -> bool.
Variable n : nat.
Variables (share_t key_t : VT).
Variables (make_shares : V -> nat -> list V) (reconstruct : list V -> V)
          (encrypt decrypt : V -> V -> V) (pub hkdf quote attest : V -> V) (derive : V -> V -> V).
Variable code : Type.
Variable compile : nat -> (list V -> list V) -> option (code * nat).
Variable joint : code -> list (list V) -> option (list (list V)).
(** isinstance(value, SPUShareValue) *)
Variable is_share : V -> bool.
Notation object := (object VT V).
Notation move := (d2d VT V vt_eqb n share_t key_t make_shares reconstruct encrypt decrypt pub hkdf quote attest derive).

(** Names of the variables of a runtime: f"in{i}" (spu.py:413) and f"out{i}" (spu.py:445). *)
Inductive name : Type := InV (i : nat) | OutV (i : nat).
Definition name_eqb (a b : name) : bool :=
  match a, b with InV i, InV j | OutV i, OutV j => i =? j | _, _ => false end.

(** The variables of one party's runtime.  The runtime is kept between executions
    (spu_state.py:250-296), so that variables of earlier executions are still there. *)
Definition vars : Type := list (name * V).
Definition set_var (e : vars) (k : name) (v : V) : vars := (k, v) :: e.
Definition get_var (e : vars) (k : name) : option V :=
  option_map snd (find (fun p => name_eqb (fst p) k) e).
(** spu_impl.py:323-337: zip(input_names, args): in0, in1, ... *)
Fixpoint set_all (mk : nat -> name) (i : nat) (e : vars) (xs : list V) : vars :=
  match xs with [] => e | x :: r => set_all mk (S i) (set_var e (mk i) x) r end.

(** the runtimes of all ranks *)
Definition runtimes : Type := nat -> vars.

(** spu_impl.py:237-359 exec_impl at all [parties] (= current_parties, sorted by pcall_static)
    together.  A value that is not a share is turned into a 0-dimensional object array by
    np.array (331-332: TensorValue is no array and has no length), which Io.make_shares
    refuses: the call raises. *)
Definition exec (parties : list nat) (c : code) (nin nout : nat) (st : runtimes) (xs : list object) : option (list (mpval V) * runtimes) :=
  match mapO (fun r => all_some (map (fun x : object => snd x r) xs)) parties with
  | None => None
  | Some rows =>
      if negb (forallb (forallb is_share) rows) then None
      else if negb (forallb (fun row => length row =? nin) rows) then None     (* zip strict *)
      else
        let st1 := fun r => match index_of r parties with Some k => set_all InV 0 (st r) (nth k rows []) | None => st r end in
        match mapO (fun r => mapO (fun i => get_var (st1 r) (InV i)) (seq 0 nin)) parties with
        | None => None
        | Some ins =>
            match joint c ins with
            | None => None
            | Some outs =>
                let st2 := fun r => match index_of r parties with Some k => set_all OutV 0 (st1 r) (nth k outs []) | None => st1 r end in
                Some (map (fun j r => if inb r parties then get_var (st2 r) (OutV j) else None) (seq 0 nout), st2)
            end
        end
  end.

(** An argument of a device call: an object living on a device, or a plain Python value. *)
Inductive arg : Type := Obj (from : device) (x : object) | Const (v : V).

(** utils/func_utils.py:108-123 normalize_fn: the arguments that are no Objects stay in the
    function; [None] is the place of an Object, filled with the next variable. *)
Fixpoint fill (template : list (option V)) (vs : list V) : list V :=
  match template with
  | [] => []
  | Some v :: r => v :: fill r vs
  | None :: r => match vs with v :: vs' => v :: fill r vs' | [] => [] end
  end.
Definition template (args : list arg) : list (option V) := map (fun a => match a with Obj _ _ => None | Const v => Some v end) args.
Definition objects (args : list arg) : list (device * object) := flat_map (fun a => match a with Obj d x => [(d, x)] | Const _ => [] end) args.

(** api.py:226-258 _device_run for an SPU device: arguments living elsewhere are moved
    first ([tsk], [vsk]: fresh keys, not used by transfers to an SPU); 174-191
    _device_run_spu: pcall_static of run_jax over the members. *)
Definition device_run (tsk vsk : V) (spu : device) (f : list V -> list V) (args : list arg) (st : runtimes) : option (list object * runtimes) :=
  match mapO (fun p => option_map fst (move (fst p) spu None tsk vsk (snd p))) (objects args) with
  | None => None
  | Some xs =>
      match compile (length xs) (fun vs => f (fill (template args) vs)) with
      | None => None
      | Some (c, nout) =>
          match type_pcall_static VT V (dv_members spu) (Local VT V (repeat share_t nout) (fun _ _ => None)) (map fst xs) with
          | None => None
          | Some ts =>
              match exec (norm (dv_members spu)) c (length xs) nout st xs with
              | Some (vs, st') => Some (combine ts vs, st')
              | None => None
              end
          end
      end
  end.

(** A user's program on one SPU device: inputs on their devices, then calls whose arguments
    are earlier values or Python values. *)
Inductive ref : Type := Ref (i : nat) | Lit (v : V).
Record call : Type := Call { c_fn : list V -> list V; c_args : list ref }.

Definition resolve (env : list (device * object)) (a : ref) : option arg :=
  match a with
  | Ref i => option_map (fun p => Obj (fst p) (snd p)) (nth_error env i)
  | Lit v => Some (Const v)
  end.
Fixpoint run_calls (tsk vsk : V) (spu : device) (cs : list call) (env : list (device * object)) (st : runtimes) : option (list (device * object)) :=
  match cs with
  | [] => Some env
  | c :: cs =>
      match mapO (resolve env) (c_args c) with
      | None => None
      | Some args =>
          match device_run tsk vsk spu (c_fn c) args st with
          | None => None
          | Some (outs, st') => run_calls tsk vsk spu cs (env ++ map (fun x => (spu, x)) outs) st'
          end
      end
  end.
End SpuRun.
