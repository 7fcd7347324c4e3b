(** What a program of device calls means (C209): the same program on plain values that carry the
    name of their device. *)
From Coq Require Import Bool Arith String List Sorted.
From Verif Require Import SimpModel DeviceModel DeviceSpec SpuRunModel SpuRunSpec DevProgModel.
Import ListNotations.
Local Open Scope nat_scope.

Section Meaning.
Context {VT V : Type}.
Variable cluster : string -> option device.
(** encoding of a value for an SPU, SPU arithmetic, and which functions an SPU can run *)
Variables (enc : V -> V) (sec : (list V -> list V) -> list V -> list V) (spu_accepts : nat -> (list V -> list V) -> bool).

(** the value that arrives when [v] goes from one device to another; None: no such transfer *)
Definition arrives (from to_ : string) (v : V) : option V :=
  if String.eqb from to_ then Some v
  else match option_map dv_kind (cluster from), option_map dv_kind (cluster to_) with
       | Some PPU, Some PPU | Some PPU, Some TEE | Some TEE, Some PPU | Some SPU, Some PPU | Some SPU, Some TEE => Some v
       | Some PPU, Some SPU | Some TEE, Some SPU => Some (enc v)
       | _, _ => None
       end.

(** the outputs of function [g] on device [d]; [k] is the number of outputs announced *)
Definition computes (d : string) (g : list V -> list V) (k : nat) (vs : list V) : option (list V) :=
  match option_map dv_kind (cluster d) with
  | Some PPU | Some TEE => if length (g vs) =? k then Some (g vs) else None
  | Some SPU => if spu_accepts (length vs) g then Some (sec g vs) else None
  | _ => None
  end.

(** the device of a call: the one written down, or the one inferred from the devices of the
    arguments, which C43 describes *)
Definition chosen (d : option string) (args : list (option string)) : option string :=
  match d with
  | Some d => Some d
  | None => match infer true (fun d => option_map dv_kind (cluster d)) args with Dev d => Some d | _ => None end
  end.

Definition meaning_of (env : list (string * V)) (s : stmt VT V) : option (list (string * V)) :=
  match s with
  | PutValue _ _ d v =>
      match option_map dv_kind (cluster d) with
      | Some PPU | Some TEE => Some [(d, v)]
      | Some SPU => option_map (map (pair d)) (computes d (fun _ => [v]) 1 [])
      | _ => None
      end
  | PutObject _ _ d i =>
      match nth_error env i, cluster d with
      | Some (from, v), Some _ => option_map (fun w => [(d, w)]) (arrives from d v)
      | _, _ => None
      end
  | CallOn _ _ d f types args =>
      match mapO (fun a => match a with Ref _ i => option_map (fun p => Some (fst p)) (nth_error env i) | Lit _ _ => Some None end) args with
      | None => None
      | Some places =>
          match chosen d places with
          | None => None
          | Some d =>
              match mapO (fun i => match nth_error env i with Some (from, v) => arrives from d v | None => None end) (refs args) with
              | None => None
              | Some ws => option_map (map (pair d)) (computes d (fun vs => f (fill V (lits args) vs)) (length types) ws)
              end
          end
      end
  end.
Fixpoint meaning (env : list (string * V)) (p : list (stmt VT V)) : option (list (string * V)) :=
  match p with
  | [] => Some env
  | s :: r => match meaning_of env s with Some more => meaning (env ++ more) r | None => None end
  end.

(** a cluster as Cluster specifications allow it: a PPU or TEE has one member, an SPU has members,
    listed here in increasing rank order (C192); all ranks are in the world *)
Definition well_formed (n : nat) : Prop := forall d dev, cluster d = Some dev ->
  dv_name dev = d /\ (forall m, In m (dv_members dev) -> m < n) /\
  match dv_kind dev with
  | PPU | TEE => exists a, dv_members dev = [a]
  | SPU => StronglySorted lt (dv_members dev) /\ dv_members dev <> []
  | OtherKind => True
  end.
End Meaning.

(** object x lies on device d and stands for v: on a PPU or TEE its member holds v, on an SPU its
    members hold the shares of a sharing of v; nobody else holds anything *)
Definition lies_on {VT V : Type} (cluster : string -> option device) (shared : V -> list V -> Prop) (d : string) (x : object VT V) (v : V) : Prop :=
  exists dev, cluster d = Some dev /\ only_at x (dv_members dev) /\
  match dv_kind dev with
  | PPU | TEE => exists t a, dv_members dev = [a] /\ plain_at x t a v
  | SPU => on_spu shared (dv_members dev) v x
  | OtherKind => False
  end.

(** The same program in plain Python, without devices: put(d, x) is x, and device(d)(f)(...) is
    f(...). *)
Fixpoint python {VT V : Type} (p : list (stmt VT V)) (env : list V) : option (list V) :=
  match p with
  | [] => Some env
  | PutValue _ _ _ v :: r => python r (env ++ [v])
  | PutObject _ _ _ i :: r => match nth_error env i with Some v => python r (env ++ [v]) | None => None end
  | CallOn _ _ _ f _ args :: r =>
      match mapO (fun a => match a with Ref _ i => nth_error env i | Lit _ v => Some v end) args with
      | Some vs => python r (env ++ f vs)
      | None => None
      end
  end.
