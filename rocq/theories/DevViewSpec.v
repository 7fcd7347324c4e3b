(** Who may learn about the secret inputs of a program of device calls (C211). *)
From Coq Require Import Bool Arith String List.
From Verif Require Import SimpModel DeviceModel DeviceSpec SpuRunModel SpuRunSpec DevProgModel DevProgSpec.
Import ListNotations.
Local Open Scope nat_scope.

(** what rank r holds of a sequence of objects *)
Definition view {VT V : Type} (r : nat) (log : list (object VT V)) : list V :=
  flat_map (fun x : object VT V => match snd x r with Some v => [v] | None => [] end) log.

(** two programs that differ only in the values put by the statements marked secret *)
Definition same_but_secrets {VT V : Type} (secret : nat -> bool) (p p' : list (stmt VT V)) : Prop :=
  length p = length p' /\
  forall i s s', nth_error p i = Some s -> nth_error p' i = Some s' ->
  s = s' \/ (secret i = true /\ exists d v v', s = PutValue _ _ d v /\ s' = PutValue _ _ d v').

(** the earlier objects a statement uses *)
Definition uses {VT V : Type} (s : stmt VT V) : list nat :=
  match s with PutValue _ _ _ _ => [] | PutObject _ _ _ i => [i] | CallOn _ _ _ _ _ args => refs args end.
(** the device a statement puts its results on; [places]: the devices of the earlier objects *)
Definition target {VT V : Type} (cluster : string -> option device) (places : list string) (s : stmt VT V) : option string :=
  match s with
  | PutValue _ _ d _ | PutObject _ _ d _ => Some d
  | CallOn _ _ d _ _ args =>
      match mapO (fun a => match a with Ref _ i => option_map Some (nth_error places i) | Lit _ _ => Some None end) args with
      | Some ds => chosen cluster d ds
      | None => None
      end
  end.

(** Follow the secrets through a program: an object is marked when its statement is secret or uses
    a marked object.  Result: device and mark of every object, and the devices secrets get to.
    [widths]: how many objects each statement returns. *)
Fixpoint follow {VT V : Type} (cluster : string -> option device) (secret : nat -> bool) (objs : list (string * bool)) (p : list (stmt VT V)) (widths : list nat) : list (string * bool) * list string :=
  match p, widths with
  | s :: p, w :: ws =>
      match target cluster (map fst objs) s with
      | Some d =>
          let m := secret 0 || existsb (fun j => match nth_error objs j with Some (_, b) => b | None => false end) (uses s) in
          let (all, reached) := follow cluster (fun i => secret (S i)) (objs ++ repeat (d, m) w) p ws in
          (all, if m then d :: reached else reached)
      | None => (objs, [])
      end
  | _, _ => (objs, [])
  end.
