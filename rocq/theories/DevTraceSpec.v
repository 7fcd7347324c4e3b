(** What the workers of a traced program of device calls should end with (C213). *)
From Coq Require Import Bool Arith String List.
From Verif Require Import DeviceModel SpuRunModel DevProgModel.
Import ListNotations.
Local Open Scope nat_scope.

(** what rank r holds of the results: those on devices it is a member of *)
Definition held {V : Type} (cluster : string -> option device) (results : list (string * V)) (r : nat) : list (option V) :=
  map (fun p => match cluster (fst p) with
                | Some dev => if existsb (Nat.eqb r) (dv_members dev) then Some (snd p) else None
                | None => None
                end) results.

(** the devices a program writes down *)
Definition named {VT V : Type} (p : list (stmt VT V)) : list string :=
  flat_map (fun s => match s with
                     | PutValue _ _ d _ | PutObject _ _ d _ | CallOn _ _ (Some d) _ _ _ => [d]
                     | CallOn _ _ None _ _ _ => []
                     end) p.
