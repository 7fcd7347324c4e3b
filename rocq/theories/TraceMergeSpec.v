(** C197, C198: what a merged trace should say. *)
From Coq Require Import String Ascii List ZArith Bool Arith.
From Verif Require Import SerdeModel TraceMergeModel.
Import ListNotations.
Local Open Scope string_scope.
Local Open Scope list_scope.

(** the value of key k of a JSON object *)
Definition field (k : string) (j : json) : option json := match j with JObj kv => sfind k kv | _ => None end.

(** an event as the tracer writes them: an object with an integer pid, and args, if any, an object *)
Definition proper_event (e : json) : Prop :=
  (exists kv, e = JObj kv) /\ (exists z, field "pid" e = Some (JInt z)) /\
  (field "args" e = None \/ exists a, field "args" e = Some (JObj a)).
(** a file that contains the given events *)
Definition holds_events (data : option json) (events : list json) : Prop :=
  exists d, data = Some d /\ field "traceEvents" d = Some (JArr events).

(** the name says: trace of rank n *)
Definition names_rank (fname : string) (n : nat) : Prop :=
  exists pre ds, fname = (pre ++ "_rank_" ++ string_of_list_ascii ds ++ ".json")%string /\ ds <> [] /\
    Forall (fun c => (48 <= nat_of_ascii c <= 57)%nat) ds /\ n = fold_left (fun a c => 10 * a + (nat_of_ascii c - 48)) ds 0.

(** the process number of an event of process pid in a file of the given rank *)
Definition relocated_pid (rank : option nat) (pid : Z) : Z :=
  (match rank with Some r => (Z.of_nat r + 1) * 10000 | None => 0 end + pid mod 10000)%Z.

(** e' is e, attributed to the rank: all fields are those of e except the process number and, if
    there is a rank, the entry "rank" of its arguments *)
Definition attributed (rank : option nat) (e e' : json) : Prop :=
  (forall k, k <> "pid" -> k <> "args" -> field k e' = field k e) /\
  (forall z, field "pid" e = Some (JInt z) -> field "pid" e' = Some (JInt (relocated_pid rank z))) /\
  match rank with
  | None => field "args" e' = field "args" e
  | Some r => exists a', field "args" e' = Some a' /\ field "rank" a' = Some (JInt (Z.of_nat r)) /\
                forall k, k <> "rank" -> field k a' = match field "args" e with Some a => field k a | None => None end
  end.
(** the events of the merged trace *)
Definition merged (result : option json) (events : list json) : Prop :=
  exists d, result = Some d /\ field "traceEvents" d = Some (JArr events).

(** the events logged in a history, in order *)
Definition logged (h : list action) : list json := flat_map (fun a => match a with Log _ e => [e] | Save _ _ => [] end) h.
