(** What a user expects of the logging functions. *)
From Coq Require Import String List Bool Arith Lia.
From Verif Require Import LogModel.
Import ListNotations.

(** The five levels setup_logging documents. *)
Definition documented (lv : nat) : Prop := In lv [DEBUG; INFO; WARNING; ERROR; CRITICAL].

(** The destinations the documentation of setup_logging promises for a call: the stream
    (sys.stderr by default, none for False, and none if only propagate is given), the file
    if a name is given. *)
Definition asked (a : args) : list dest :=
  match a_stream a, a_propagate a, truthy (a_filename a) with
  | StNone, true, None => []
  | StNone, _, _ => [DStream stderr]
  | StGiven id, _, _ => [DStream id]
  | StFalse, _, _ => []
  end ++ match truthy (a_filename a) with Some f => [DFile f] | None => [] end.

(** The application's own handlers that take records of level [l]. *)
Definition apps (ap : app) (l : nat) : list dest :=
  map DApp (filter (fun k => nth k (app_handlers ap) 0 <=? l) (seq 0 (List.length (app_handlers ap)))).

(** What a record of level [l] should be written to after a call with arguments [a]. *)
Definition expected (ap : app) (a : args) (lv l : nat) : list dest :=
  if lv <=? l then asked a ++ (if a_propagate a then apps ap l else []) else [].

(** A logger is in the hierarchy of "mplang" if it is "mplang" or "mplang.<something>". *)
Definition in_hierarchy (name : string) : Prop := name = "mplang"%string \/ exists r, name = String.append "mplang."%string r.

(** The call asks for a log file that cannot be opened. *)
Definition file_fails (can_open : string -> bool) (a : args) : Prop :=
  exists f, a_filename a = Some f /\ f <> ""%string /\ can_open f = false.
