(** Model of utils/logging.py (setup_logging, disable_logging, get_logger) on top of the part
    of Python's [logging] module it uses (written from the CPython documentation).

    Simplified: the text of a log line (format, date_format) is left out; what is observed is
    where a record is written, and how often.  Loggers below "mplang" have no level and no
    handlers of their own, as long as the application gives them none; their records are then
    treated like records of "mplang" itself. *)
From Coq Require Import String List Bool Arith Lia.
Import ListNotations.


(** CPython logging: numeric levels. *)
Definition DEBUG := 10.
Definition INFO := 20.
Definition WARNING := 30.
Definition ERROR := 40.
Definition CRITICAL := 50.

(** Streams are numbered; 0 is sys.stderr. *)
Definition stderr := 0.

(** Where a record can end up: a stream, a file, or the k-th handler the application has put
    on Python's root logger. *)
Inductive dest := DStream (id : nat) | DFile (name : string) | DApp (k : nat).

(** CPython logging: NullHandler, StreamHandler, FileHandler with their own level. *)
Inductive handler := HNull | HStream (id level : nat) | HFile (name : string) (level : nat).

(** The state of the logger "mplang": level (0 = NOTSET), handlers, propagate. *)
Record logger := mk_logger { lg_level : nat; lg_handlers : list handler; lg_propagate : bool }.

(** The rest of Python's logging as the application configured it: level of the root logger
    and the levels of its handlers. *)
Record app := mk_app { app_level : nat; app_handlers : list nat }.

(** utils/logging.py:184-189  executed at import on a fresh logger (level NOTSET, no
    handlers, propagate True). *)
Definition import_logger : logger := mk_logger 0 [HNull] false.

(** The argument [stream]: None, False, or a stream. *)
Inductive stream_arg := StNone | StFalse | StGiven (id : nat).

(** utils/logging.py:46-54  arguments; [a_level = None] is a name [logging] does not have,
    [a_filename = Some ""] is falsy like None. *)
Record args := mk_args {
  a_level : option nat; a_filename : option string; a_stream : stream_arg; a_force : bool; a_propagate : bool }.

Definition truthy (f : option string) : option string :=
  match f with Some ""%string => None | _ => f end.

Definition is_null (h : handler) : bool := match h with HNull => true | _ => false end.

(** utils/logging.py:47-142  setup_logging.  [can_open f]: FileHandler can open the file.
    The boolean of the result is false if the call raises. *)
Definition setup (can_open : string -> bool) (a : args) (g : logger) : bool * logger :=
  match a_level a with
  | None => (false, g)                                              (* 98: AttributeError *)
  | Some lv =>
      let force :=                                                   (* 103-108 *)
        if a_propagate a && negb (a_force a)
        then match lg_handlers g with [h] => is_null h | _ => false end
        else a_force a in
      let hs := if force then [] else lg_handlers g in               (* 111-113 *)
      match a_propagate a, truthy (a_filename a), a_stream a with    (* 120-121 *)
      | true, None, StNone => (true, mk_logger lv hs true)
      | _, _, _ =>
          let hs1 := match a_stream a with                           (* 129-135 *)
                     | StFalse => hs
                     | StNone => List.app hs [HStream stderr lv]
                     | StGiven id => List.app hs [HStream id lv]
                     end in
          match truthy (a_filename a) with                           (* 138-142 *)
          | None => (true, mk_logger lv hs1 (a_propagate a))
          | Some f => if can_open f then (true, mk_logger lv (List.app hs1 [HFile f lv]) (a_propagate a))
                      else (false, mk_logger lv hs1 (a_propagate a))
          end
      end
  end.

(** utils/logging.py:145-161  disable_logging. *)
Definition disable (g : logger) : logger := mk_logger (lg_level g) [HNull] false.

(** A call of the application. *)
Inductive call := Setup (a : args) | Disable.

Definition step (can_open : string -> bool) (g : logger) (c : call) : logger :=
  match c with Setup a => snd (setup can_open a g) | Disable => disable g end.

Definition run (can_open : string -> bool) (cs : list call) (g : logger) : logger :=
  fold_left (step can_open) cs g.

(** CPython logging, Logger.callHandlers: the destinations one handler writes a record of
    level [l] to. *)
Definition handle (l : nat) (h : handler) : list dest :=
  match h with
  | HNull => []
  | HStream id lv => if lv <=? l then [DStream id] else []
  | HFile f lv => if lv <=? l then [DFile f] else []
  end.

Fixpoint handle_app (l k : nat) (hs : list nat) : list dest :=
  match hs with
  | [] => []
  | lv :: r => List.app (if lv <=? l then [DApp k] else []) (handle_app l (S k) r)
  end.

(** CPython logging, Logger.isEnabledFor / getEffectiveLevel / callHandlers / lastResort:
    a logger without a level takes the root logger's; the handlers of the logger and, if it
    propagates, of the root logger are asked, whatever the root logger's level; if there is
    no handler at all, records of level WARNING or higher go to sys.stderr. *)
Definition emit (ap : app) (g : logger) (l : nat) : list dest :=
  let eff := if lg_level g =? 0 then app_level ap else lg_level g in
  if eff <=? l then
    let up := if lg_propagate g then app_handlers ap else [] in
    match lg_handlers g, up with
    | [], [] => if WARNING <=? l then [DStream stderr] else []
    | hs, up => List.app (flat_map (handle l) hs) (handle_app l 0 up)
    end
  else [].

(** utils/logging.py:164-181  get_logger: the name of the logger returned. *)
Definition get_logger (name : string) : string :=
  if String.prefix "mplang"%string name then name else String.append "mplang."%string name.
