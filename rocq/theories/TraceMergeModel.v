(** Model of the execution traces (runtime/interpreter.py ExecutionTracer) and of
    `mplang-cli trace merge` (cli.py:382-442).

    A trace file is its name and its parsed JSON ([None]: unreadable or not JSON).  Simplified: \d
    is an ASCII digit, file names contain no newline (so that $ is the end of the name),
    floating-point pids go through the parameter [float_pid] (offset, x -> offset + x % 10000),
    the log messages are left out, and in the tracer the time stamps are part of the event. *)
From Coq Require Import String Ascii List ZArith Bool Arith DecimalString.
From Verif Require Import SerdeModel CtxModel.
Import ListNotations.
Local Open Scope string_scope.
Local Open Scope list_scope.

(** ** cli.py:397 the pattern _rank_(\d+)\.json$ (search) *)
Definition is_digit (c : ascii) : bool := (48 <=? nat_of_ascii c)%nat && (nat_of_ascii c <=? 57)%nat.
Fixpoint take_digits (l : list ascii) : list ascii * list ascii :=
  match l with
  | [] => ([], [])
  | c :: r => if is_digit c then let (ds, rest) := take_digits r in (c :: ds, rest) else ([], l)
  end.
Fixpoint drop_prefix (p l : list ascii) : option (list ascii) :=
  match p, l with
  | [], _ => Some l
  | a :: p', b :: l' => if Ascii.eqb a b then drop_prefix p' l' else None
  | _ :: _, [] => None
  end.
(** int(match.group(1)) *)
Definition int_of_digits (ds : list ascii) : nat := fold_left (fun a c => 10 * a + (nat_of_ascii c - 48)) ds 0.
(** the match must end at the end of the name, so it is read from there *)
Definition rank_of (fname : string) : option nat :=
  match drop_prefix (rev (list_ascii_of_string ".json")) (rev (list_ascii_of_string fname)) with
  | None => None
  | Some l =>
      let (ds, rest) := take_digits l in
      match ds, drop_prefix (rev (list_ascii_of_string "_rank_")) rest with
      | [], _ | _, None => None
      | _, Some _ => Some (int_of_digits (rev ds))
      end
  end.

Section Merge.
Variable float_pid : Z -> Z -> Z.

(** cli.py:421-424 original_pid % 10000 added to the offset; a bool is an int, the rest raises *)
Definition new_pid (offset : Z) (pid : json) : option json :=
  match pid with
  | JInt z => Some (JInt (offset + z mod 10000)%Z)
  | JBool b => Some (JInt (offset + (if b then 1 else 0))%Z)
  | JFloat f => Some (JFloat (float_pid offset f))
  | _ => None
  end.
(** "pid" in s *)
Fixpoint contains (p s : list ascii) : bool :=
  match drop_prefix p s with Some _ => true | None => match s with [] => false | _ :: r => contains p r end end.
(** cli.py:416-432 one event; [None]: an exception *)
Definition renumber (rank : option nat) (event : json) : option json :=
  let offset := match rank with Some r => ((Z.of_nat r + 1) * 10000)%Z | None => 0%Z end in
  match event with
  | JObj kv =>
      match match sfind "pid" kv with
            | None => Some kv
            | Some v => match new_pid offset v with Some p => Some (sput "pid" p kv) | None => None end
            end with
      | None => None
      | Some kv1 =>
          match rank with
          | None => Some (JObj kv1)
          | Some r =>
              match match sfind "args" kv1 with None => Some [] | Some (JObj a) => Some a | Some _ => None end with
              | None => None
              | Some a => Some (JObj (sput "args" (JObj (sput "rank" (JInt (Z.of_nat r)) a)) kv1))
              end
          end
      end
  | JStr s => if contains (list_ascii_of_string "pid") (list_ascii_of_string s) then None
              else match rank with None => Some event | Some _ => None end
  | JArr l => if existsb (fun j => match j with JStr s => String.eqb s "pid" | _ => false end) l then None
              else match rank with None => Some event | Some _ => None end
  | _ => None
  end.
(** cli.py:416-436: the events up to the first exception *)
Fixpoint merge_events (rank : option nat) (events : list json) : list json :=
  match events with
  | [] => []
  | e :: r => match renumber rank e with Some e' => e' :: merge_events rank r | None => [] end
  end.
(** cli.py:404 data.get("traceEvents", []), and what iterating over it gives *)
Definition events_of (data : json) : list json :=
  match data with
  | JObj kv =>
      match sfind "traceEvents" kv with
      | Some (JArr l) => l
      | Some (JObj kv') => map (fun p => JStr (fst p)) kv'
      | Some (JStr s) => map (fun c => JStr (String c "")) (list_ascii_of_string s)
      | _ => []
      end
  | _ => []
  end.
(** cli.py:399-436 *)
Definition merge_file (f : string * option json) : list json :=
  match snd f with Some data => merge_events (rank_of (fst f)) (events_of data) | None => [] end.
(** cli.py:382-442: what is written to the output file; [None]: no file matches, exit 1 *)
Definition trace_merge (files : list (string * option json)) : option json :=
  match files with [] => None | _ => Some (JObj [("traceEvents", JArr (flat_map merge_file files))]) end.
End Merge.

(** ** the tracer *)

(** interpreter.py:206-210 (with a job id, as the workers call it: 1004-1005, 1212-1213) *)
Definition trace_name (job : string) (rank : option nat) : string :=
  ("trace_" ++ job ++ match rank with Some r => "_rank_" ++ show r | None => "" end ++ ".json")%string.
(** what a process does to one tracer.  [by_] is the rank of the worker that logs the event
    (interpreter.py:145-192: it is not stored), [Save] is save_trace of a worker whose trace_pid
    is the given rank (mem.py:102-103: every simulated worker has the same tracer and its own
    rank; http.py:911-932: a tracer of its own and no rank) *)
Inductive action : Type := Log (by_ : nat) (event : json) | Save (job : string) (rank : option nat).
Record tracer : Type := Tracer { events : list (nat * json); files : list (string * json) }.
Definition trace_file (t : tracer) : json := JObj [("traceEvents", JArr (map snd (events t)))].
(** interpreter.py:153-164, 183-192 append; 194-240 save_trace (the metadata key is left out) *)
Definition act (t : tracer) (a : action) : tracer :=
  match a with
  | Log r e => Tracer (events t ++ [(r, e)]) (files t)
  | Save job rank =>
      if (List.length (events t) <? 100)%nat then t
      else Tracer (events t) (sput (trace_name job rank) (trace_file t) (files t))
  end.
Definition run (h : list action) : tracer := fold_left act h (Tracer [] []).
