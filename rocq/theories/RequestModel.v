(** Model of the non-blocking requests of backends/simp_worker/base.py:119-407 (Request, wait_all,
    wait_any, testall, testany) on top of concurrent.futures (Python >= 3.11, where
    concurrent.futures.TimeoutError is the built-in TimeoutError).

    The executor's transitions of the future and the calls of the client interleave freely; a
    call is atomic, since it only acts once the future is done, and done futures do not change. *)
From Coq Require Import List Bool Arith.
Import ListNotations.
Local Open Scope nat_scope.

Section Request.
Variable V : Type.
Variable none : V.         (* Python's None *)

(** exceptions an operation may raise: TimeoutError, concurrent.futures.CancelledError, another
    Exception, or a BaseException that is not an Exception *)
Inductive exn : Type := ETimeout (n : nat) | ECancelled | EOther (n : nat) | EBase (n : nat).
(** concurrent.futures.Future *)
Inductive fut : Type := FPending | FRunning | FCancelled | FOk (v : V) | FErr (e : exn).
Definition done (f : fut) : bool := match f with FPending | FRunning => false | _ => true end.

Inductive status : Type := PENDING | COMPLETED | CANCELLED | ERROR.
(** 145-158 *)
Record request : Type := Req { r_fut : fut; r_status : status; r_result : V; r_error : option exn }.
Definition new : request := Req FPending PENDING none None.

(** what a call raises: the operation's exception, TimeoutError made by wait, CancelledError of a cancelled future *)
Inductive raised : Type := Op (e : exn) | TimedOut | CancelledError.
Inductive outcome (A : Type) : Type := Ret (a : A) | Raise (x : raised).
Arguments Ret {A}. Arguments Raise {A}.

(** 175-189 _finalize, called when the future is done; future.result(timeout=0) re-raises *)
Definition finalize (r : request) : request * option raised :=
  match r_status r with
  | PENDING =>
      match r_fut r with
      | FCancelled => (Req (r_fut r) CANCELLED (r_result r) (r_error r), None)
      | FOk v => (Req (r_fut r) COMPLETED v (r_error r), None)
      | FErr (EBase n) => (r, Some (Op (EBase n)))
      | FErr e => (Req (r_fut r) ERROR (r_result r) (Some e), None)
      | _ => (r, None)
      end
  | _ => (r, None)
  end.
(** 160-168 status *)
Definition get_status (r : request) : request * outcome status :=
  match r_status r with
  | PENDING => if done (r_fut r) then let (r', x) := finalize r in (r', match x with Some x => Raise x | None => Ret (r_status r') end) else (r, Ret PENDING)
  | s => (r, Ret s)
  end.
(** 191-222 wait; [expires]: the timeout elapses before the future is done. None: still blocked *)
Definition wait (expires : bool) (r : request) : option (request * outcome V) :=
  match r_fut r with
  | FPending | FRunning => if expires then Some (r, Raise TimedOut) else None
  | FOk v => Some (Req (r_fut r) COMPLETED v (r_error r), Ret v)
  | FCancelled => Some (Req (r_fut r) CANCELLED (r_result r) (r_error r), Raise CancelledError)
  | FErr (ETimeout _) => Some (r, Raise TimedOut)                     (* except concurrent.futures.TimeoutError *)
  | FErr ECancelled => Some (Req (r_fut r) CANCELLED (r_result r) (r_error r), Raise (Op ECancelled))
  | FErr (EOther n) => Some (Req (r_fut r) ERROR (r_result r) (Some (EOther n)), Raise (Op (EOther n)))
  | FErr (EBase n) => Some (r, Raise (Op (EBase n)))
  end.
(** the tail of test, wait_all, wait_any, testall and testany: finalize, then raise or give the result *)
Definition conclude (r : request) : request * outcome V :=
  let (r', x) := finalize r in
  match x with
  | Some x => (r', Raise x)
  | None => match r_status r', r_error r' with
            | ERROR, Some e => (r', Raise (Op e))
            | _, _ => (r', Ret (r_result r'))
            end
  end.
(** 224-243 test *)
Definition test (r : request) : request * outcome (bool * V) :=
  if done (r_fut r) then
    match conclude r with
    | (r', Ret v) => (r', Ret (true, v))
    | (r', Raise x) => (r', Raise x)
    end
  else (r, Ret (false, none)).
(** 245-254 cancel *)
Definition cancel (r : request) : request * bool :=
  match r_fut r with
  | FPending | FCancelled => (Req FCancelled CANCELLED (r_result r) (r_error r), true)
  | _ => (r, false)
  end.

(* ---------------------------------------------------------------- histories *)

Inductive event : Type :=
| Start                                  (* the executor starts the operation *)
| Finish (o : V + exn)                   (* the operation returns or raises *)
| Status | Wait (expires : bool) | Test | Cancel.
Inductive obs : Type := ONothing | OStatus (o : outcome status) | OWait (o : outcome V) | OTest (o : outcome (bool * V)) | OCancel (b : bool).
Definition set_fut (r : request) (f : fut) : request := Req f (r_status r) (r_result r) (r_error r).
(** None: the event cannot happen now *)
Definition step (r : request) (ev : event) : option (request * obs) :=
  match ev with
  | Start => match r_fut r with FPending => Some (set_fut r FRunning, ONothing) | _ => None end
  | Finish o => match r_fut r with FRunning => Some (set_fut r (match o with inl v => FOk v | inr e => FErr e end), ONothing) | _ => None end
  | Status => let (r, o) := get_status r in Some (r, OStatus o)
  | Wait x => match wait x r with Some (r, o) => Some (r, OWait o) | None => None end
  | Test => let (r, o) := test r in Some (r, OTest o)
  | Cancel => let (r, b) := cancel r in Some (r, OCancel b)
  end.
Fixpoint run (r : request) (evs : list event) : option (request * list obs) :=
  match evs with
  | [] => Some (r, [])
  | ev :: evs => match step r ev with
                 | Some (r, o) => match run r evs with Some (r, os) => Some (r, o :: os) | None => None end
                 | None => None
                 end
  end.

(* ---------------------------------------------------------------- batches *)

(** 293-302 and 385-393: finalize and collect in order; an error is raised at once *)
Fixpoint collect (rs : list request) : outcome (list V) :=
  match rs with
  | [] => Ret []
  | r :: rs => match snd (conclude r) with
               | Raise x => Raise x
               | Ret v => match collect rs with Ret vs => Ret (v :: vs) | Raise x => Raise x end
               end
  end.
(** 267-302 wait_all; [expires] as for wait *)
Definition wait_all (expires : bool) (rs : list request) : option (outcome (list V)) :=
  if forallb (fun r => done (r_fut r)) rs then Some (collect rs) else if expires then Some (Raise TimedOut) else None.
(** 351-393 testall *)
Definition testall (rs : list request) : outcome (bool * list V) :=
  if forallb (fun r => done (r_fut r)) rs then match collect rs with Ret vs => Ret (true, vs) | Raise x => Raise x end else Ret (false, []).
(** the first request that is done *)
Fixpoint first_done (i : nat) (rs : list request) : option (nat * request) :=
  match rs with [] => None | r :: rs => if done (r_fut r) then Some (i, r) else first_done (S i) rs end.
(** 305-349 wait_any on a non-empty list *)
Definition wait_any (expires : bool) (rs : list request) : option (outcome (nat * V)) :=
  match first_done 0 rs with
  | Some (i, r) => Some (match snd (conclude r) with Ret v => Ret (i, v) | Raise x => Raise x end)
  | None => if expires then Some (Raise TimedOut) else None
  end.
(** 396-407 testany *)
Definition testany (rs : list request) : outcome (option (nat * V)) :=
  match first_done 0 rs with
  | Some (i, r) => match snd (conclude r) with Ret v => Ret (Some (i, v)) | Raise x => Raise x end
  | None => Ret None
  end.
End Request.
Arguments Ret {A}. Arguments Raise {A}.
