(** Model of simp.pcall_dynamic: dialects/simp.py:459-514 and 546-570 (tracing; the doc strings say
    what it promises), backends/simp_worker/ops.py:71-80 (the worker), with the evaluation of the
    local graph by runtime/interpreter.py:907-1014.

    Simplifications.  A local graph is the list of its operations; values are numbered, the inputs of
    the graph first.  The back-end of an operation is a function of its arguments; [None] is an
    exception, which ends the whole run (interpreter.py:943-965; the driver raises it, C173). *)
From Coq Require Import List Bool Arith.
From Verif Require Import SimpModel.
Import ListNotations.
Local Open Scope nat_scope.

Section Dyn.
Variable V : Type.
Record lop : Type := LOp { lo_in : list nat; lo_impl : list (option V) -> option (list (option V)) }.
Record lgraph : Type := LGraph { lg_ops : list lop; lg_out : list nat }.

(** interpreter.py:930-1014: None of Python is the value [None] here *)
Fixpoint eval_ops (ops : list lop) (env : list (option V)) : option (list (option V)) :=
  match ops with
  | [] => Some env
  | o :: rest =>
      match lookup env (lo_in o) with
      | Some args => match lo_impl o args with Some outs => eval_ops rest (env ++ outs) | None => None end
      | None => None
      end
  end.
Definition eval_graph (g : lgraph) (args : list (option V)) : option (list (option V)) :=
  match eval_ops (lg_ops g) args with Some env => lookup env (lg_out g) | None => None end.

(** ops.py:71-80 at every rank of the world: every worker evaluates the graph on what it has.
    The k-th output at rank r is [outs r] at k. *)
Definition pcall_dynamic (n : nat) (g : lgraph) (args : list (mpval V)) : option (list (mpval V)) :=
  match mapO (fun r => eval_graph g (map (fun x => x r) args)) (seq 0 n) with
  | None => None
  | Some outs => Some (map (fun k => fun r => match nth_error outs r with Some o => nth k o None | None => None end) (seq 0 (length (lg_out g))))
  end.
End Dyn.
