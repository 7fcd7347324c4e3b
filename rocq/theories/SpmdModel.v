(** Model of what one worker does with a whole SIMP program: backends/simp_worker/ops.py:39-177
    (the handlers) run one after the other by runtime/interpreter.py:879-905 and 907-965
    (evaluate_graph without an executor: every worker is created without one,
    simp_driver/mem.py:96-110, simp_worker/http.py:925-935), as a program over the worker's
    communication context (NetModel).

    The syntax of programs is the one of SimpModel; the worker's environment holds its own local
    values only.  Local functions are total: an exception inside one is not modelled. *)
From stdpp Require Import gmap.
From Coq Require Import List Bool Arith.
From Verif Require Import NetSpec NetModel CollModel.
From Verif Require SimpModel.
Import ListNotations.
Local Open Scope nat_scope.

Section Worker.
Context {VT V : Type}.
Variable truthy : V -> bool.     (* bool(x.unwrap()) *)
Variable n : nat.                (* world size *)

(** what travels: the sender's local value, None included *)
Notation msg := (val (option V)).
(** the result of a program; None stands for a graph that is not well formed or for a loop with
    more turns than [fuel], which bounds the number of turns only because Coq's functions are total *)
Notation act A := (prog msg cexn (option A)).
Notation region := (SimpModel.region VT V).
Notation op := (SimpModel.op VT V).

Definition ret {A : Type} (x : A) : act A := NetSpec.Ret (Some x).
Definition stop {A : Type} : act A := NetSpec.Ret None.
Definition seqo {A B : Type} (p : act A) (f : A -> act B) : act B :=
  bind p (fun o => match o with Some a => f a | None => stop end).
Definition need {A B : Type} (o : option A) (f : A -> act B) : act B :=
  match o with Some a => f a | None => stop end.

(** if not None / bool(): a rank that does not hold the value decides like False *)
Definition decide_on (x : option V) : bool := match x with Some x => truthy x | None => false end.

(** ops.py:83-107: what a shuffle leaves at this rank *)
Definition received (m : option msg) : option V :=
  match m with Some (VObj d) => d | _ => None end.

(** ops.py:152-165: the turns of a loop; [cond] and [body] evaluate the regions on a state *)
Fixpoint wloop (cond body : list (option V) -> act (list (option V))) (k : nat) (st : list (option V)) {struct k} : act (list (option V)) :=
  match k with
  | O => stop
  | S k => seqo (cond st) (fun res => if decide_on (hd None res) then seqo (body st) (wloop cond body k) else ret st)
  end.

Fixpoint wregion (fuel : nat) (rank : nat) (g : region) (env : list (option V)) {struct g} : act (list (option V)) :=
  match g with
  | SimpModel.Ret _ _ outs => NetSpec.Ret (SimpModel.lookup env outs)
  | SimpModel.Let _ _ o rest => seqo (wop fuel rank o env) (fun vs => wregion fuel rank rest (env ++ vs))
  end
with wop (fuel : nat) (rank : nat) (o : op) (env : list (option V)) {struct o} : act (list (option V)) :=
  match o with
  | SimpModel.PCallStatic _ _ ps args f =>          (* 39-68 *)
      need (SimpModel.lookup env args) (fun vs =>
        ret (map (fun k : nat => if SimpModel.inb rank (SimpModel.norm ps) then SimpModel.lf_sem _ _ f vs k else None)
                 (seq 0 (length (SimpModel.lf_out _ _ f)))))
  | SimpModel.PCallDynamic _ _ args f =>            (* 71-80 *)
      need (SimpModel.lookup env args) (fun vs =>
        ret (map (SimpModel.lf_sem _ _ f vs) (seq 0 (length (SimpModel.lf_out _ _ f)))))
  | SimpModel.Shuffle _ _ src routing =>            (* 83-107 *)
      need (nth_error env src) (fun data =>
        bind (shuffle rank routing (VObj data)) (fun m => ret [received m]))
  | SimpModel.Converge _ _ args =>                  (* 110-115 *)
      need (SimpModel.lookup env args) (fun vs =>
        ret [fold_right (fun v acc => match v with Some x => Some x | None => acc end) None vs])
  | SimpModel.UniformCond _ _ pred args th el =>    (* 118-137, verify_uniform on, over the whole world *)
      need (nth_error env pred) (fun p => need (SimpModel.lookup env args) (fun vs =>
        bind (verify_uniform_predicate rank n (decide_on p) (seq 0 n)) (fun b =>
          if b then wregion fuel rank th vs else wregion fuel rank el vs)))
  | SimpModel.WhileLoop _ _ init caps _ cond body => (* 140-168 *)
      need (SimpModel.lookup env init) (fun st => need (SimpModel.lookup env caps) (fun cs =>
        wloop (fun st => wregion fuel rank cond (st ++ cs)) (fun st => wregion fuel rank body (st ++ cs)) fuel st))
  end.
End Worker.
