(** Specification side of eager execution: the same program seen from a session
    (its objects are at level 0) and from a traced function (level 1). *)
From Coq Require Import List Bool Arith.
From Verif Require Import TraceModel EagerModel.
Import ListNotations.

(** exchange the levels of "session object" and "object of the function" *)
Definition swap (r : ref) : ref :=
  match fst r with 0 => (1, snd r) | 1 => (0, snd r) | _ => r end.
Definition swap_leaf {C} (l : leaf C) : leaf C :=
  match l with LRef r => LRef (swap r) | LConst c => LConst c end.
Fixpoint swap_body {C} (b : body C) : body C :=
  match b with
  | BRet ls => BRet (map swap_leaf ls)
  | BPrim p args n k => BPrim p (map swap args) n (swap_body k)
  | BCond pred args t e k => BCond (swap pred) (map swap args) (swap_body t) (swap_body e) (swap_body k)
  | BWhile init c l k => BWhile (map swap init) (swap_body c) (swap_body l) (swap_body k)
  | BCall args f k => BCall (map swap args) (swap_body f) (swap_body k)
  end.
(** every statement of the program (not of its inner functions) gives at least one object *)
Fixpoint all_return {C} (b : body C) : bool :=
  match b with
  | BRet _ => true
  | BPrim _ _ n k => negb (Nat.eqb n 0) && all_return k
  | BCond _ _ t _ k => negb (Nat.eqb (nret t) 0) && all_return k
  | BWhile _ _ _ k => all_return k
  | BCall _ f k => negb (Nat.eqb (nret f) 0) && all_return k
  end.
Definition is_value {C V} (d : dval C V) : Prop := exists v, d = DV v.

(** ** Specification of Interpreter.lift: the values of one evaluation of the
    tracer's graph (evaluation number [run]) *)
Definition evaluation {V} (sem : nat -> nat -> list V -> option (list V)) (run : nat)
    (t : ltracer) (captured : list V) : option (nat -> option V) :=
  match lset (fun _ => None) (lt_inputs t) captured with
  | Some e => leval sem run 0 e (lt_ops t)
  | None => None
  end.
(** operations whose result does not depend on when they are executed *)
Definition deterministic {V} (sem : nat -> nat -> list V -> option (list V)) : Prop :=
  forall r r' k vs, sem r k vs = sem r' k vs.
(** what a history of lifts of [xs] must answer, given the values of an evaluation *)
Definition answers {V} (env : option (nat -> option V)) (xs : list nat) : list (option V) :=
  map (fun x => match env with Some e => e x | None => None end) xs.
(** every value that can be lifted is defined: a lifted object is an output of an
    operation or an input of the graph *)
Definition belongs (t : ltracer) (x : nat) : Prop :=
  In x (lt_inputs t) \/ exists o, In o (lt_ops t) /\ In x (l_outs o).

(** What the values of an evaluation are, without the loop: the captured objects have the given
    values, and the outputs of the k-th operation are what its implementation answers on the
    values of its inputs. *)
Definition values_of {V} (sem : nat -> nat -> list V -> option (list V)) (run : nat) (t : ltracer) (captured : list V) (env : nat -> option V) : Prop :=
  Forall2 (fun x v => env x = Some v) (lt_inputs t) captured /\
  forall k o, nth_error (lt_ops t) k = Some o ->
    exists vs rs, Forall2 (fun x v => env x = Some v) (l_ins o) vs /\ sem run k vs = Some rs /\
                  Forall2 (fun x v => env x = Some v) (l_outs o) rs.
(** names are defined once *)
Definition defined_once (t : ltracer) : Prop := NoDup (lt_inputs t ++ flat_map l_outs (lt_ops t)).
