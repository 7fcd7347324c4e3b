(** Model of binding a primitive with an abstract evaluation rule: edsl/tracer.py:138-166
    (Tracer.bind_primitive), with runtime/interpreter.py:676-738 (an eager call traces the primitive
    and runs the one operation recorded), dialects/tensor.py:911-926 (concat: bind applied to the list),
    dialects/simp.py:765-785 (converge: the same).

    [T] is the type of static types, [V] of run-time values. *)
From Coq Require Import List Bool Arith ZArith.
From Verif Require Import TensorModel.
Import ListNotations.
Local Open Scope nat_scope.
Local Open Scope list_scope.

(** what a caller passes: an object of the tracer, or a host value (an array, a number) *)
Inductive given (T V : Type) := Obj (t : T) (v : V) | Host (v : V).
Arguments Obj {T V}. Arguments Host {T V}.
Definition is_obj {T V} (a : given T V) : bool := match a with Obj _ _ => true | Host _ => false end.
Definition value {T V} (a : given T V) : V := match a with Obj _ v | Host v => v end.
(** tracer.py:140: [[arg for arg in trace_args if isinstance(arg, TraceObject)]] *)
Fixpoint objects {T V} (l : list (given T V)) : list (T * V) :=
  match l with [] => [] | Obj t v :: r => (t, v) :: objects r | Host _ :: r => objects r end.
(** 143-152: rules whose first parameter is called in_types take the list, the others one parameter
    per input; a call with another number of arguments is a TypeError *)
Inductive style := ListRule | Params (n : nat).
(** the type of the result and the operation's implementation run on the values of its inputs *)
Definition bind {T V R} (s : style) (rule : list T -> option T) (impl : list V -> R) (args : list (given T V)) : option (T * R) :=
  let objs := objects args in
  let ok := match s with ListRule => true | Params n => List.length objs =? n end in
  if ok then option_map (fun t => (t, impl (map snd objs))) (rule (map fst objs)) else None.
(** tensor.py:926 and tensor_impl.py:278-284 *)
Definition concat (axis : Z) (args : list (given sty arr)) : option (sty * res arr) :=
  bind ListRule (fun ts => concat_ae ts axis) (np_concat axis) args.
