(** tensor.bitcast: mplang/dialects/tensor.py:1003-1034, which traces [arr.view(jax_dtype)] through run_jax.

    Modelled from outside /repo: jax.Array.view (jax/_src/numpy/array_methods.py, _view) on integer and
    float element types of whole bytes: an element is the number its bits spell, an array is its element
    type, its shape and its elements in row-major order.  [view] asks for the canonical form of the type it
    is given: with JAX's 64-bit mode off (the default; mplang never turns it on, its tests do:
    tests/conftest.py:25) a 64-bit type becomes its 32-bit one.  Left out: bool and complex types, types
    of less than a byte, and the fate of 64-bit arguments when that mode is off. *)
From Coq Require Import List NArith Arith Bool.
Import ListNotations.

(** dtypes.py:49-69 (to_jax), without bool and complex *)
Inductive ety := I8 | I16 | I32 | I64 | U8 | U16 | U32 | U64 | F16 | BF16 | F32 | F64.
Definition width (t : ety) : nat :=
  match t with I8 | U8 => 1 | I16 | U16 | F16 | BF16 => 2 | I32 | U32 | F32 => 4 | I64 | U64 | F64 => 8 end.
(** jax: canonicalize_dtype *)
Definition canonical (x64 : bool) (t : ety) : ety :=
  if x64 then t else match t with I64 => I32 | U64 => U32 | F64 => F32 | _ => t end.

Record arr := Arr { dt : ety; shape : list nat; elems : list N }.

(** lax.bitcast_convert_type to a wider type joins the last axis, the first element lowest *)
Fixpoint join (w : nat) (l : list N) : N :=
  match l with [] => 0%N | e :: r => (e + 256 ^ N.of_nat w * join w r)%N end.
(** and to a narrower one adds an axis, the lowest part first *)
Fixpoint split (w k : nat) (x : N) : list N :=
  match k with 0 => [] | S k' => (x mod 256 ^ N.of_nat w)%N :: split w k' (x / 256 ^ N.of_nat w)%N end.
Fixpoint groups (m k : nat) (l : list N) : list (list N) :=
  match m with 0 => [] | S m' => firstn k l :: groups m' k (skipn k l) end.

(** tensor.py:1003-1034 over jax _view; None is the ValueError *)
Definition bitcast (x64 : bool) (a : arr) (asked : ety) : option arr :=
  let t := canonical x64 asked in
  let wi := width (dt a) in let wo := width t in
  match shape a with
  | [] => if wi =? wo then Some (Arr t [] (elems a)) else None
  | _ =>
      let lead := removelast (shape a) in let n := last (shape a) 0 in
      if negb ((n * wi) mod wo =? 0) then None
      else Some (Arr t (lead ++ [n * wi / wo])
                   (if wi <? wo then map (join wi) (groups (length (elems a) / (wo / wi)) (wo / wi) (elems a))
                    else flat_map (split wo (wi / wo)) (elems a)))
  end.
