(** Model of tensor.constant (mplang/dialects/tensor.py:213-312,
    mplang/backends/tensor_impl.py:256-275) and of the dtype conversion it relies on
    (mplang/dialects/dtypes.py:50-244). *)
From Coq Require Import List Arith NArith ZArith String Ascii Bool.
From Verif Require Import Base64Model.
Import ListNotations.
Open Scope string_scope.

(** Scalar types (edsl/typing.py:345-369). *)
Inductive sc := Int (bits : nat) | UInt (bits : nat) | Flt (bits : nat) | Cpx (bits : nat) | Bool_.

(** A NumPy dtype: its name and whether its byte order is the swapped one (dtype
    strings such as '>i4' on a little-endian machine). [.type] and [.name] do not
    depend on the byte order. *)
Record dtype := { dname : string; dswap : bool }.

(** dtypes.py:50-70 _SCALAR_TO_JAX and 150-165 _NUMPY_TO_SCALAR: the same fourteen
    pairs, read in the two directions *)
Definition scalar_table : list (string * sc) :=
  [ ("int8", Int 8); ("int16", Int 16); ("int32", Int 32); ("int64", Int 64);
    ("uint8", UInt 8); ("uint16", UInt 16); ("uint32", UInt 32); ("uint64", UInt 64);
    ("float16", Flt 16); ("float32", Flt 32); ("float64", Flt 64);
    ("complex64", Cpx 64); ("complex128", Cpx 128); ("bool", Bool_) ].

Definition sc_eqb (a b : sc) : bool :=
  match a, b with
  | Int x, Int y | UInt x, UInt y | Flt x, Flt y | Cpx x, Cpx y => Nat.eqb x y
  | Bool_, Bool_ => true
  | _, _ => false
  end.

Definition lookup_name (n : string) : option sc :=
  option_map snd (find (fun p => String.eqb (fst p) n) scalar_table).
Definition lookup_sc (s : sc) : option string :=
  option_map fst (find (fun p => sc_eqb (snd p) s) scalar_table).

(** Python's [pat in s] *)
Definition contains (pat s : string) : bool :=
  match String.index 0 pat s with Some _ => true | None => false end.

(** dtypes.py:168-244 [from_dtype] on a numpy dtype: the lookups of lines 187-206
    succeed exactly for the fourteen scalar types (through [.type], which forgets
    the byte order); otherwise the name is searched for substrings (209-242). None:
    ValueError. Names are lower case already. *)
Definition from_dtype (d : dtype) : option sc :=
  match lookup_name d.(dname) with
  | Some s => Some s
  | None =>
      let n := d.(dname) in
      let nu := negb (contains "uint" n) in
      if contains "int8" n && nu then Some (Int 8)
      else if contains "int16" n && nu then Some (Int 16)
      else if contains "int32" n && nu then Some (Int 32)
      else if contains "int64" n && nu then Some (Int 64)
      else if contains "uint8" n then Some (UInt 8)
      else if contains "uint16" n then Some (UInt 16)
      else if contains "uint32" n then Some (UInt 32)
      else if contains "uint64" n then Some (UInt 64)
      else if contains "float16" n then Some (Flt 16)
      else if contains "float32" n then Some (Flt 32)
      else if contains "float64" n then Some (Flt 64)
      else if contains "complex64" n then Some (Cpx 64)
      else if contains "complex128" n then Some (Cpx 128)
      else if contains "bool" n then Some Bool_
      else None
  end.

(** dtypes.py:73-120 [to_jax] on the scalar types produced by [from_dtype]; a native
    NumPy dtype *)
Definition to_jax (s : sc) : option dtype :=
  option_map (fun n => {| dname := n; dswap := false |}) (lookup_sc s).

(** Storage of one element: bytes per component and number of components (complex
    numbers have two). NumPy/ml_dtypes facts. *)
Definition layout (n : string) : option (nat * nat) :=
  if String.eqb n "complex64" then Some (4, 2)
  else if String.eqb n "complex128" then Some (8, 2)
  else if String.eqb n "bool" then Some (1, 1)
  else if String.eqb n "int8" || String.eqb n "uint8" then Some (1, 1)
  else if String.eqb n "int16" || String.eqb n "uint16" || String.eqb n "float16"
          || String.eqb n "bfloat16" then Some (2, 1)
  else if String.eqb n "int32" || String.eqb n "uint32" || String.eqb n "float32" then Some (4, 1)
  else if String.eqb n "int64" || String.eqb n "uint64" || String.eqb n "float64" then Some (8, 1)
  else None.

(** A NumPy array: dtype, shape and its components in row-major order, each given as
    its bit pattern (so the value is determined by dtype name and components). *)
Record nparr := { adt : dtype; ashape : list nat; acomp : list N }.

Definition asize (s : list nat) : nat := fold_right Nat.mul 1 s.

(** [w] bytes of a component, least significant first *)
Fixpoint le (w : nat) (x : N) : list ascii :=
  match w with
  | O => []
  | S w' => ascii_of_N (x mod 256) :: le w' (x / 256)
  end.
Definition comp_bytes (w : nat) (swap : bool) (x : N) : list ascii :=
  if swap then rev (le w x) else le w x.

(** ndarray.tobytes() *)
Definition tobytes (a : nparr) : option string :=
  match layout a.(adt).(dname) with
  | None => None
  | Some (w, _) =>
      Some (string_of_list_ascii (flat_map (comp_bytes w a.(adt).(dswap)) a.(acomp)))
  end.

Fixpoint of_le (l : list ascii) : N :=
  match l with [] => 0%N | c :: r => (N_of_ascii c + 256 * of_le r)%N end.

(** split into [n] groups of [w] bytes; None if the length is not n*w *)
Fixpoint groups (n w : nat) (l : list ascii) : option (list (list ascii)) :=
  match n with
  | O => match l with [] => Some [] | _ => None end
  | S n' =>
      let g := firstn w l in
      if Nat.eqb (List.length g) w then
        match groups n' w (skipn w l) with
        | Some r => Some (g :: r)
        | None => None
        end
      else None
  end.

(** np.frombuffer(data, dtype).reshape(shape).copy() for a native dtype *)
Definition frombuffer (d : dtype) (shape : list nat) (data : string) : option nparr :=
  match layout d.(dname) with
  | None => None
  | Some (w, k) =>
      match groups (k * asize shape) w (list_ascii_of_string data) with
      | None => None
      | Some gs =>
          Some {| adt := d; ashape := shape;
                  acomp := map (fun g => of_le (if d.(dswap) then rev g else g)) gs |}
      end
  end.

(** the traced operation: output type and the value_b64 attribute *)
Record cop := { c_elem : sc; c_shape : list nat; c_b64 : string }.

(** dialects/tensor.py:213-248 [_constant_trace]; TensorType rejects zero dimensions
    (edsl/typing.py:417) *)
Definition constant_trace (a : nparr) : option cop :=
  match from_dtype a.(adt), tobytes a with
  | Some s, Some b =>
      if forallb (fun n => negb (Nat.eqb n 0)) a.(ashape)
      then Some {| c_elem := s; c_shape := a.(ashape); c_b64 := b64enc b |}
      else None
  | _, _ => None
  end.

(** backends/tensor_impl.py:256-275 [constant_impl] *)
Definition constant_impl (o : cop) : option nparr :=
  match to_jax o.(c_elem), b64dec o.(c_b64) with
  | Some d, Some b => frombuffer d o.(c_shape) b
  | _, _ => None
  end.

(** ** The per-tracer cache, dialects/tensor.py:257-312 [constant] *)

(** key: (str(dtype), shape, bytes); str(dtype) shows name and byte order *)
Definition ckey : Type := (string * bool) * list nat * string.
Definition ckey_eq_dec : forall a b : ckey, {a = b} + {a <> b}.
Proof. repeat decide equality. Defined.

(** a tracer: its operations so far and its cache; an object is the position of the
    operation that defines it *)
Record tracer := { ops : list cop; cache : list (ckey * nat) }.

Definition cache_find (k : ckey) (c : list (ckey * nat)) : option nat :=
  option_map snd (find (fun p => if ckey_eq_dec (fst p) k then true else false) c).

Definition constant (t : tracer) (a : nparr) : option (tracer * nat) :=
  match tobytes a with
  | None => None
  | Some b =>
      let k := ((a.(adt).(dname), a.(adt).(dswap)), a.(ashape), b) in
      match cache_find k t.(cache) with
      | Some o => Some (t, o)
      | None =>
          match constant_trace a with
          | None => None
          | Some op =>
              let o := List.length t.(ops) in
              Some ({| ops := t.(ops) ++ [op]; cache := (k, o) :: t.(cache) |}, o)
          end
      end
  end.

(** a sequence of calls to tensor.constant in one tracer *)
Fixpoint constants (t : tracer) (l : list nparr) : option (tracer * list nat) :=
  match l with
  | [] => Some (t, [])
  | a :: r =>
      match constant t a with
      | None => None
      | Some (t', o) =>
          match constants t' r with
          | None => None
          | Some (t'', os) => Some (t'', o :: os)
          end
      end
  end.

(** the value an object of the tracer evaluates to *)
Definition value_of (t : tracer) (o : nat) : option nparr :=
  match nth_error t.(ops) o with Some op => constant_impl op | None => None end.

Definition new_tracer : tracer := {| ops := []; cache := [] |}.
