(** Model of the tensor dialect (mplang/dialects/tensor.py) and of its run-time
    implementations (mplang/backends/tensor_impl.py).

    - Static types: element type and a shape whose dimensions are positive or -1
      (dynamic), as checked by TensorType.__init__ (edsl/typing.py:398-420).
    - Run-time values: an array is a shape and an element at every index.
    - The NumPy functions the implementations call (transpose, reshape,
      concatenate, take, basic slicing) are written out from NumPy's documented
      behaviour; NumPy itself is not part of /repo (see DESIGN.md). *)
From Coq Require Import List Arith ZArith Lia Bool.
Import ListNotations.
Open Scope Z_scope.

(** Element types. edsl/typing.py IntegerType (bitwidth, signed); every other
    element type is opaque, only compared for equality. *)
Inductive ety := EInt (bits : nat) (signed : bool) | EOther (tag : nat).

Definition ety_eqb (a b : ety) : bool :=
  match a, b with
  | EInt x s, EInt y t => Nat.eqb x y && Bool.eqb s t
  | EOther x, EOther y => Nat.eqb x y
  | _, _ => false
  end.

(** Types of traced objects: TensorType (edsl/typing.py:380) or a scalar /
    opaque type (keys, encoders, plain scalars). *)
Inductive sty := STens (e : ety) (shape : list Z) | SScal (e : ety).

(** edsl/typing.py:411-420: TensorType.__init__ rejects 0 and dimensions below -1. *)
Definition dim_ok (d : Z) : bool := (d =? -1) || (0 <? d).
Definition mk_tensor (e : ety) (shape : list Z) : option sty :=
  if forallb dim_ok shape then Some (STens e shape) else None.

(** ** Static typing rules (abstract evaluation) *)

(** list(shape)[i] for a valid index *)
Definition znth (l : list Z) (i : Z) : Z := nth (Z.to_nat i) l 0.

Definition zmem (x : Z) (l : list Z) : bool := existsb (Z.eqb x) l.
Definition zrange (n : nat) : list Z := map Z.of_nat (seq 0 n).
(** set(a) == set(b) *)
Definition zset_eqb (a b : list Z) : bool :=
  forallb (fun x => zmem x b) a && forallb (fun x => zmem x a) b.

(** dialects/tensor.py:541-573 [_transpose_ae] *)
Definition transpose_ae (t : sty) (perm : list Z) : option sty :=
  match t with
  | STens e sh =>
      let rank := length sh in
      if Nat.eqb (length perm) rank then
        if zset_eqb perm (zrange rank) then mk_tensor e (map (znth sh) perm)
        else None
      else None
  | SScal _ => None
  end.

Definition zprod (l : list Z) : Z := fold_right Z.mul 1 l.
Definition count_neg1 (l : list Z) : nat := length (filter (fun d => d =? -1) l).

(** edsl/typing.py TensorType.is_fully_static: every dimension is positive *)
Definition fully_static (sh : list Z) : bool := forallb (fun d => 0 <? d) sh.

(** dialects/tensor.py:576-631 [_reshape_ae] (new_shape is a tuple) *)
Definition reshape_ae (t : sty) (new_shape : list Z) : option sty :=
  match t with
  | STens e sh =>
      if (1 <? Z.of_nat (count_neg1 new_shape)) then None
      else if fully_static sh then
        let input_size := zprod sh in
        if Nat.eqb (count_neg1 new_shape) 0 then
          if input_size =? zprod new_shape then mk_tensor e new_shape else None
        else
          let known := zprod (filter (fun d => negb (d =? -1)) new_shape) in
          if known =? 0 then None
          else if negb (input_size mod known =? 0) then None
          else mk_tensor e (map (fun d => if d =? -1 then input_size / known else d)
                                new_shape)
      else mk_tensor e new_shape
  | SScal _ => None
  end.

(** axis if axis >= 0 else rank + axis *)
Definition norm_axis (axis : Z) (rank : nat) : Z :=
  if 0 <=? axis then axis else Z.of_nat rank + axis.

(** dialects/tensor.py:681-706, one further tensor: the loop over dim_idx; the
    accumulator is (remaining dims of result_shape, position); [ax] is the
    normalized axis; the running concat_dim_size is handled separately. *)
Fixpoint concat_dims (ax : nat) (i : nat) (res sh : list Z) : option (list Z) :=
  match res, sh with
  | [], [] => Some []
  | r :: res', d :: sh' =>
      match concat_dims ax (S i) res' sh' with
      | None => None
      | Some rest =>
          if Nat.eqb i ax then Some (r :: rest)
          else if negb (r =? -1) && negb (d =? -1) && negb (r =? d) then None
          else Some ((if d =? -1 then -1 else r) :: rest)
      end
  | _, _ => None
  end.

Fixpoint concat_loop (ax : nat) (res : list Z) (cds : Z) (ts : list (list Z)) :
  option (list Z * Z) :=
  match ts with
  | [] => Some (res, cds)
  | sh :: ts' =>
      if Nat.eqb (length sh) (length res) then
        match concat_dims ax 0 res sh with
        | None => None
        | Some res' =>
            let d := nth ax sh 0 in
            let cds' := if (cds =? -1) || (d =? -1) then -1 else cds + d in
            concat_loop ax res' cds' ts'
        end
      else None
  end.

Fixpoint set_nth {A} (n : nat) (x : A) (l : list A) : list A :=
  match l, n with
  | [], _ => []
  | _ :: r, O => x :: r
  | a :: r, S n' => a :: set_nth n' x r
  end.

(** the isinstance loop, dialects/tensor.py:653-655 *)
Fixpoint all_tensors (ts : list sty) : option (list (ety * list Z)) :=
  match ts with
  | [] => Some []
  | STens e sh :: r =>
      match all_tensors r with Some l => Some ((e, sh) :: l) | None => None end
  | SScal _ :: _ => None
  end.

(** dialects/tensor.py:634-709 [_concat_ae] *)
Definition concat_ae (ts : list sty) (axis : Z) : option sty :=
  match all_tensors ts with
  | None | Some [] => None
  | Some ((e, first) :: rest) =>
      if forallb (fun p => ety_eqb (fst p) e) rest then
        let rank := length first in
        let ax := norm_axis axis rank in
        if (ax <? 0) || (Z.of_nat rank <=? ax) then None
        else
          let a := Z.to_nat ax in
          match concat_loop a first (nth a first 0) (map snd rest) with
          | None => None
          | Some (res, cds) => mk_tensor e (set_nth a cds res)
          end
      else None
  end.

(** dialects/tensor.py:712-756 [_gather_ae] *)
Definition gather_ae (t ix : sty) (axis : Z) : option sty :=
  match t, ix with
  | STens e sh, STens (EInt bits _) ish =>
      if Nat.eqb bits 32 || Nat.eqb bits 64 then
        let rank := length sh in
        let ax := norm_axis axis rank in
        if (ax <? 0) || (Z.of_nat rank <=? ax) then None
        else
          let a := Z.to_nat ax in
          mk_tensor e (firstn a sh ++ ish ++ skipn (S a) sh)
      else None
  | _, _ => None
  end.

(** dialects/tensor.py:759-796 [_scatter_ae] *)
Definition scatter_ae (t ix up : sty) : option sty :=
  match t, ix, up with
  | STens e sh, STens _ _, STens e' _ =>
      if ety_eqb e' e then Some (STens e sh) else None
  | _, _, _ => None
  end.

(** dialects/tensor.py:845-868: the length of one sliced static dimension *)
Definition slice_len_ae (dim start stop stride : Z) : Z :=
  let start := if start <? 0 then Z.max 0 (dim + start) else start in
  let stop := if stop <? 0 then Z.max 0 (dim + stop) else stop in
  let start := Z.max 0 (Z.min start dim) in
  let stop := Z.max 0 (Z.min stop dim) in
  if stop <=? start then 0 else (stop - start + stride - 1) / stride.

(** dialects/tensor.py:838-870, the loop over the dimensions *)
Fixpoint slice_dims (sh starts stops strides : list Z) : option (list Z) :=
  match sh, starts, stops, strides with
  | [], [], [], [] => Some []
  | d :: sh', a :: starts', b :: stops', s :: strides' =>
      match slice_dims sh' starts' stops' strides' with
      | None => None
      | Some rest =>
          if d =? -1 then Some (-1 :: rest)
          else if s <=? 0 then None
          else Some (slice_len_ae d a b s :: rest)
      end
  | _, _, _, _ => None
  end.

(** dialects/tensor.py:799-872 [_slice_ae] *)
Definition slice_ae (t : sty) (starts stops : list Z) (strides : option (list Z)) :
  option sty :=
  match t with
  | STens e sh =>
      let rank := length sh in
      let strides := match strides with Some s => s | None => repeat 1 rank end in
      if Nat.eqb (length starts) rank && Nat.eqb (length stops) rank &&
         Nat.eqb (length strides) rank
      then match slice_dims sh starts stops strides with
           | Some d => mk_tensor e d
           | None => None
           end
      else None
  | SScal _ => None
  end.

Fixpoint list_eqb {A} (eqb : A -> A -> bool) (a b : list A) : bool :=
  match a, b with
  | [], [] => true
  | x :: a', y :: b' => eqb x y && list_eqb eqb a' b'
  | _, _ => false
  end.

(** dialects/tensor.py:356-381 [_ElementwiseTracer._lift_type]: the shape seen so
    far ([None]: no tensor yet) *)
Definition lift_shape (acc : option (list Z)) (t : sty) : option (option (list Z)) :=
  match t with
  | SScal _ => Some acc
  | STens _ sh =>
      match acc with
      | None => Some (Some sh)
      | Some cur =>
          if list_eqb Z.eqb cur sh then Some (Some cur)
          else if list_eqb Z.eqb cur [] then Some (Some sh)
          else if list_eqb Z.eqb sh [] then Some (Some cur)
          else None
      end
  end.

Fixpoint lift_shapes (acc : option (list Z)) (ts : list sty) : option (option (list Z)) :=
  match ts with
  | [] => Some acc
  | t :: ts' =>
      match lift_shape acc t with
      | None => None
      | Some acc' => lift_shapes acc' ts'
      end
  end.

(** dialects/tensor.py:384-478 [_elementwise_trace] with one output; the element
    type [e] of the output is the one found by tracing the function (a rank-0
    tensor output is reduced to its element type, 448-452). *)
Definition elementwise_ae (ts : list sty) (e : ety) : option sty :=
  match lift_shapes None ts with
  | None => None
  | Some None => mk_tensor e []
  | Some (Some sh) => mk_tensor e sh
  end.

(** ** Run-time arrays *)

Record arr := { sh : list nat; get : list nat -> Z }.

(** every index of a shape, in row-major order: np.ndindex *)
Fixpoint all_idx (s : list nat) : list (list nat) :=
  match s with
  | [] => [[]]
  | n :: s' => flat_map (fun i => map (cons i) (all_idx s')) (seq 0 n)
  end.

Fixpoint in_shape (s idx : list nat) : bool :=
  match s, idx with
  | [], [] => true
  | n :: s', i :: idx' => Nat.ltb i n && in_shape s' idx'
  | _, _ => false
  end.

Definition size (s : list nat) : nat := fold_right Nat.mul 1%nat s.

(** row-major position of an index and back *)
Fixpoint ravel (s idx : list nat) : nat :=
  match s, idx with
  | _ :: s', i :: idx' => (i * size s' + ravel s' idx')%nat
  | _, _ => O
  end.
Fixpoint unravel (s : list nat) (k : nat) : list nat :=
  match s with
  | [] => []
  | n :: s' => (k / size s')%nat :: unravel s' (k mod size s')%nat
  end.

(** run-time values: an array, or a value that is not an array *)
Inductive val := VArr (a : arr) | VScal (x : Z).

(** tensor_impl.py:236-245 [_unwrap]: anything else goes through np.asarray *)
Definition unwrap (v : val) : arr :=
  match v with VArr a => a | VScal x => {| sh := []; get := fun _ => x |} end.

(** why an operation raised *)
Inductive err := EShape | EIndex | EFn | ENoImpl.
Inductive res (A : Type) := Ok (a : A) | Err (e : err).
Arguments Ok {A} _. Arguments Err {A} _.

Definition is_perm (perm : list Z) (rank : nat) : bool :=
  Nat.eqb (length perm) rank && forallb (fun k => zmem k perm) (zrange rank).

Fixpoint index_of (x : Z) (l : list Z) : nat :=
  match l with [] => O | y :: r => if x =? y then O else S (index_of x r) end.

(** np.transpose(a, axes=perm) for nonnegative axes (negative axes are rejected by
    the typing rule): tensor_impl.py:809-814. out[i] = a[j] with j[perm[k]] = i[k] *)
Definition np_transpose (perm : list Z) (a : arr) : res arr :=
  if is_perm perm (length a.(sh)) then
    Ok {| sh := map (fun p => nth (Z.to_nat p) a.(sh) O) perm;
          get := fun idx =>
            a.(get) (map (fun j => nth (index_of (Z.of_nat j) perm) idx O)
                         (seq 0 (length a.(sh)))) |}
  else Err EShape.

Definition zsize (s : list nat) : Z := Z.of_nat (size s).

(** a.reshape(new_shape) with at most one -1: tensor_impl.py:801-806 *)
Definition np_reshape (new_shape : list Z) (a : arr) : res arr :=
  let dims :=
    if Nat.eqb (count_neg1 new_shape) 0 then
      if forallb (fun d => 0 <=? d) new_shape && (zprod new_shape =? zsize a.(sh))
      then Some new_shape else None
    else if Nat.eqb (count_neg1 new_shape) 1 then
      let known := zprod (filter (fun d => negb (d =? -1)) new_shape) in
      if forallb (fun d => (d =? -1) || (0 <=? d)) new_shape && negb (known =? 0) &&
         (zsize a.(sh) mod known =? 0)
      then Some (map (fun d => if d =? -1 then zsize a.(sh) / known else d) new_shape)
      else None
    else None
  in
  match dims with
  | None => Err EShape
  | Some ds =>
      let s' := map Z.to_nat ds in
      Ok {| sh := s'; get := fun idx => a.(get) (unravel a.(sh) (ravel s' idx)) |}
  end.

(** the element of the concatenation at position [i] of the axis *)
Fixpoint concat_get (ax : nat) (l : list arr) (idx : list nat) : Z :=
  match l with
  | [] => 0
  | a :: r =>
      let i := nth ax idx O in
      let n := nth ax a.(sh) O in
      if Nat.ltb i n then a.(get) idx
      else concat_get ax r (set_nth ax (i - n)%nat idx)
  end.

Definition same_but (ax : nat) (s t : list nat) : bool :=
  Nat.eqb (length s) (length t) &&
  forallb (fun k => Nat.eqb k ax || Nat.eqb (nth k s O) (nth k t O)) (seq 0 (length s)).

(** np.concatenate(list, axis=axis): tensor_impl.py:278-284 *)
Definition np_concat (axis : Z) (l : list arr) : res arr :=
  match l with
  | [] => Err EShape
  | a :: r =>
      let rank := length a.(sh) in
      let ax := norm_axis axis rank in
      if (ax <? 0) || (Z.of_nat rank <=? ax) then Err EShape
      else
        let k := Z.to_nat ax in
        if forallb (fun b => same_but k a.(sh) b.(sh)) r then
          Ok {| sh := set_nth k (fold_right (fun b n => (nth k b.(sh) O + n)%nat) O l) a.(sh);
                get := concat_get k l |}
        else Err EShape
  end.

(** np.take(a, ind, axis=axis): tensor_impl.py:764-774; negative indices count from
    the end, everything else out of range raises IndexError *)
Definition np_take (a ix : arr) (axis : Z) : res arr :=
  let rank := length a.(sh) in
  let ax := norm_axis axis rank in
  if (ax <? 0) || (Z.of_nat rank <=? ax) then Err EShape
  else
    let k := Z.to_nat ax in
    let n := Z.of_nat (nth k a.(sh) O) in
    if forallb (fun i => let z := ix.(get) i in (- n <=? z) && (z <? n))
               (all_idx ix.(sh))
    then
      let r := length ix.(sh) in
      Ok {| sh := firstn k a.(sh) ++ ix.(sh) ++ skipn (S k) a.(sh);
            get := fun idx =>
              let z := ix.(get) (firstn r (skipn k idx)) in
              let z := if z <? 0 then z + n else z in
              a.(get) (firstn k idx ++ [Z.to_nat z] ++ skipn (k + r) idx) |}
    else Err EIndex.

(** Python slice(start, stop, step).indices(n) (PySlice_AdjustIndices), step <> 0:
    first element and number of elements *)
Definition py_slice (n start stop step : Z) : Z * Z :=
  if 0 <? step then
    let start := if start <? 0 then Z.max 0 (start + n) else Z.min start n in
    let stop := if stop <? 0 then Z.max 0 (stop + n) else Z.min stop n in
    (start, if start <? stop then (stop - start - 1) / step + 1 else 0)
  else
    let start := if start <? 0 then Z.max (-1) (start + n) else Z.min start (n - 1) in
    let stop := if stop <? 0 then Z.max (-1) (stop + n) else Z.min stop (n - 1) in
    (start, if stop <? start then (start - stop - 1) / (- step) + 1 else 0).

(** operand_arr[tuple(slices)]: one entry (first, count, step) per dimension *)
Fixpoint np_slices (s : list nat) (starts stops strides : list Z) :
  res (list (Z * Z * Z)) :=
  match starts, stops, strides with
  | [], _, _ => Ok (map (fun n => (0, Z.of_nat n, 1)) s)       (* Ellipsis *)
  | a :: starts', b :: stops', st :: strides' =>
      match s with
      | [] => Err EShape
      | n :: s' =>
          if st =? 0 then Err EShape
          else match np_slices s' starts' stops' strides' with
               | Err e => Err e
               | Ok rest =>
                   let '(f, c) := py_slice (Z.of_nat n) a b st in
                   Ok ((f, c, st) :: rest)
               end
      end
  | _, _, _ => Err EShape
  end.

Fixpoint slice_index (l : list (Z * Z * Z)) (idx : list nat) : list nat :=
  match l, idx with
  | (f, _, st) :: l', i :: idx' =>
      Z.to_nat (f + Z.of_nat i * st) :: slice_index l' idx'
  | _, _ => []
  end.

(** tensor_impl.py:777-798 [slice_impl] *)
Definition slice_impl (a : arr) (starts stops : list Z) (strides : option (list Z)) :
  res arr :=
  let strides := match strides with
                 | Some ((_ :: _) as s) => s
                 | _ => repeat 1 (length starts)
                 end in
  match np_slices a.(sh) starts stops strides with
  | Err e => Err e
  | Ok l => Ok {| sh := map (fun p => Z.to_nat (snd (fst p))) l;
                  get := fun idx => a.(get) (slice_index l idx) |}
  end.

(** ** tensor.elementwise at run time *)

(** tensor_impl.py:299-308: the shape of the first argument whose static type is a
    tensor of rank > 0; () if that value has no shape or there is none *)
Fixpoint elem_shape (ts : list sty) (vs : list val) : list nat :=
  match ts, vs with
  | STens _ (_ :: _) :: _, v :: _ =>
      match v with VArr a => a.(sh) | VScal _ => [] end
  | _ :: ts', _ :: vs' => elem_shape ts' vs'
  | _, _ => []
  end.

(** tensor_impl.py:333-354: the scalar inputs at an index; arg[index] raises
    IndexError outside the array *)
Definition elem_input (t : sty) (v : val) (idx : list nat) : res Z :=
  match t, v with
  | STens _ (_ :: _), VArr a =>
      if in_shape a.(sh) idx then Ok (a.(get) idx) else Err EIndex
  | STens _ (_ :: _), VScal _ => Err EIndex
  | _, VArr a => Ok (a.(get) [])          (* rank-0 array, passed unchanged *)
  | _, VScal x => Ok x
  end.

Fixpoint elem_inputs (ts : list sty) (vs : list val) (idx : list nat) : res (list Z) :=
  match ts, vs with
  | t :: ts', v :: vs' =>
      match elem_input t v idx, elem_inputs ts' vs' idx with
      | Ok x, Ok xs => Ok (x :: xs)
      | Err e, _ => Err e
      | _, Err e => Err e
      end
  | _, _ => Ok []
  end.

(** all results in np.ndindex order, stopping at the first error *)
Fixpoint elem_loop (f : list Z -> option Z) (ts : list sty) (vs : list val)
  (is : list (list nat)) : res (list (list nat * Z)) :=
  match is with
  | [] => Ok []
  | i :: r =>
      match elem_inputs ts vs i with
      | Err e => Err e
      | Ok xs =>
          match f xs with
          | None => Err EFn
          | Some y =>
              match elem_loop f ts vs r with
              | Err e => Err e
              | Ok l => Ok ((i, y) :: l)
              end
          end
      end
  end.

Fixpoint lookup_idx (l : list (list nat * Z)) (i : list nat) : Z :=
  match l with
  | [] => 0
  | (j, y) :: r => if list_eqb Nat.eqb i j then y else lookup_idx r i
  end.

(** tensor_impl.py:287-379 [elementwise_impl], single output. [f] is the traced
    region evaluated on scalars. For shape () the arguments are passed unchanged
    (326-329). *)
Definition elementwise_impl (f : list Z -> option Z) (ts : list sty) (vs : list val) :
  res val :=
  match elem_shape ts vs with
  | [] =>
      match f (map (fun v => (unwrap v).(get) []) vs) with
      | Some y => Ok (VScal y)
      | None => Err EFn
      end
  | s =>
      match elem_loop f ts vs (all_idx s) with
      | Err e => Err e
      | Ok l => Ok (VArr {| sh := s; get := lookup_idx l |})
      end
  end.

(** ** Straight-line tensor programs *)

(** one traced operation; operands are positions in the environment *)
Inductive op :=
| OTranspose (x : nat) (perm : list Z)
| OReshape (x : nat) (new_shape : list Z)
| OConcat (xs : list nat) (axis : Z)
| OGather (x ix : nat) (axis : Z)
| OScatter (x ix up : nat) (axis : Z)
| OSlice (x : nat) (starts stops : list Z) (strides : option (list Z))
| OElem (xs : list nat) (f : list Z -> option Z) (e : ety).

Fixpoint pick {A} (env : list A) (xs : list nat) : option (list A) :=
  match xs with
  | [] => Some []
  | x :: r => match nth_error env x, pick env r with
              | Some a, Some l => Some (a :: l)
              | _, _ => None
              end
  end.

(** edsl/tracer.py:137-166 (abstract evaluation) and the trace rule above *)
Definition op_type (env : list sty) (o : op) : option sty :=
  match o with
  | OTranspose x perm =>
      match nth_error env x with Some t => transpose_ae t perm | None => None end
  | OReshape x ns =>
      match nth_error env x with Some t => reshape_ae t ns | None => None end
  | OConcat xs axis =>
      match pick env xs with Some ts => concat_ae ts axis | None => None end
  | OGather x i axis =>
      match nth_error env x, nth_error env i with
      | Some t, Some u => gather_ae t u axis | _, _ => None end
  | OScatter x i u _ =>
      match nth_error env x, nth_error env i, nth_error env u with
      | Some t, Some i', Some u' => scatter_ae t i' u' | _, _, _ => None end
  | OSlice x a b s =>
      match nth_error env x with Some t => slice_ae t a b s | None => None end
  | OElem xs _ e =>
      match pick env xs with Some ts => elementwise_ae ts e | None => None end
  end.

(** the types of all values of a program *)
Fixpoint trace (env : list sty) (p : list op) : option (list sty) :=
  match p with
  | [] => Some env
  | o :: r => match op_type env o with
              | Some t => trace (env ++ [t]) r
              | None => None
              end
  end.

Definition lift_arr (r : res arr) : res val :=
  match r with Ok a => Ok (VArr a) | Err e => Err e end.

(** one operation executed by the interpreter; scatter has no registered
    implementation (tensor_impl.py defines none, so the interpreter's dispatch
    raises NotImplementedError, runtime/interpreter.py). *)
Definition op_run (tenv : list sty) (env : list val) (o : op) : res val :=
  match o with
  | OTranspose x perm =>
      match nth_error env x with
      | Some v => lift_arr (np_transpose perm (unwrap v)) | None => Err ENoImpl end
  | OReshape x ns =>
      match nth_error env x with
      | Some v => lift_arr (np_reshape ns (unwrap v)) | None => Err ENoImpl end
  | OConcat xs axis =>
      match pick env xs with
      | Some vs => lift_arr (np_concat axis (map unwrap vs)) | None => Err ENoImpl end
  | OGather x i axis =>
      match nth_error env x, nth_error env i with
      | Some v, Some w => lift_arr (np_take (unwrap v) (unwrap w) axis)
      | _, _ => Err ENoImpl end
  | OScatter _ _ _ _ => Err ENoImpl
  | OSlice x a b s =>
      match nth_error env x with
      | Some v => lift_arr (slice_impl (unwrap v) a b s) | None => Err ENoImpl end
  | OElem xs f _ =>
      match pick tenv xs, pick env xs with
      | Some ts, Some vs => elementwise_impl f ts vs
      | _, _ => Err ENoImpl end
  end.

(** the interpreter runs the operations in order (C26 relates every schedule to
    this order) *)
Fixpoint run (tenv : list sty) (env : list val) (p : list op) : res (list val) :=
  match p with
  | [] => Ok env
  | o :: r => match op_run tenv env o with
              | Ok v => run tenv (env ++ [v]) r
              | Err e => Err e
              end
  end.
