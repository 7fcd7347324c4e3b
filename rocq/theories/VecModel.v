(** Model of the Arrow vector columns (mplang/extend/arrow/vector.py, compute.py, util.py)
    and of table2tensor's conversion table_to_numpy.

    Simplifications.  Numbers are integers (the value types' precision and the dtype promotion
    of np.concatenate are not modelled); no nulls inside a vector.  pyarrow is written from its
    documentation: FixedSizeListArray.flatten drops the rows that are null; an extension type
    whose name is not registered is read back from IPC as its storage type. *)
From Coq Require Import String List ZArith Bool Arith.
Import ListNotations.
Local Open Scope nat_scope.

Inductive res (A : Type) := Ok (x : A) | Raise.
Arguments Ok {A} x. Arguments Raise {A}.
Definition bind {A B : Type} (r : res A) (f : A -> res B) : res B := match r with Ok x => f x | Raise => Raise end.
Fixpoint mapM {A B : Type} (f : A -> res B) (l : list A) : res (list B) :=
  match l with [] => Ok [] | x :: r => bind (f x) (fun y => bind (mapM f r) (fun ys => Ok (y :: ys))) end.

(** ** Types *)

(** util.py:18-30 *)
Inductive num := Float16 | Float32 | Float64 | Int8 | Int16 | Int32 | Int64 | UInt8 | UInt16 | UInt32 | UInt64.
Scheme Equality for num.
Definition is_integer (t : num) : bool := match t with Float16 | Float32 | Float64 => false | _ => true end.
(** util.py:32-40: the two maps are inverse dictionaries *)
Definition type_to_str (t : num) : String.string :=
  match t with Float16 => "float16" | Float32 => "float32" | Float64 => "float64" | Int8 => "int8" | Int16 => "int16"
  | Int32 => "int32" | Int64 => "int64" | UInt8 => "uint8" | UInt16 => "uint16" | UInt32 => "uint32" | UInt64 => "uint64" end.
Definition all_nums := [Float16; Float32; Float64; Int8; Int16; Int32; Int64; UInt8; UInt16; UInt32; UInt64].
Definition str_to_type (s : String.string) : res num :=
  match find (fun t => String.eqb (type_to_str t) s) all_nums with Some t => Ok t | None => Raise end.

Inductive kind := Dense | Sparse | OneHot.
Inductive storage := SFixed (t : num) (n : Z) | SStruct (idx val : num) | SPlain (t : num).

(** vector.py:358-413: kind (extension name), size, value type, storage type *)
Record vtype := VT { v_kind : kind; v_size : Z; v_val : num; v_sto : storage }.

(** arguments as Python sees them *)
Inductive arg := AInt (z : Z) | AType (t : num) | ANone.
(** [x or default] *)
Definition or_default (a : arg) (d : num) : arg := match a with ANone => AType d | AInt 0 => AType d | _ => a end.

(** 374-384: [size <= 0] and the type predicates raise TypeError on the wrong kind of object *)
Definition vector_init (k : kind) (size val : arg) (s : storage) : res vtype :=
  match size, val with
  | AInt n, AType t => if (n <=? 0)%Z then Raise else Ok (VT k n t s)
  | _, _ => Raise
  end.

(** 421-424: pa.list_(value_type, list_size=size) *)
Definition dense_new (size val : arg) : res vtype :=
  match or_default val Float32, size with
  | AType t, AInt n => vector_init Dense size (AType t) (SFixed t n)
  | _, _ => Raise
  end.
(** 453-467 *)
Definition sparse_new (size val idx : arg) : res vtype :=
  match or_default val Float32, or_default idx Int32 with
  | AType t, AType i => if is_integer i then vector_init Sparse size (AType t) (SStruct i t) else Raise
  | _, _ => Raise
  end.
(** 506-517 *)
Definition one_hot_new (size val idx : arg) : res vtype :=
  match or_default idx Int32 with
  | AType i => if is_integer i then vector_init OneHot size (or_default val Float32) (SPlain i) else Raise
  | _ => Raise
  end.

(** 396-413 *)
Definition storage_eqb (a b : storage) : bool :=
  match a, b with
  | SFixed t n, SFixed t' n' => num_beq t t' && (n =? n')%Z
  | SStruct i t, SStruct i' t' => num_beq i i' && num_beq t t'
  | SPlain t, SPlain t' => num_beq t t'
  | _, _ => false
  end.
Definition kind_eqb (a b : kind) : bool := match a, b with Dense, Dense | Sparse, Sparse | OneHot, OneHot => true | _, _ => false end.
Definition vtype_eqb (a b : vtype) : bool :=
  kind_eqb (v_kind a) (v_kind b) && (v_size a =? v_size b)%Z && num_beq (v_val a) (v_val b) && storage_eqb (v_sto a) (v_sto b).

(** 429-431, 472-475, 522-526: the serialised metadata (JSON objects) *)
Inductive meta := MEmpty | MSize (n : Z) | MSizeType (n : Z) (t : String.string).
Definition ext_serialize (t : vtype) : meta :=
  match v_kind t with Dense => MEmpty | Sparse => MSize (v_size t) | OneHot => MSizeType (v_size t) (type_to_str (v_val t)) end.
(** 433-442, 477-490, 528-537 *)
Definition ext_deserialize (k : kind) (s : storage) (m : meta) : res vtype :=
  match k, s, m with
  | Dense, SFixed t n, _ => dense_new (AInt n) (AType t)
  | Sparse, SStruct i t, MSize n => sparse_new (AInt n) (AType t) (AType i)
  | OneHot, SPlain i, MSizeType n str => bind (str_to_type str) (fun t => one_hot_new (AInt n) (AType t) (AType i))
  | _, _, _ => Raise
  end.

(** 594-615: registration of one sample of every type; an exception is swallowed *)
Definition registration : list (kind * res vtype) :=
  [(Dense, dense_new (AType Float32) (AInt 1)); (Sparse, sparse_new (AType Float32) (AInt 1) ANone); (OneHot, one_hot_new (AType Int32) (AInt 1) ANone)].
Definition registered (r : list (kind * res vtype)) (k : kind) : bool :=
  existsb (fun p => kind_eqb (fst p) k && match snd p with Ok _ => true | Raise => false end) r.

(** Arrow IPC: the field's storage type and extension metadata; on reading, a registered
    extension is rebuilt, an unregistered one is its storage *)
Inductive field := FVec (t : vtype) | FSto (s : storage).
Definition ipc_roundtrip (r : list (kind * res vtype)) (t : vtype) : res field :=
  if registered r (v_kind t) then bind (ext_deserialize (v_kind t) (v_sto t) (ext_serialize t)) (fun t' => Ok (FVec t'))
  else Ok (FSto (v_sto t)).

(** ** Values *)

Definition zeros (size : nat) : list Z := repeat 0%Z size.
Fixpoint set_nth (i : nat) (v : Z) (l : list Z) : list Z :=
  match l, i with [], _ => [] | _ :: r, O => v :: r | x :: r, S j => x :: set_nth j v r end.
Definition in_range (size : nat) (i : Z) : bool := (0 <=? i)%Z && (i <? Z.of_nat size)%Z.

(** zip(indices, values, strict=True): the loop body sees every pair, then a length
    mismatch raises *)
Fixpoint fill (size : nat) (idx val : list Z) (acc : list Z) : res (list Z) :=
  match idx, val with
  | i :: is', v :: vs => fill size is' vs (if in_range size i then set_nth (Z.to_nat i) v acc else acc)
  | [], [] => Ok acc
  | _, _ => Raise
  end.
Fixpoint lookup (i : Z) (idx val : list Z) : res Z :=
  match idx, val with
  | j :: is', v :: vs => if (j =? i)%Z then Ok v else lookup i is' vs
  | [], [] => Ok 0%Z
  | _, _ => Raise
  end.

(** a row of a sparse column: None is a null struct *)
Definition srow := option (list Z * list Z).
(** 73-100 *)
Definition sparse_getitem (size : nat) (r : srow) (i : Z) : res Z :=
  if negb (in_range size i) then Raise
  else match r with None => Ok 0%Z | Some (idx, val) => lookup i idx val end.
(** 102-117 *)
Definition sparse_as_py (size : nat) (r : srow) : res (list Z) :=
  match r with None => Ok (zeros size) | Some (idx, val) => fill size idx val (zeros size) end.
(** 142-171 and 173-206: the same loop for every row *)
Definition sparse_to_pylist (size : nat) (rows : list srow) : res (list (list Z)) := mapM (sparse_as_py size) rows.
Definition sparse_to_numpy (size : nat) (rows : list srow) : res (list (list Z)) :=
  mapM (fun r => match r with Some (idx, val) => fill size idx val (zeros size) | None => Ok (zeros size) end) rows.

Definition orow := option Z.
(** 248-266 *)
Definition onehot_getitem (size : nat) (r : orow) (i : Z) : res Z :=
  if negb (in_range size i) then Raise
  else Ok (match r with Some a => if (a =? i)%Z then 1%Z else 0%Z | None => 0%Z end).
(** 268-278 *)
Definition onehot_as_py (size : nat) (r : orow) : list Z :=
  match r with Some a => if in_range size a then set_nth (Z.to_nat a) 1%Z (zeros size) else zeros size | None => zeros size end.
(** 342-355 *)
Definition onehot_to_pylist (size : nat) (rows : list orow) : list (list Z) := map (onehot_as_py size) rows.
(** 303-340: result[valid_rows, valid_indices] = 1 on a zero matrix *)
Definition onehot_to_numpy (size : nat) (rows : list orow) : list (list Z) :=
  fold_left (fun m p => match snd p with
      | Some a => if in_range size a then map (fun q => if fst q =? fst p then set_nth (Z.to_nat a) 1%Z (snd q) else snd q) (combine (seq 0 (length m)) m) else m
      | None => m end)
    (combine (seq 0 (length rows)) rows) (repeat (zeros size) (length rows)).

(** a row of a dense column: None is a null list, otherwise [size] values *)
Definition drow := option (list Z).
Fixpoint chunks (fuel size : nat) (l : list Z) : list (list Z) :=
  match fuel with O => [] | S f => match l with [] => [] | _ => firstn size l :: chunks f size (skipn size l) end end.
(** 41-59: storage.flatten().to_numpy().reshape(-1, size) *)
Definition dense_to_numpy (size : nat) (rows : list drow) : list (list Z) :=
  let flat := concat (map (fun r => match r with Some v => v | None => [] end) rows) in
  chunks (length flat) size flat.

(** ** Tables *)

Inductive column := CDense (size : nat) (rows : list drow) | CSparse (size : nat) (rows : list srow)
  | COneHot (size : nat) (rows : list orow) | CPlain (rows : list Z).
Definition is_vector (c : column) : bool := match c with CPlain _ => false | _ => true end.
Definition column_array (c : column) : res (list (list Z)) :=
  match c with
  | CDense n r => Ok (dense_to_numpy n r)
  | CSparse n r => sparse_to_numpy n r
  | COneHot n r => Ok (onehot_to_numpy n r)
  | CPlain r => Ok (map (fun x => [x]) r)
  end.
(** np.concatenate(parts, axis=1): the numbers of rows must agree *)
Definition hconcat (parts : list (list (list Z))) : res (list (list Z)) :=
  match parts with
  | [] => Raise
  | a :: rest => if forallb (fun b => length b =? length a) rest
                 then Ok (map (fun i => concat (map (fun b => nth i b []) parts)) (seq 0 (length a))) else Raise
  end.
(** 618-657; without vector columns pandas gives the same layout *)
Definition table_to_numpy (cols : list column) : res (list (list Z)) := bind (mapM column_array cols) hconcat.

(** ** one_hot: compute.py:25-73 *)

(** the integers a type can hold (array.cast raises otherwise) *)
Definition fits (t : num) (z : Z) : bool :=
  match t with
  | Int8 => (-128 <=? z)%Z && (z <? 128)%Z | Int16 => (-32768 <=? z)%Z && (z <? 32768)%Z
  | Int32 => (- 2 ^ 31 <=? z)%Z && (z <? 2 ^ 31)%Z | Int64 => (- 2 ^ 63 <=? z)%Z && (z <? 2 ^ 63)%Z
  | UInt8 => (0 <=? z)%Z && (z <? 256)%Z | UInt16 => (0 <=? z)%Z && (z <? 65536)%Z
  | UInt32 => (0 <=? z)%Z && (z <? 2 ^ 32)%Z | UInt64 => (0 <=? z)%Z && (z <? 2 ^ 64)%Z
  | _ => true
  end.
Definition one_hot (array : list orow) (num_classes : Z) (val idx : num) : res (vtype * list orow) :=
  bind (one_hot_new (AInt num_classes) (AType val) (AType idx)) (fun t =>
  if forallb (fun r => match r with Some z => fits idx z | None => true end) array then Ok (t, array) else Raise).
(** compute.py:117-122: the registered compute function returns the storage *)
Definition one_hot_function (array : list orow) (num_classes : Z) (t : num) : res (list orow) :=
  bind (one_hot array num_classes Float32 t) (fun r => Ok (snd r)).
