(** Model of the conversions between tensors and tables: table.constant, table.tensor2table,
    table.table2tensor (mplang/dialects/table.py:71-136, 160-220; mplang/backends/table_impl.py:710-790;
    mplang/dialects/dtypes.py:252-380; mplang/extend/arrow/vector.py:618-657).

    Simplifications.  Columns are scalar (vector columns: C89-C91).  A cell is an integer standing
    for the value in the column's type; a float cell is [Z] too, NaN is a distinguished cell.
    pandas and pyarrow follow their documentation: type inference of Python lists, nulls of an
    integer or boolean column becoming float64 NaN or objects, the common type of a frame. *)
From Coq Require Import Ascii String List ZArith Bool Arith.
Import ListNotations.
Local Open Scope nat_scope.

(** scalar types of a table or tensor *)
Inductive ty := TBool | TI8 | TI16 | TI32 | TI64 | TU8 | TU16 | TU32 | TU64 | TF16 | TF32 | TF64 | TC64 | TC128 | TString.
Scheme Equality for ty.
Definition is_float (t : ty) : bool := match t with TF16 | TF32 | TF64 => true | _ => false end.
Definition is_int (t : ty) : bool := match t with TI8 | TI16 | TI32 | TI64 | TU8 | TU16 | TU32 | TU64 => true | _ => false end.

Inductive cell := Val (z : Z) | NaN.
(** an Arrow column: its type and cells, None is null *)
Record column := Col { col_name : String.string; col_ty : ty; col_cells : list (option cell) }.
Definition table := list column.
Definition num_rows (t : table) : nat := match t with c :: _ => length (col_cells c) | [] => 0 end.

(** a tensor of rank 2: dtype (None is NumPy's object), number of rows and columns, cells by row *)
Record matrix := Mat { m_ty : option ty; m_rows : nat; m_cols : nat; m_cells : list (list cell) }.

(** ** static types *)
(** a static table type: schema and row count (None is -1) *)
Record table_type := TT { tt_schema : list (String.string * ty); tt_rows : option nat }.
Record tensor_type := MT { mt_ty : ty; mt_rows : option nat; mt_cols : nat }.

(** table.py:160-173 and 71-104; number_rows as given by the user, None is -1 *)
Definition table2tensor_type (t : table_type) (number_rows : option nat) : option tensor_type :=
  match number_rows with Some 0 => None | _ =>
  match tt_schema t with
  | [] => None
  | (_, s) :: r =>
      if negb (ty_beq s TString) && forallb (fun c => ty_beq (snd c) s) r then Some (MT s number_rows (length (tt_schema t))) else None
  end end.
(** 160-173: the default number of rows is the table's static one *)
Definition table2tensor_default (t : table_type) : option tensor_type := table2tensor_type t (tt_rows t).
(** 107-136; the schema is a dict: names are checked to be distinct; blank names are refused *)
Definition white (a : Ascii.ascii) : bool := let n := Ascii.nat_of_ascii a in ((9 <=? n) && (n <=? 13)) || ((28 <=? n) && (n <=? 32)).
Definition blank (s : String.string) : bool := forallb white (String.list_ascii_of_string s).
Definition tensor2table_type (m : tensor_type) (names : list String.string) : option table_type :=
  if (length names =? 0) || negb (length names =? mt_cols m) || existsb blank names then None
  else if (fix dup l := match l with [] => false | x :: r => existsb (String.eqb x) r || dup r end) names then None
  else Some (TT (map (fun n => (n, mt_ty m)) names) None).

(** ** run time *)
Section Run.
(** float(int): the nearest float64 of an integer *)
Variable to_float : Z -> Z.
(** the common NumPy type of columns of different types *)
Variable common : list (option ty) -> option ty.

Definition has_null (c : column) : bool := existsb (fun x => match x with None => true | _ => false end) (col_cells c).
(** Series of an Arrow column (Table.to_pandas): its dtype and cells *)
Definition pandas_ty (c : column) : option ty :=
  if ty_beq (col_ty c) TString then None
  else if has_null c then (if is_float (col_ty c) then Some (col_ty c) else if is_int (col_ty c) then Some TF64 else None)
  else Some (col_ty c).
Definition pandas_cell (c : column) (x : option cell) : cell :=
  match x with
  | None => NaN
  | Some (Val z) => if has_null c && is_int (col_ty c) then Val (to_float z) else Val z
  | Some NaN => NaN
  end.
(** vector.py:635-638 to_pandas().to_numpy() *)
Definition frame_ty (ts : list (option ty)) : option ty :=
  match ts with
  | [] => None
  | t :: r => if forallb (fun u => match t, u with Some a, Some b => ty_beq a b | None, None => true | _, _ => false end) r then t else common ts
  end.
Definition to_matrix (t : table) : matrix :=
  Mat (frame_ty (map pandas_ty t)) (num_rows t) (length t)
      (map (fun i => map (fun c => pandas_cell c (nth i (col_cells c) None)) t) (seq 0 (num_rows t))).
(** table_impl.py:719-747 *)
Definition table2tensor (out : tensor_type) (t : table) : option matrix :=
  let rows_ok := match mt_rows out with Some n => num_rows t =? n | None => true end in
  if negb rows_ok then None
  else let m := to_matrix t in
       match m_ty m with Some d => if ty_beq d (mt_ty out) then Some m else None | None => None end.

(** 753-774: Arrow has no complex type *)
Definition tensor2table (names : list String.string) (m : matrix) : option table :=
  if negb (m_cols m =? length names) then None
  else match m_ty m with
       | Some TC64 | Some TC128 | None => None
       | Some d => Some (map (fun p => Col (snd p) d (map (fun row => Some (nth (fst p) row NaN)) (m_cells m))) (combine (seq 0 (length names)) names))
       end.
End Run.

(** ** table.constant of a dict of Python lists *)
Inductive pyval := PInt (z : Z) | PFloat (z : Z) | PBool (b : bool) | PStr (s : String.string) | PNone.
Definition any (f : pyval -> bool) (l : list pyval) : bool := existsb f l.
Definition isint v := match v with PInt _ => true | _ => false end.
Definition isfloat v := match v with PFloat _ => true | _ => false end.
Definition isbool v := match v with PBool _ => true | _ => false end.
Definition isstr v := match v with PStr _ => true | _ => false end.
Definition isnone v := match v with PNone => true | _ => false end.
(** pandas.DataFrame(data)[col].dtype through from_pandas (table.py:213-218, dtypes.py:339-380);
    integers within int64 *)
Definition pandas_type (l : list pyval) : ty :=
  if any isstr l then TString
  else if any isbool l then (if any isint l || any isfloat l || any isnone l then TString else TBool)
  else if any isfloat l then TF64
  else if any isint l then (if any isnone l then TF64 else TI64)
  else TString.
(** pa.table(data): the Arrow type and whether the conversion succeeds (table_impl.py:787-790);
    an empty or all-None list has Arrow's null type, which from_arrow refuses *)
Inductive arrow := AType (t : ty) | ANull | AError.
Definition arrow_type (l : list pyval) : arrow :=
  let kinds := (if any isstr l then 1 else 0) + (if any isbool l then 1 else 0) + (if any isint l || any isfloat l then 1 else 0) in
  if 2 <=? kinds then AError
  else if any isstr l then AType TString
  else if any isbool l then AType TBool
  else if any isfloat l then AType TF64
  else if any isint l then AType TI64
  else ANull.
Definition cell_of (v : pyval) : option cell :=
  match v with PNone => None | PInt z | PFloat z => Some (Val z) | PBool b => Some (Val (if b then 1 else 0)) | PStr s => Some (Val 0) end.
Definition constant_type (data : list (String.string * list pyval)) : table_type :=
  TT (map (fun p => (fst p, pandas_type (snd p))) data) None.
(** the run-time table, when all columns have a scalar type *)
Fixpoint constant_table (data : list (String.string * list pyval)) : option table :=
  match data with
  | [] => Some []
  | (n, l) :: r => match arrow_type l, constant_table r with
                   | AType t, Some tbl => Some (Col n t (map cell_of l) :: tbl)
                   | _, _ => None
                   end
  end.
