(** Model of the declared schema and format of table files (mplang/backends/table_impl.py:361-475,
    793-809; mplang/dialects/table.py:262-330): the SQL text of FileTableSource.register, the type
    tables, _infer_format.

    Simplifications.  Text is a list of characters (ASCII; str.lower acts on ASCII letters).  Vector
    columns are left out (_pa_schema refuses them). *)
From Coq Require Import Ascii String List Bool Arith.
Import ListNotations.
Local Open Scope nat_scope.
Local Open Scope string_scope.

Definition text := list ascii.
Definition T (s : string) : text := list_ascii_of_string s.
Definition quote : ascii := """"%char.

(** column types a schema can declare (elt scalar and custom types) *)
Inductive ety := EBool | EI8 | EI16 | EI32 | EI64 | EU8 | EU16 | EU32 | EU64 | EF16 | EF32 | EF64 | EC64 | EC128
  | EString | EDate | ETime | ETimestamp | EDecimal | EBinary | EJson | EInterval.
(** Arrow types *)
Inductive pty := PBool | PI8 | PI16 | PI32 | PI64 | PU8 | PU16 | PU32 | PU64 | PF16 | PF32 | PF64
  | PString | PDate64 | PDate32 | PTime32ms | PTime64us | PTimestampMs | PDecimal (p s : nat) | PBinary | PJson.

(** 361-381 _type_mapping *)
Definition type_mapping (e : ety) : option pty :=
  match e with
  | EBool => Some PBool | EI8 => Some PI8 | EI16 => Some PI16 | EI32 => Some PI32 | EI64 => Some PI64
  | EU8 => Some PU8 | EU16 => Some PU16 | EU32 => Some PU32 | EU64 => Some PU64
  | EF16 => Some PF16 | EF32 => Some PF32 | EF64 => Some PF64
  | EString => Some PString | EDate => Some PDate64 | ETime => Some PTime32ms | ETimestamp => Some PTimestampMs
  | EDecimal => Some (PDecimal 38 10) | EBinary => Some PBinary | EJson => Some PJson
  | EC64 | EC128 | EInterval => None
  end.
Definition digit (n : nat) : ascii := ascii_of_nat (48 + n).
(** decimal digits of a number below 100, as f-strings print it *)
Definition show (n : nat) : text := if (n <? 10)%nat then [digit n] else [digit (n / 10)%nat; digit (n mod 10)%nat].
(** 384-411 _duckdb_type_mapping and _duckdb_type_name *)
Definition type_name (p : pty) : option text :=
  match p with
  | PBool => Some (T "BOOLEAN") | PI8 => Some (T "TINYINT") | PI16 => Some (T "SMALLINT") | PI32 => Some (T "INTEGER")
  | PI64 => Some (T "BIGINT") | PU8 => Some (T "UTINYINT") | PU16 => Some (T "USMALLINT") | PU32 => Some (T "UINTEGER")
  | PU64 => Some (T "UBIGINT") | PF32 => Some (T "FLOAT") | PF64 => Some (T "DOUBLE") | PString => Some (T "VARCHAR")
  | PDate64 => Some (T "DATE") | PTime32ms => Some (T "TIME") | PTimestampMs => Some (T "TIMESTAMP_MS")
  | PBinary => Some (T "BLOB") | PJson => Some (T "JSON")
  | PDecimal p s => Some (T "DECIMAL(" ++ show p ++ T ", " ++ show s ++ T ")")%list
  | PF16 | PDate32 | PTime64us => None
  end.
(** 414-416 _quote_identifier *)
Definition escape (s : text) : text := flat_map (fun c => if Ascii.eqb c quote then [quote; quote] else [c]) s.
Definition quote_identifier (s : text) : text := (quote :: escape s ++ [quote])%list.
(** 419-428 _pa_schema *)
Fixpoint pa_schema (s : list (text * ety)) : option (list (text * pty)) :=
  match s with
  | [] => Some []
  | (n, e) :: r => match type_mapping e, pa_schema r with Some p, Some q => Some ((n, p) :: q) | _, _ => None end
  end.
(** 466-473: one projection *)
Definition projection (n : text) (ty : text) : text :=
  (T "CAST(" ++ quote_identifier n ++ T " AS " ++ ty ++ T ") AS " ++ quote_identifier n)%list.
Fixpoint projections (s : list (text * pty)) : option (list text) :=
  match s with
  | [] => Some []
  | (n, p) :: r => match type_name p, projections r with Some ty, Some q => Some (projection n ty :: q) | _, _ => None end
  end.
(** ", ".join *)
Fixpoint join (l : list text) : text :=
  match l with [] => [] | [x] => x | x :: r => (x ++ T ", " ++ join r)%list end.
(** 439-473 register with a declared schema over a file's columns; None: it raises *)
Definition register_text (file_columns : list text) (s : list (text * pty)) : option text :=
  if forallb (fun p => existsb (fun c => if list_eq_dec ascii_dec (fst p) c then true else false) file_columns) s
  then match projections s with Some l => Some (join l) | None => None end
  else None.

(** ** formats *)
Inductive hint := HAuto | HParquet | HCsv | HJson.
Inductive fmt := Parquet | Csv | Json.
Definition lower (a : ascii) : ascii :=
  let n := nat_of_ascii a in if (65 <=? n)%nat && (n <=? 90)%nat then ascii_of_nat (n + 32) else a.
(** str.endswith *)
Definition ends_with (suffix s : text) : bool :=
  (length suffix <=? length s)%nat && (if list_eq_dec ascii_dec (skipn (length s - length suffix) s) suffix then true else false).
(** 793-807 _infer_format *)
Definition infer_format (path : text) (h : hint) : fmt :=
  match h with
  | HParquet => Parquet | HCsv => Csv | HJson => Json
  | HAuto =>
      let p := map lower path in
      if ends_with (T ".parquet") p || ends_with (T ".pq") p then Parquet
      else if ends_with (T ".csv") p then Csv
      else if ends_with (T ".json") p || ends_with (T ".jsonl") p then Json
      else Parquet
  end.
(** table.py:281-287 _read_ae, 350-357 _write_ae: the hints they accept, for a non-empty path *)
Definition read_hint_ok (h : hint) : bool := match h with HJson => false | _ => true end.
Definition write_hint_ok (h : hint) : bool := true.
(** the defaults of table.read and table.write *)
Definition read_default : hint := HAuto.
Definition write_default : hint := HParquet.
