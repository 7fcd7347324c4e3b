(** Specification for C97, C98: how DuckDB reads a projection list, and what its type names mean
    (DuckDB documentation: quoted identifiers end at the first quote not doubled and are not empty;
    CAST(x AS t) AS y; Arrow types of results). *)
From Coq Require Import Ascii String List Bool Arith.
From Verif Require Import SqlTextModel.
Import ListNotations.
Local Open Scope string_scope.

(** the rest of a quoted identifier, after the opening quote *)
Fixpoint identifier (s : text) : option (text * text) :=
  match s with
  | [] => None
  | c :: r =>
      if Ascii.eqb c quote then
        match r with
        | d :: r' => if Ascii.eqb d quote then match identifier r' with Some (n, t) => Some (quote :: n, t) | None => None end
                     else Some ([], r)
        | [] => Some ([], [])
        end
      else match identifier r with Some (n, t) => Some (c :: n, t) | None => None end
  end.
Definition quoted (s : text) : option (text * text) :=
  match s with
  | c :: r => if Ascii.eqb c quote then match identifier r with Some ([], _) => None | x => x end else None
  | [] => None
  end.
Fixpoint expect (k s : text) : option text :=
  match k, s with
  | [], _ => Some s
  | a :: k', b :: s' => if Ascii.eqb a b then expect k' s' else None
  | _, [] => None
  end.
(** type names, longest first among those sharing a prefix *)
Definition type_names : list (text * pty) :=
  [(T "BOOLEAN", PBool); (T "TINYINT", PI8); (T "SMALLINT", PI16); (T "INTEGER", PI32); (T "BIGINT", PI64);
   (T "UTINYINT", PU8); (T "USMALLINT", PU16); (T "UINTEGER", PU32); (T "UBIGINT", PU64); (T "FLOAT", PF32); (T "DOUBLE", PF64);
   (T "VARCHAR", PString); (T "DATE", PDate32); (T "TIMESTAMP_MS", PTimestampMs); (T "TIME", PTime64us); (T "BLOB", PBinary); (T "JSON", PJson);
   (T "DECIMAL(38, 10)", PDecimal 38 10)].
Fixpoint type_of (l : list (text * pty)) (s : text) : option (pty * text) :=
  match l with
  | [] => None
  | (k, p) :: r => match expect k s with Some t => Some (p, t) | None => type_of r s end
  end.
(** an item of the select list: source column, target type, name of the result column *)
Definition item (s : text) : option ((text * pty * text) * text) :=
  match expect (T "CAST(") s with None => None | Some s1 =>
  match quoted s1 with None => None | Some (src, s2) =>
  match expect (T " AS ") s2 with None => None | Some s3 =>
  match type_of type_names s3 with None => None | Some (p, s4) =>
  match expect (T ") AS ") s4 with None => None | Some s5 =>
  match quoted s5 with None => None | Some (dst, s6) => Some ((src, p, dst), s6) end end end end end end.
Fixpoint items (fuel : nat) (s : text) : option (list (text * pty * text)) :=
  match fuel with O => None | S f =>
  match item s with
  | None => None
  | Some (x, []) => Some [x]
  | Some (x, rest) => match expect (T ", ") rest with
                      | Some rest' => match items f rest' with Some l => Some (x :: l) | None => None end
                      | None => None
                      end
  end end.
(** what DuckDB makes of a select list *)
Definition select_list (s : text) : option (list (text * pty * text)) := items (length s) s.

(** the Arrow type of a column cast to the declared type *)
Definition sql_result (p : pty) : pty := match p with PDate64 => PDate32 | PTime32ms => PTime64us | _ => p end.
(** declared types SQL can express *)
Definition sql_expressible (p : pty) : Prop :=
  match p with PF16 | PDate32 | PTime64us => False | PDecimal a b => a = 38 /\ b = 10 | _ => True end.

Definition has_suffix (s : text) (k : string) : Prop := exists pre, map lower s = (pre ++ T k)%list.
