(** Specification of the table conversions (C94, C95). *)
From Coq Require Import String List ZArith Bool Arith.
From Verif Require Import TabConvModel.
Import ListNotations.
Local Open Scope nat_scope.

(** the cell in row i and column j *)
Definition at_ (m : matrix) (i j : nat) : cell := nth j (nth i (m_cells m) []) NaN.
Definition matrix_ok (m : matrix) : Prop := length (m_cells m) = m_rows m /\ Forall (fun r => length r = m_cols m) (m_cells m).
Definition table_ok (t : table) : Prop := Forall (fun c => length (col_cells c) = num_rows t) t.
Definition no_nulls (c : column) : Prop := Forall (fun x => x <> None) (col_cells c).
(** types both NumPy and Arrow have *)
Definition plain (d : ty) : Prop := d <> TString /\ d <> TC64 /\ d <> TC128.

(** Python lists whose columns are of one kind: strings (None allowed), numbers with a float
    (None allowed), integers without None, booleans without None *)
Definition homogeneous (l : list pyval) : Prop :=
  l <> [] /\
  ((Forall (fun v => isstr v = true \/ v = PNone) l /\ Exists (fun v => isstr v = true) l) \/
   (Forall (fun v => isfloat v = true \/ isint v = true \/ v = PNone) l /\ Exists (fun v => isfloat v = true) l) \/
   Forall (fun v => isint v = true) l \/ Forall (fun v => isbool v = true) l).

(** a column name with a character that is not white space *)
Definition readable (s : string) : Prop :=
  exists a, In a (list_ascii_of_string s) /\ ~ In (Ascii.nat_of_ascii a) [9; 10; 11; 12; 13; 28; 29; 30; 31; 32].
