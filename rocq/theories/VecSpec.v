(** Specifications for the Arrow vector columns (C89-C91). *)
From Coq Require Import String List ZArith Bool Arith.
From Verif Require Import VecModel.
Import ListNotations.
Local Open Scope nat_scope.

(** the vector [v] that a row of a sparse column denotes: [size] entries, the entries listed in
    the row have the listed values, the others are 0 *)
Definition sparse_denotes (size : nat) (r : srow) (v : list Z) : Prop :=
  length v = size /\
  match r with
  | None => forall i, i < size -> nth i v 0%Z = 0%Z
  | Some (idx, val) =>
      (forall k i x, nth_error idx k = Some (Z.of_nat i) -> nth_error val k = Some x -> i < size -> nth i v 0%Z = x) /\
      (forall i, i < size -> ~ In (Z.of_nat i) idx -> nth i v 0%Z = 0%Z)
  end.

(** the vector of a one-hot row *)
Definition onehot_denotes (size : nat) (r : orow) (v : list Z) : Prop :=
  length v = size /\ forall i, i < size -> nth i v 0%Z = (match r with Some a => if (a =? Z.of_nat i)%Z then 1 else 0 | None => 0 end)%Z.

(** a well-formed sparse row: as many values as indices, no index listed twice *)
Definition sparse_row_ok (r : srow) : Prop :=
  match r with None => True | Some (idx, val) => length idx = length val /\ NoDup idx end.

(** row i of a column as the features it stands for *)
Definition column_row (c : column) (i : nat) (fs : list Z) : Prop :=
  match c with
  | CDense _ rows => nth_error rows i = Some (Some fs)
  | CSparse n rows => exists r, nth_error rows i = Some r /\ sparse_denotes n r fs
  | COneHot n rows => exists r, nth_error rows i = Some r /\ onehot_denotes n r fs
  | CPlain rows => exists x, nth_error rows i = Some x /\ fs = [x]
  end.
Definition column_rows (c : column) : nat :=
  match c with CDense _ r => length r | CSparse _ r => length r | COneHot _ r => length r | CPlain r => length r end.
(** what Arrow guarantees, and for dense columns no null row *)
Definition column_ok (c : column) : Prop :=
  match c with
  | CDense n rows => 0 < n /\ Forall (fun r => exists v, r = Some v /\ length v = n) rows
  | CSparse _ rows => Forall sparse_row_ok rows
  | _ => True
  end.
(** the same, null rows allowed *)
Definition column_ok_null (c : column) : Prop :=
  match c with
  | CDense n rows => 0 < n /\ Forall (fun r => match r with Some v => length v = n | None => True end) rows
  | _ => column_ok c
  end.

(** the vector types a user can construct *)
Definition constructible (t : vtype) : Prop :=
  (exists n val, dense_new n val = Ok t) \/ (exists n val idx, sparse_new n val idx = Ok t) \/ (exists n val idx, one_hot_new n val idx = Ok t).

(** the registration with the arguments in the constructors' order *)
Definition intended_registration : list (kind * res vtype) :=
  [(Dense, dense_new (AInt 1) (AType Float32)); (Sparse, sparse_new (AInt 1) (AType Float32) ANone); (OneHot, one_hot_new (AInt 1) (AType Int32) ANone)].

(** the integer types: number of bits, and whether there is a sign *)
Definition int_type (t : num) : option (nat * bool) :=
  match t with
  | Int8 => Some (8, true) | Int16 => Some (16, true) | Int32 => Some (32, true) | Int64 => Some (64, true)
  | UInt8 => Some (8, false) | UInt16 => Some (16, false) | UInt32 => Some (32, false) | UInt64 => Some (64, false)
  | _ => None
  end.
Definition holds (t : nat * bool) (z : Z) : Prop :=
  let (bits, signed) := t in
  if signed then (- 2 ^ (Z.of_nat bits - 1) <= z < 2 ^ (Z.of_nat bits - 1))%Z else (0 <= z < 2 ^ Z.of_nat bits)%Z.
