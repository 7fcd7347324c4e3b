(** Model of programs of table and tensor operations: the abstract evaluation that gives every value
    its static type when the program is traced (mplang/dialects/table.py:39-104, 107-136, 182-220,
    262-284, 321-365) and the execution of the traced operations
    (mplang/backends/table_impl.py:654-790, 805-840, 878-985), composed from TabConvModel.

    Simplifications.  A program is the list of traced operations; an operand is the position of the
    operation that made it.  Tensors have rank 2.  An operation whose result is computed outside
    mplang (a SQL query, a file that is read, a compiled tensor computation) is an arbitrary partial
    function of its operands; the registration of names for SQL is C96's. *)
From Coq Require Import String List ZArith Bool Arith.
From Verif Require Import TabConvModel.
Import ListNotations.
Local Open Scope nat_scope.

Inductive vty := TableT (t : table_type) | TensorT (m : tensor_type).
Inductive value := TableV (t : table) | TensorV (m : matrix) | NoneV.

Inductive outside :=
| Sql (out : table_type) (f : list table -> option table)          (* table.run_sql(query, out_type=out, ...) *)
| Jax (out : tensor_type) (f : list matrix -> option matrix).      (* tensor.run_jax: out from jax's own evaluation *)
Inductive top :=
| Const (data : list (string * list pyval))                        (* table.constant(data) *)
| TensorConst (m : matrix) (ty : TabConvModel.ty)                  (* tensor.constant of a rank-2 array *)
| ReadFile (schema : table_type) (contents : option table)         (* table.read(path, schema=...); what applying the schema to the file gives *)
| Outside (o : outside) (args : list nat)
| ToTensor (x : nat) (number_rows : option (option nat))           (* table2tensor(x[, number_rows=...]); -1 is Some None *)
| ToTable (x : nat) (names : list string)                          (* tensor2table(x, column_names=names) *)
| WriteFile (xs : list nat).                                       (* table.write([...], path) *)

(** pandas.DataFrame(data) refuses columns of different lengths (table.py:213) *)
Definition same_lengths (data : list (string * list pyval)) : bool :=
  match data with [] => true | (_, l) :: r => forallb (fun p => length (snd p) =? length l) r end.

Definition as_table_t (v : vty) : option table_type := match v with TableT t => Some t | TensorT _ => None end.
Definition as_tensor_t (v : vty) : option tensor_type := match v with TensorT t => Some t | TableT _ => None end.
Definition as_table (v : value) : option table := match v with TableV t => Some t | _ => None end.
Definition as_matrix (v : value) : option matrix := match v with TensorV m => Some m | _ => None end.
Definition pick {A B} (f : A -> option B) (env : list A) (i : nat) : option B := match nth_error env i with Some v => f v | None => None end.
Fixpoint all {A B} (f : A -> option B) (l : list A) : option (list B) :=
  match l with
  | [] => Some []
  | x :: r => match f x, all f r with Some y, Some ys => Some (y :: ys) | _, _ => None end
  end.

(** the static type of one operation *)
Definition op_type (env : list vty) (o : top) : option vty :=
  match o with
  | Const data => if same_lengths data then Some (TableT (constant_type data)) else None   (* 182-220 *)
  | TensorConst m d => Some (TensorT (MT d (Some (m_rows m)) (m_cols m)))
  | ReadFile schema _ => Some (TableT schema)                                              (* 262-284: the declared schema *)
  | Outside (Sql out _) args =>                                                            (* 40-68 *)
      match all (pick as_table_t env) args with Some (_ :: _) => Some (TableT out) | _ => None end
  | Outside (Jax out _) args => match all (pick as_tensor_t env) args with Some _ => Some (TensorT out) | None => None end
  | ToTensor x nr =>                                                                       (* 160-173, 71-104 *)
      match pick as_table_t env x with
      | Some t => match match nr with None => table2tensor_default t | Some r => table2tensor_type t r end with
                  | Some m => Some (TensorT m) | None => None end
      | None => None
      end
  | ToTable x names =>                                                                     (* 107-136 *)
      match pick as_tensor_t env x with
      | Some m => match tensor2table_type m names with Some t => Some (TableT t) | None => None end
      | None => None
      end
  | WriteFile xs =>                                                                        (* 321-365: all columns of all tables *)
      match all (pick as_table_t env) xs with
      | Some (t :: r) =>
          let cols := concat (map tt_schema (t :: r)) in
          if (fix dup l := match l with [] => false | x :: l' => existsb (String.eqb x) l' || dup l' end) (map fst cols) then None
          else Some (TableT (TT cols None))
      | _ => None
      end
  end.

Section Run.
Variable to_float : Z -> Z.
Variable common : list (option ty) -> option ty.

(** the execution of one operation; [t] is the static type recorded for its result *)
Definition op_run (env : list value) (t : vty) (o : top) : option value :=
  match o with
  | Const data => option_map TableV (constant_table data)                                  (* table_impl.py:777-790 *)
  | TensorConst m _ => Some (TensorV m)
  | ReadFile _ contents => option_map TableV contents                                      (* 805-840 *)
  | Outside (Sql _ f) args => match all (pick as_table env) args with Some l => option_map TableV (f l) | None => None end   (* 654-704 *)
  | Outside (Jax _ f) args => match all (pick as_matrix env) args with Some l => option_map TensorV (f l) | None => None end
  | ToTensor x _ =>                                                                        (* 707-750 *)
      match pick as_table env x, t with
      | Some tb, TensorT out => option_map TensorV (table2tensor to_float common out tb)
      | _, _ => None
      end
  | ToTable x names => match pick as_matrix env x with Some m => option_map TableV (tensor2table names m) | None => None end  (* 753-774 *)
  | WriteFile xs => match all (pick as_table env) xs with Some _ => Some NoneV | None => None end   (* 878-985: returns None; the disk does not fail here *)
  end.

(** tracing and running a program, operation after operation *)
Fixpoint types (env : list vty) (p : list top) : option (list vty) :=
  match p with
  | [] => Some env
  | o :: r => match op_type env o with Some t => types (env ++ [t]) r | None => None end
  end.
Fixpoint run (tenv : list vty) (env : list value) (p : list top) : option (list value) :=
  match p with
  | [] => Some env
  | o :: r => match op_type tenv o with
              | Some t => match op_run env t o with Some v => run (tenv ++ [t]) (env ++ [v]) r | None => None end
              | None => None
              end
  end.
End Run.
