(** Model of how arguments reach an operation or a traced function: edsl/primitive.py:205-242
    (Primitive.bind), edsl/tracer.py:289-330 (Tracer.run), and of the constants made from host data:
    dialects/simp.py:791-835 (simp.constant), 381-455 (pcall_static around a constant),
    libs/device/api.py:669-712 (put of host data), dialects/table.py:176-254 (table.constant),
    backends/table_impl.py:777-790.

    jax.tree_util.tree_map is modelled as its documentation defines it: flatten, apply to the leaves,
    unflatten (MorphModel).  Lists, tuples, dicts with string keys and None are containers; every
    other object is a leaf. *)
From Coq Require Import String List ZArith Bool Arith.
From Verif Require Import MorphModel SimpModel TabConvModel.
Import ListNotations.
Local Open Scope nat_scope.
Local Open Scope list_scope.

(** jax.tree_util.tree_map *)
Definition tree_map {A B} (f : A -> B) (t : tree A) : option (tree B) := unflatten (def_of t) (map f (leaves t)).

(** primitive.py:236-242 and tracer.py:317-326: [tree_map(lift, (args, kwargs))], unpacked; then the
    primitive's trace function or the traced function is called with them *)
Definition deliver {A B} (lift : A -> B) (args : list (tree A)) (kwargs : list (string * tree A)) : option (list (tree B) * list (string * tree B)) :=
  match tree_map lift (TTuple [TTuple args; TDict kwargs]) with
  | Some (TTuple [TTuple a; TDict k]) => Some (a, k)
  | _ => None
  end.

(** host data: Python scalars, arrays, data frames and anything else *)
Inductive host := HScalar (v : pyval) | HArray (cells : list pyval) | HFrame (cols : list (string * list pyval)) | HOther.
(** the operation a constant becomes, with the data it is given *)
Inductive made := TensorConstant (data : tree host) | TableConstant (data : tree host).

(** simp.py:408-455 with a function of one argument: bind rebuilds the argument (primitive.py:239),
    so does the trace of the function (tracer.py:324), and the function binds the constant.
    table.constant binds a primitive with its data as keyword (table.py:254); tensor.constant looks
    at its data before binding anything (tensor.py:257-), it gets [np.array] of them.
    The parties are those requested, each once and ascending. *)
Definition one (r : option (list (tree host) * list (string * tree host))) : option (tree host) :=
  match r with Some ([d], []) => Some d | _ => None end.
Definition data_kw (r : option (list (tree host) * list (string * tree host))) : option (tree host) :=
  match r with Some ([], [(k, d)]) => if String.eqb k "data" then Some d else None | _ => None end.
Definition call_const (table : bool) (data : tree host) : option made :=
  match one (deliver (fun x => x) [data] []) with
  | None => None
  | Some d1 =>
      match one (deliver (fun x => x) [d1] []) with
      | None => None
      | Some d2 => if table then option_map TableConstant (data_kw (deliver (fun x => x) [] [("data"%string, d2)])) else Some (TensorConstant d2)
      end
  end.
(** simp.py:809-835; None is the TypeError *)
Definition simp_constant (ps : list nat) (data : tree host) : option (list nat * made) :=
  option_map (fun m => (norm ps, m))
    match data with
    | Leaf (HScalar (PStr _)) | Leaf (HScalar PNone) => None
    | Leaf (HScalar _) | Leaf (HArray _) => call_const false data
    | Leaf (HFrame _) | TDict _ => call_const true data
    | TList _ | TTuple _ => call_const false data
    | Leaf HOther | TNone => None
    end.

(** api.py:669-712 for an object that is not on a device yet; the device's kind upper-cased and the
    ranks of its members.  DeviceNotFoundError, DeviceError, AssertionError and TypeError are None. *)
Inductive placed := OnParty (ps : list nat) (m : made) | OnSPU (data : tree host).
Definition put (devices : list (string * (string * list nat))) (dev : string) (data : tree host) : option placed :=
  match find (fun d => String.eqb (fst d) dev) devices with
  | None => None
  | Some (_, (kind, members)) =>
      if String.eqb kind "PPU" || String.eqb kind "TEE"
      then match members with
           | [r] => match simp_constant [r] data with Some (ps, m) => Some (OnParty ps m) | None => None end
           | _ => None
           end
      else if String.eqb kind "SPU" then Some (OnSPU data) else None
  end.

(** pd.DataFrame(data) / pa.table(data) of a dict of lists: the columns in the dict's order *)
Definition as_cell (t : tree host) : option pyval :=
  match t with Leaf (HScalar v) => Some v | TNone => Some PNone | _ => None end.
Fixpoint mapO {A B : Type} (f : A -> option B) (l : list A) : option (list B) :=
  match l with
  | [] => Some []
  | x :: l' => match f x, mapO f l' with Some y, Some ys => Some (y :: ys) | _, _ => None end
  end.
Definition as_column (t : tree host) : option (list pyval) :=
  match t with TList l | TTuple l => mapO as_cell l | Leaf (HArray c) => Some c | _ => None end.
Definition columns_of (t : tree host) : option (list (string * list pyval)) :=
  match t with
  | TDict items => mapO (fun p => option_map (pair (fst p)) (as_column (snd p))) items
  | Leaf (HFrame cols) => Some cols
  | _ => None
  end.
(** table.py:176-220 and table_impl.py:777-790: the static type and the run-time table *)
Definition run_made (m : made) : option (table_type * table) :=
  match m with
  | TableConstant d => match columns_of d with
                       | Some cols => option_map (pair (constant_type cols)) (constant_table cols)
                       | None => None
                       end
  | TensorConstant _ => None
  end.
(** a dict of lists of Python values as the user writes it *)
Definition cell_tree (v : pyval) : tree host := match v with PNone => TNone | _ => Leaf (HScalar v) end.
Definition dict_of (cols : list (string * list pyval)) : tree host := TDict (map (fun c => (fst c, TList (map cell_tree (snd c)))) cols).
Definition put_table (ps : list nat) (cols : list (string * list pyval)) : option (list nat * (table_type * table)) :=
  match simp_constant ps (dict_of cols) with
  | Some (p, m) => option_map (pair p) (run_made m)
  | None => None
  end.
