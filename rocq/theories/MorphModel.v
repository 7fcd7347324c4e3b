(** Model of utils/func_utils.py:64-105 (list_split, list_reconstruct, var_morph, var_demorph)
    and of the pytrees they flatten (jax.tree_util: None, lists, tuples, dicts with string keys,
    flattened in sorted key order; every other object is a leaf). *)
From Coq Require Import List String Bool Arith Sorting.Permutation.
Import ListNotations.
Local Open Scope list_scope.

Inductive tree (A : Type) : Type :=
| Leaf (a : A) | TNone | TList (l : list (tree A)) | TTuple (l : list (tree A)) | TDict (items : list (string * tree A)).
Arguments Leaf {A}. Arguments TNone {A}. Arguments TList {A}. Arguments TTuple {A}. Arguments TDict {A}.
(** the tree structure (PyTreeDef): a tree without leaf contents, dict keys sorted *)
Definition treedef : Type := tree unit.

(** sorted(d.items()) by key *)
Fixpoint insert_key {B} (k : string) (v : B) (l : list (string * B)) : list (string * B) :=
  match l with
  | [] => [(k, v)]
  | (k', v') :: l' => if String.leb k k' then (k, v) :: l else (k', v') :: insert_key k v l'
  end.
Definition sort_keys {B} (l : list (string * B)) : list (string * B) :=
  fold_right (fun p acc => insert_key (fst p) (snd p) acc) [] l.

(** jax.tree_util.tree_flatten *)
Fixpoint leaves {A} (t : tree A) : list A :=
  match t with
  | Leaf a => [a]
  | TNone => []
  | TList l | TTuple l => flat_map leaves l
  | TDict items => flat_map snd (sort_keys (map (fun p => (fst p, leaves (snd p))) items))
  end.
Fixpoint def_of {A} (t : tree A) : treedef :=
  match t with
  | Leaf _ => Leaf tt
  | TNone => TNone
  | TList l => TList (map def_of l)
  | TTuple l => TTuple (map def_of l)
  | TDict items => TDict (sort_keys (map (fun p => (fst p, def_of (snd p))) items))
  end.
(** jax.tree_util.tree_unflatten: consumes the leaves left to right; the rest is returned *)
Definition take_list {A} (rec : treedef -> list A -> option (tree A * list A)) : list treedef -> list A -> option (list (tree A) * list A) :=
  fix go ds xs :=
    match ds with
    | [] => Some ([], xs)
    | d :: ds' => match rec d xs with
                  | Some (t, xs') => match go ds' xs' with Some (ts, xs2) => Some (t :: ts, xs2) | None => None end
                  | None => None
                  end
    end.
Definition take_dict {A} (rec : treedef -> list A -> option (tree A * list A)) : list (string * treedef) -> list A -> option (list (string * tree A) * list A) :=
  fix go ds xs :=
    match ds with
    | [] => Some ([], xs)
    | (k, d) :: ds' => match rec d xs with
                       | Some (t, xs') => match go ds' xs' with Some (ts, xs2) => Some ((k, t) :: ts, xs2) | None => None end
                       | None => None
                       end
    end.
Fixpoint take {A} (d : treedef) (xs : list A) : option (tree A * list A) :=
  match d with
  | Leaf _ => match xs with x :: xs' => Some (Leaf x, xs') | [] => None end
  | TNone => Some (TNone, xs)
  | TList ds => match take_list take ds xs with Some (ts, r) => Some (TList ts, r) | None => None end
  | TTuple ds => match take_list take ds xs with Some (ts, r) => Some (TTuple ts, r) | None => None end
  | TDict ds => match take_dict take ds xs with Some (ts, r) => Some (TDict ts, r) | None => None end
  end.
(** too few or too many leaves is an error *)
Definition unflatten {A} (d : treedef) (xs : list A) : option (tree A) :=
  match take d xs with Some (t, []) => Some t | _ => None end.

(** func_utils.py:64-75 *)
Fixpoint list_split {A} (pred : A -> bool) (idx : nat) (origin : list A) : list A * list A * list nat :=
  match origin with
  | [] => ([], [], [])
  | x :: l => let '(f, s, i) := list_split pred (S idx) l in
              if pred x then (x :: f, s, idx :: i) else (f, x :: s, i)
  end.
(** func_utils.py:78-89: [n] iterations left, at position idx; IndexError is None *)
Fixpoint list_reconstruct_from {A} (n idx : nat) (f s : list A) (idxs : list nat) : option (list A) :=
  match n with
  | O => Some []
  | S n' =>
      match idxs with
      | i :: idxs' =>
          if Nat.eqb i idx
          then match f with x :: f' => option_map (cons x) (list_reconstruct_from n' (S idx) f' s idxs') | [] => None end
          else match s with x :: s' => option_map (cons x) (list_reconstruct_from n' (S idx) f s' idxs) | [] => None end
      | [] => match s with x :: s' => option_map (cons x) (list_reconstruct_from n' (S idx) f s' []) | [] => None end
      end
  end.
Definition list_reconstruct {A} (f s : list A) (idxs : list nat) : option (list A) :=
  list_reconstruct_from (List.length f + List.length s) 0 f s idxs.

Definition morph_struct (A : Type) : Type := (treedef * list nat * list A)%type.
(** func_utils.py:92-98 *)
Definition var_morph {A} (pred : A -> bool) (t : tree A) : list A * morph_struct A :=
  let '(vars, imms, pos) := list_split pred 0 (leaves t) in (vars, (def_of t, pos, imms)).
(** func_utils.py:101-105 *)
Definition var_demorph {A} (vars : list A) (m : morph_struct A) : option (tree A) :=
  let '(d, pos, imms) := m in
  match list_reconstruct vars imms pos with Some xs => unflatten d xs | None => None end.

(** ** Specification *)
(** Python equality: dicts compare without regard to order *)
Inductive pyeq {A} : tree A -> tree A -> Prop :=
| EqLeaf a : pyeq (Leaf a) (Leaf a)
| EqNone : pyeq TNone TNone
| EqList l m : Forall2 pyeq l m -> pyeq (TList l) (TList m)
| EqTuple l m : Forall2 pyeq l m -> pyeq (TTuple l) (TTuple m)
| EqDict l l' m : Permutation l l' -> Forall2 (fun p q => fst p = fst q /\ pyeq (snd p) (snd q)) l' m -> pyeq (TDict l) (TDict m).
(** replace every variable leaf *)
Fixpoint tmap {A B} (f : A -> B) (t : tree A) : tree B :=
  match t with
  | Leaf a => Leaf (f a)
  | TNone => TNone
  | TList l => TList (map (tmap f) l)
  | TTuple l => TTuple (map (tmap f) l)
  | TDict items => TDict (map (fun p => (fst p, tmap f (snd p))) items)
  end.
(** the k-th variable of the list becomes the k-th result, constants stay *)
Fixpoint fill {A} (pred : A -> bool) (xs rs : list A) : list A :=
  match xs with
  | [] => []
  | x :: xs' => if pred x then match rs with r :: rs' => r :: fill pred xs' rs' | [] => [] end else x :: fill pred xs' rs
  end.
