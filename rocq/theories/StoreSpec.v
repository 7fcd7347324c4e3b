(** Specification of the object store: a partial map from addresses to objects. *)
From Coq Require Import String List Bool.
From stdpp Require Import gmap strings.
Import ListNotations.
Local Open Scope string_scope.

(** a call and its outcome *)
Inductive call (V : Type) : Type :=
| Put (v : V) (uri : string)              (* put(value, uri) *)
| PutAuto (v : V) (id : string)           (* put(value): id is the uuid drawn *)
| Get (uri : string) | Delete (uri : string) | Exists (uri : string) | ListKeys.
Arguments Put {V}. Arguments PutAuto {V}. Arguments Get {V}. Arguments Delete {V}. Arguments Exists {V}. Arguments ListKeys {V}.
Inductive res (V : Type) : Type :=
| RUri (u : string) | RVal (v : V) | RNone | RBool (b : bool) | RKeys (l : list string)
| ErrKey        (* KeyError *)
| ErrValue      (* ValueError: malformed URI, unknown scheme, traversal *)
| ErrRuntime    (* no persistent backend *)
| ErrOS         (* IsADirectoryError, NotADirectoryError, FileExistsError *)
| ErrPickle.    (* object cannot be pickled, or file is not a pickle *)
Arguments RUri {V}. Arguments RVal {V}. Arguments RNone {V}. Arguments RBool {V}. Arguments RKeys {V}.
Arguments ErrKey {V}. Arguments ErrValue {V}. Arguments ErrRuntime {V}. Arguments ErrOS {V}. Arguments ErrPickle {V}.

(** an address: a transient key, or a path (list of directory names) below the root *)
Inductive addr : Type := Mem (k : string) | Fs (path : list string).
Global Instance addr_eq : EqDecision addr.
Proof. solve_decision. Defined.
Global Instance addr_countable : Countable addr :=
  inj_countable' (fun a => match a with Mem k => inl k | Fs p => inr p end) (fun x => match x with inl k => Mem k | inr p => Fs p end) ltac:(now intros []).

(** the map specification *)
Definition m_put {V} (a : addr) (v : V) (m : gmap addr V) : gmap addr V := <[a := v]> m.
Definition m_del {V} (a : addr) (m : gmap addr V) : gmap addr V := delete a m.

(** the directory reached from [cwd] by following path components one after another *)
Definition walk_one (cwd : list string) (c : string) : list string :=
  if String.eqb c "" || String.eqb c "." then cwd
  else if String.eqb c ".." then removelast cwd
  else (cwd ++ [c])%list.
Definition walk (cwd : list string) (comps : list string) : list string := List.fold_left walk_one comps cwd.
