(** What it means for a run-time value to be described by its static type. Written
    without reference to how types are inferred or operations executed. *)
From Coq Require Import List Arith ZArith Bool.
From Verif Require Import TensorModel.
Import ListNotations.
Open Scope Z_scope.

(** the shape a user observes (np.shape) *)
Definition np_shape (v : val) : list nat :=
  match v with VArr a => a.(sh) | VScal _ => [] end.

(** a static dimension is either dynamic (-1) or the exact size *)
Definition conf_dim (d : Z) (n : nat) : Prop := d = -1 \/ d = Z.of_nat n.

Definition type_shape (t : sty) : list Z :=
  match t with STens _ s => s | SScal _ => [] end.

Definition conforms (v : val) (t : sty) : Prop :=
  Forall2 conf_dim (type_shape t) (np_shape v).

(** a valid type: what TensorType's constructor accepts *)
Definition valid_type (t : sty) : Prop :=
  Forall (fun d => d = -1 \/ 0 < d) (type_shape t).

(** no dynamic dimension *)
Definition static_type (t : sty) : Prop := Forall (fun d => 0 < d) (type_shape t).

(** the elements of a value at an index (scalars and rank-0 arrays are the same at
    every index of the result) *)
Definition elem_at (t : sty) (v : val) (idx : list nat) : Z :=
  match v with
  | VScal x => x
  | VArr a => match type_shape t with [] => a.(get) [] | _ => a.(get) idx end
  end.

Fixpoint elems_at (ts : list sty) (vs : list val) (idx : list nat) : list Z :=
  match ts, vs with
  | t :: ts', v :: vs' => elem_at t v idx :: elems_at ts' vs' idx
  | _, _ => []
  end.
