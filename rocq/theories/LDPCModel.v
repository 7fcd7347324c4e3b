(** Model of LDPC syndrome encoding: kernels/py_kernels.py:371-398 and kernels/ldpc.cpp:44-80.
    A 128-bit block is one [N]; [None] is an IndexError of the Python kernel. *)
From Coq Require Import NArith List Arith.
Import ListNotations.

(** Python slice l[start:end] for non-negative bounds (clips silently) *)
Definition slice {A : Type} (l : list A) (s e : nat) : list A := firstn (e - s) (skipn s l).

(** py_kernels.py:393-396  the xor loop of one row *)
Fixpoint xor_cols (message : list N) (cols : list nat) (acc : N) : option N :=
  match cols with
  | [] => Some acc
  | j :: cols' =>
      match nth_error message j with
      | None => None
      | Some v => xor_cols message cols' (N.lxor acc v)
      end
  end.

(** py_kernels.py:388-396  row i *)
Definition encode_row (message : list N) (indices indptr : list nat) (i : nat) : option N :=
  match nth_error indptr i, nth_error indptr (S i) with
  | Some s, Some e => xor_cols message (slice indices s e) 0%N
  | _, _ => None
  end.

Fixpoint sequence {A : Type} (l : list (option A)) : option (list A) :=
  match l with
  | [] => Some []
  | None :: _ => None
  | Some x :: l' => match sequence l' with None => None | Some r => Some (x :: r) end
  end.

(** py_kernels.py:371-398 *)
Definition ldpc_encode (message : list N) (indices indptr : list nat) (m : nat) : option (list N) :=
  sequence (map (encode_row message indices indptr) (seq 0 m)).

(** ldpc.cpp:63-79: reads are unchecked; only used where all indices are in range *)
Definition ldpc_encode_cpp (message : list N) (indices indptr : list nat) (m : nat) : list N :=
  map (fun i =>
         let s := nth i indptr 0 in let e := nth (S i) indptr 0 in
         fold_left (fun sum k => N.lxor sum (nth (nth k indices 0) message 0%N)) (seq s (e - s)) 0%N)
      (seq 0 m).
