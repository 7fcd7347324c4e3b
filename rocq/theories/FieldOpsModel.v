(** Model of the field dialect at the level of array buffers: the types announced by
    dialects/field.py:55-122 and the implementations of backends/field_impl.py, which hand pointers to
    the native kernels.  A read past the end of a buffer is the outcome [OutOfBounds].
    Simplified: the arithmetic of the kernels is a parameter (modelled in GF128Model, OKVSModel,
    SeedExpandModel); element types are uint8 and uint64. *)
From Coq Require Import NArith List Arith Bool.
Import ListNotations.

Inductive dtype := U8 | U64.
Record arr := Arr { dt : dtype; shape : list nat; elems : list N }.
Definition size (s : list nat) : nat := fold_right Nat.mul 1 s.
Definition ty : Type := (dtype * list nat)%type.
Definition ty_of (a : arr) : ty := (dt a, shape a).

Inductive outcome := Done (a : arr) | Raised | OutOfBounds.

Record kernels := {
  k_mul : N * N -> N * N -> N * N;                       (* gf128.cpp:gf128_mul *)
  k_hash : N * N -> nat -> N -> nat * nat * nat;         (* okvs.cpp:hash_key: seed, m, key *)
  k_expand : N * N -> nat -> list (N * N) }.             (* okvs.cpp:aes_128_expand, one seed *)

(** reading the 128-bit block i of a buffer of words *)
Definition block (b : list N) (i : nat) : option (N * N) :=
  match nth_error b (2 * i), nth_error b (2 * i + 1) with Some x, Some y => Some (x, y) | _, _ => None end.
Fixpoint gather {A B : Type} (f : A -> option B) (l : list A) : option (list B) :=
  match l with
  | [] => Some []
  | x :: l' => match f x, gather f l' with Some y, Some r => Some (y :: r) | _, _ => None end
  end.
Definition flat (l : list (N * N)) : list N := flat_map (fun p => [fst p; snd p]) l.

Section Ops.
Variable K : kernels.

(** field.py:63-65 *)
Definition mul_ty (a b : ty) : ty := a.
(** field_impl.py:121-138, gf128.cpp gf128_mul_batch: n = a.size // 2 products; the output has the
    shape of a and starts as zeros *)
Definition mul_native (a b : arr) : outcome :=
  let n := length (elems a) / 2 in
  match gather (fun i => match block (elems a) i, block (elems b) i with Some x, Some y => Some (k_mul K x y) | _, _ => None end) (seq 0 n) with
  | None => OutOfBounds
  | Some l => Done (Arr U64 (shape a) (flat l ++ repeat 0%N (length (elems a) - 2 * n)))
  end.
(** py_kernels.py:159-178: reshape(-1, 2) raises for an odd size, b_flat[i] for a missing row;
    zeros_like keeps the element type of a *)
Definition mul_python (a b : arr) : outcome :=
  if Nat.odd (length (elems a)) || Nat.odd (length (elems b)) then Raised
  else match gather (fun i => match block (elems a) i, block (elems b) i with Some x, Some y => Some (k_mul K x y) | _, _ => None end)
                    (seq 0 (length (elems a) / 2)) with
       | None => Raised
       | Some l => Done (Arr (dt a) (shape a) (flat l))
       end.

(** field.py:79-86; None: shape[0] of a scalar *)
Definition decode_ty (keys storage : ty) : option ty :=
  match snd keys with [] => None | n :: _ => Some (fst storage, [n; 2]) end.
(** field_impl.py:408-421, 247-275, okvs.cpp:201-215: n = keys.shape[0] keys are read, m = storage.shape[0];
    seed[0] and seed[1] are read in Python *)
Definition decode_native (keys storage seed : arr) : outcome :=
  match shape keys, shape storage, elems seed with
  | n :: _, m :: _, s0 :: s1 :: _ =>
      match gather (fun i =>
              match nth_error (elems keys) i with
              | None => None
              | Some k =>
                  let '(h1, h2, h3) := k_hash K (s0, s1) m k in
                  match block (elems storage) h1, block (elems storage) h2, block (elems storage) h3 with
                  | Some x, Some y, Some z => Some (N.lxor (N.lxor (fst x) (fst y)) (fst z), N.lxor (N.lxor (snd x) (snd y)) (snd z))
                  | _, _, _ => None
                  end
              end) (seq 0 n) with
      | None => OutOfBounds
      | Some l => Done (Arr U64 [n; 2] (flat l))
      end
  | _, _, _ => Raised
  end.

(** field.py:110-122 *)
Definition ldpc_ty (message : ty) (m : nat) : ty := (fst message, [m; 2]).
(** field_impl.py:288-306, ldpc.cpp:54-88 *)
Definition xor2 (x y : N * N) : N * N := (N.lxor (fst x) (fst y), N.lxor (snd x) (snd y)).
Definition ldpc_native (message indices indptr : arr) (m : nat) : outcome :=
  match gather (fun i =>
          match nth_error (elems indptr) i, nth_error (elems indptr) (i + 1) with
          | Some s, Some e =>
              match gather (fun k => match nth_error (elems indices) k with None => None | Some c => block (elems message) (N.to_nat c) end)
                           (seq (N.to_nat s) (N.to_nat e - N.to_nat s)) with
              | None => None
              | Some l => Some (fold_left xor2 l (0, 0)%N)
              end
          | _, _ => None
          end) (seq 0 m) with
  | None => OutOfBounds
  | Some l => Done (Arr U64 [m; 2] (flat l))
  end.

(** field.py:55-60 *)
Definition aes_ty (seeds : ty) (len : nat) : option ty :=
  match snd seeds with [] => None | n :: _ => Some (U64, [n; len; 2]) end.
(** little-endian view of 8 bytes as a word *)
Fixpoint word (l : list N) : N := match l with [] => 0%N | b :: r => (b + 256 * word r)%N end.
Fixpoint chunks (n : nat) (k : nat) (l : list N) : list (list N) :=
  match n with 0 => [] | S n' => firstn k l :: chunks n' k (skipn k l) end.
Definition view64 (l : list N) : list N := map word (chunks (length l / 8) 8 l).
(** field_impl.py:330-360: the u8 view (:340-341), the reshape (:343-344), the kernel *)
Definition aes_native (seeds : arr) (len : nat) : outcome :=
  match rev (shape seeds) with
  | [] => Raised
  | last :: front =>
      let '(sh, ws) :=
        match dt seeds with
        | U8 => if last =? 16 then (rev (2 :: front), view64 (elems seeds)) else (shape seeds, elems seeds)
        | U64 => (shape seeds, elems seeds)
        end in
      let last' := List.last sh 0 in
      let n := if last' =? 2 then hd 0 sh else length ws / 2 in
      if negb (last' =? 2) && Nat.odd (length ws) then Raised
      else match gather (fun i => match block ws i with None => None | Some s => Some (k_expand K s len) end) (seq 0 n) with
           | None => OutOfBounds
           | Some l => Done (Arr U64 [n; len; 2] (flat (concat l)))
           end
  end.
End Ops.
