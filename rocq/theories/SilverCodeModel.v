(** Model of libs/mpc/vole/ldpc.py: construction of the code matrix, its CSR form, its structural
    check, the dense encoder and the syndrome decoder. *)
From Coq Require Import ZArith NArith List Arith Bool.
From Verif Require Import LDPCModel.
Import ListNotations.

(** np.random.RandomState: the state and randint(low, high, size=k) *)
Record rng : Type := { state : Type; randint : state -> Z -> Z -> nat -> list Z * state }.

(** np.unique: sorted, without duplicates *)
Fixpoint insert_unique (x : nat) (l : list nat) : list nat :=
  match l with
  | [] => [x]
  | y :: r => if x <? y then x :: l else if x =? y then l else y :: insert_unique x r
  end.
Definition unique (l : list nat) : list nat := fold_right insert_unique [] l.

(** ldpc.py:72 *)
Definition row_weight (n : nat) : nat := Nat.min 5 n.

Section Generate.
Variable R : rng.
(** np.linspace(start, stop, num, dtype=int); its values are rounded floats *)
Variable linspace : Z -> Z -> nat -> list Z.
Variable n : nat.

(** ldpc.py:81-84: the evenly spread positions moved by random offsets *)
Definition first_positions (s : state R) : list nat * state R :=
  let base := linspace 0 (Z.of_nat n - 1) (row_weight n) in
  let '(offsets, s') := randint R s (-16) 17 (row_weight n) in
  (unique (map (fun p => Z.to_nat ((fst p + snd p) mod Z.of_nat n)) (combine base offsets)), s').

(** ldpc.py:87-89: the while loop; [None]: not finished within [fuel] rounds *)
Fixpoint fill (fuel : nat) (positions : list nat) (s : state R) : option (list nat * state R) :=
  if length positions <? Nat.min 3 (row_weight n) then
    match fuel with
    | 0 => None
    | S fuel' =>
        let '(extra, s') := randint R s 0 (Z.of_nat n) (row_weight n - length positions) in
        fill fuel' (unique (positions ++ map Z.to_nat extra)) s'
    end
  else Some (positions, s).

(** ldpc.py:78-93: the (row, column) entries in the order they are appended *)
Fixpoint rows_from (fuel : nat) (i m : nat) (s : state R) : option (list (nat * nat)) :=
  match m with
  | 0 => Some []
  | S m' =>
      let '(p0, s') := first_positions s in
      match fill fuel p0 s' with
      | None => None
      | Some (p, s'') =>
          match rows_from fuel (S i) m' s'' with
          | None => None
          | Some rest => Some (map (fun j => (i, j)) p ++ rest)
          end
      end
  end.
End Generate.

(** a CSR matrix: indices, indptr *)
Definition csr : Type := (list nat * list nat)%type.

(** ldpc.py:95-98: scipy's coo_matrix(...).tocsr() of entries without duplicates: the columns row by
    row, in the order given, and the number of entries of earlier rows *)
Definition to_csr (entries : list (nat * nat)) (m : nat) : csr :=
  (flat_map (fun i => map snd (filter (fun e => fst e =? i) entries)) (seq 0 m),
   map (fun i => length (filter (fun e => fst e <? i) entries)) (seq 0 (S m))).

(** ldpc.py:52-98 *)
Definition generate_silver_ldpc (R : rng) (linspace : Z -> Z -> nat -> list Z) (fuel n m : nat) (seed : state R) : option csr :=
  match rows_from R linspace n fuel 0 m seed with None => None | Some e => Some (to_csr e m) end.

(** ldpc.py:206-220: (code length, syndrome length, noise weight) *)
Definition get_silver_params (n : nat) : nat * nat * nat := (n, Nat.max (n / 10) 128, 64).

(** ldpc.py:237-264, over exact fractions; [None]: division by zero.  The warnings are not modelled. *)
Definition verify_ldpc_structure (H : csr) (m n : nat) : option bool :=
  let '(indices, indptr) := H in
  let nnz := length indices in
  if m * n =? 0 then None
  else if m * n <? 10 * nnz then Some false
  else let weights := map (fun i => nth (S i) indptr 0 - nth i indptr 0) (seq 0 m) in
       if existsb (fun w => w =? 0) weights then Some false
       else let total := list_sum weights in
            if (total <? 2 * m) || (20 * m <? total) then Some false else Some true.

(** ldpc.py:330-372: ldpc_encode_dense_jax.  A block is its two 64-bit limbs; one row of H has an
    entry per block. *)
Definition limbs : Type := (N * N)%type.
Definition limbs_xor (x y : limbs) : limbs := (N.lxor (fst x) (fst y), N.lxor (snd x) (snd y)).
(** ldpc.py:355: the entry is broadcast over the limbs and anded with them *)
Definition limbs_and (x : limbs) (h : N) : limbs := (N.land (fst x) h, N.land (snd x) h).
Definition dense_row (message : list limbs) (h : list N) : limbs :=
  fold_left limbs_xor (map (fun p => limbs_and (fst p) (snd p)) (combine message h)) (0, 0)%N.
Definition ldpc_encode_dense (message : list limbs) (H : list (list N)) : list limbs := map (dense_row message) H.

(** ldpc.py:132-198, one-dimensional syndrome.  H is given by its columns (H.getcol(j).toarray()). *)
Definition reduction (col remaining : list N) : nat :=
  length (filter (fun p => negb (N.land (fst p) (if N.eqb (snd p) 0 then 0 else 1) =? 0)%N) (combine col remaining)).
(** ldpc.py:168-177: the best column so far and its reduction *)
Fixpoint best (cols : list (list N)) (remaining : list N) (j : nat) (b : option nat) (r : nat) : option nat :=
  match cols with
  | [] => b
  | c :: cols' =>
      if r <? reduction c remaining then best cols' remaining (S j) (Some j) (reduction c remaining)
      else best cols' remaining (S j) b r
  end.
Definition set_at (l : list N) (j : nat) (v : N) : list N := firstn j l ++ match skipn j l with [] => [] | _ :: r => v :: r end.
(** ldpc.py:192 *)
Definition add_column (remaining col : list N) : list N := map (fun p => N.modulo (fst p + snd p) 2) (combine remaining col).
(** ldpc.py:163-196 *)
Fixpoint decode_loop (cols : list (list N)) (rounds : nat) (remaining error : list N) : list N :=
  match rounds with
  | 0 => error
  | S rounds' =>
      match best cols remaining 0 None 0 with
      | None => error
      | Some j => decode_loop cols rounds' (add_column remaining (nth j cols [])) (set_at error j 1%N)
      end
  end.
Definition ldpc_decode_syndrome (cols : list (list N)) (syndrome : list N) (noise_weight : nat) : list N :=
  decode_loop cols noise_weight syndrome (repeat 0%N (length cols)).

(** ldpc.py:132-198, two-dimensional syndrome (rows of limbs): a limb counts on its own
    (ldpc.py:173), the error row is all ones (ldpc.py:186) and is xored into the rows of the column. *)
Definition reduction2 (col : list N) (remaining : list (list N)) : nat :=
  list_sum (map (fun p => length (filter (fun x => negb (N.land (fst p) (if N.eqb x 0 then 0 else 1) =? 0)%N) (snd p))) (combine col remaining)).
Fixpoint best2 (cols : list (list N)) (remaining : list (list N)) (j : nat) (b : option nat) (r : nat) : option nat :=
  match cols with
  | [] => b
  | c :: cols' =>
      if r <? reduction2 c remaining then best2 cols' remaining (S j) (Some j) (reduction2 c remaining)
      else best2 cols' remaining (S j) b r
  end.
Definition add_column2 (remaining : list (list N)) (col : list N) : list (list N) :=
  map (fun p => if N.eqb (snd p) 0 then fst p else map (fun x => N.lxor x 1) (fst p)) (combine remaining col).
Definition set_at2 (l : list (list N)) (j : nat) (v : list N) : list (list N) := firstn j l ++ match skipn j l with [] => [] | _ :: r => v :: r end.
Fixpoint decode_loop2 (width : nat) (cols : list (list N)) (rounds : nat) (remaining error : list (list N)) : list (list N) :=
  match rounds with
  | 0 => error
  | S rounds' =>
      match best2 cols remaining 0 None 0 with
      | None => error
      | Some j => decode_loop2 width cols rounds' (add_column2 remaining (nth j cols [])) (set_at2 error j (repeat 1%N width))
      end
  end.
Definition ldpc_decode_syndrome2 (width : nat) (cols : list (list N)) (syndrome : list (list N)) (noise_weight : nat) : list (list N) :=
  decode_loop2 width cols noise_weight syndrome (repeat (repeat 0%N width) (length cols)).
