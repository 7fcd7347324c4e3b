(** Model of the OKVS kernels (mplang/kernels/py_kernels.py and okvs.cpp).
    A value row (two uint64) is one 128-bit [N]; xor of rows is [N.lxor].
    Table indices are [nat]; degree counters are [Z] (Python int / C++ int,
    overflow of C++ int for m, n >= 2^31 not modelled). *)
From Coq Require Import NArith ZArith List Arith Bool.
From Verif Require Import OKVSSpec.
Import ListNotations.

Inductive okvs_err : Type :=
| ZeroDivisionError      (* h % 0 *)
| IndexError             (* values[row] out of range *)
| CoreDetected           (* py_kernels.py:290-294 RuntimeError *)
| OutOfFuel.             (* model artefact, proved unreachable *)
Inductive res (A : Type) : Type := Ok (a : A) | Err (e : okvs_err).
Arguments Ok {A}. Arguments Err {A}.

Fixpoint upd {A : Type} (l : list A) (i : nat) (v : A) : list A :=
  match l, i with
  | [], _ => []
  | _ :: l', O => v :: l'
  | x :: l', S i' => x :: upd l' i' v
  end.

(** libs/mpc/common/constants.py *)
Definition GOLDEN_RATIO_64    : N := 0x9E3779B97F4A7C15.
Definition SPLITMIX64_GAMMA_2 : N := 0x94D049BB133111EB.
Definition SPLITMIX64_GAMMA_3 : N := 0xFF51AFD7ED558CCD.
Definition SPLITMIX64_GAMMA_4 : N := 0xC4CEB9FE1A85EC53.
Definition m64 : N := N.ones 64.

(** "Enforce distinct indices": py_kernels.py:203-215 and okvs.cpp:41-56, identical
    given the two 64-bit hash words v1 v2. *)
Definition distinct_indices (v1 v2 m : N) : N * N * N :=
  let idx1 := N.modulo v1 m in
  let idx2 := N.modulo v2 m in
  let idx3 := N.modulo (N.lxor v1 v2) m in
  let idx2 := if N.eqb idx2 idx1 then N.modulo (idx2 + 1) m else idx2 in
  let idx3 :=
    if orb (N.eqb idx3 idx1) (N.eqb idx3 idx2) then
      let idx3 := N.modulo (idx3 + 1) m in
      if orb (N.eqb idx3 idx1) (N.eqb idx3 idx2) then N.modulo (idx3 + 1) m else idx3
    else idx3 in
  (idx1, idx2, idx3).

Definition to_row (t : N * N * N) : row :=
  let '(a, b, c) := t in (N.to_nat a, N.to_nat b, N.to_nat c).

(** py_kernels.py:186-215  _hash_key_py (m > 0) *)
Definition hash_words_py (seed : N * N) (key : N) : N * N :=
  let '(s0, s1) := seed in
  let h1 := N.land (N.lxor (key * GOLDEN_RATIO_64) s0) m64 in
  let h2 := N.land (N.lxor (key * SPLITMIX64_GAMMA_2) s1) m64 in
  let h1 := N.land (N.lxor h1 (N.shiftr h1 33) * SPLITMIX64_GAMMA_3) m64 in
  let h2 := N.land (N.lxor h2 (N.shiftr h2 33) * SPLITMIX64_GAMMA_4) m64 in
  (h1, h2).
Definition hash_key_py (seed : N * N) (m : nat) (key : N) : row :=
  let '(h1, h2) := hash_words_py seed key in to_row (distinct_indices h1 h2 (N.of_nat m)).

(** okvs.cpp:33-59  hash_key; [aes] stands for the two 64-bit words extracted from
    two _mm_aesenc_si128 rounds (an arbitrary function of the key here). *)
Definition hash_key_cpp (aes : N -> N * N) (m : nat) (key : N) : row :=
  let '(v1, v2) := aes key in to_row (distinct_indices v1 v2 (N.of_nat m)).

Definition row_cols (r : row) : list nat := let '(h1, h2, h3) := r in [h1; h2; h3].

(** py_kernels.py:238-245  col_to_rows[j]: row indices in append order
    (okvs.cpp:78-106 builds the same sequence in CSR form). *)
Fixpoint col_rows_from (i : nat) (rows : list row) (j : nat) : list nat :=
  match rows with
  | [] => []
  | r :: rows' => map (fun _ => i) (filter (Nat.eqb j) (row_cols r)) ++ col_rows_from (S i) rows' j
  end.
Definition col_to_rows (rows : list row) (j : nat) : list nat := col_rows_from 0 rows j.

Record pstate : Type := PState {
  pq   : list nat;          (* peel_queue[head:] *)
  rrem : list bool;         (* row_removed *)
  crem : list bool;         (* col_removed *)
  deg  : list Z;            (* col_degree *)
  stk  : list (nat * nat)   (* assignment_stack, newest first *)
}.

(** py_kernels.py:248-255 *)
Definition init_state (rows : list row) (m : nat) : pstate :=
  let deg := map (fun j => Z.of_nat (length (col_to_rows rows j))) (seq 0 m) in
  PState (filter (fun j => Z.eqb (nth j deg 0%Z) 1) (seq 0 m))
         (repeat false (length rows)) (repeat false m) deg [].

(** py_kernels.py:283-288, body of the neighbour loop *)
Definition visit_neighbor (j : nat) (st : pstate) (nb : nat) : pstate :=
  if orb (Nat.eqb nb j) (nth nb (crem st) false) then st
  else
    let d := (nth nb (deg st) 0 - 1)%Z in
    PState (if Z.eqb d 1 then pq st ++ [nb] else pq st)
           (rrem st) (crem st) (upd (deg st) nb d) (stk st).

(** py_kernels.py:259-288, one iteration for the popped column [j]
    (okvs.cpp:128-168 is the same loop). *)
Definition peel_step (rows : list row) (st : pstate) (j : nat) : pstate :=
  if nth j (crem st) false then st
  else
    match find (fun r => negb (nth r (rrem st) true)) (col_to_rows rows j) with
    | None => PState (pq st) (rrem st) (upd (crem st) j true) (deg st) (stk st)
    | Some owner =>
        let st1 := PState (pq st) (upd (rrem st) owner true) (upd (crem st) j true)
                          (deg st) ((j, owner) :: stk st) in
        fold_left (visit_neighbor j) (row_cols (nth owner rows (0, 0, 0))) st1
    end.

(** py_kernels.py:258 while head < len(peel_queue) *)
Fixpoint peel (rows : list row) (fuel : nat) (st : pstate) : res pstate :=
  match pq st with
  | [] => Ok st
  | j :: q =>
      match fuel with
      | O => Err OutOfFuel
      | S f => peel rows f (peel_step rows (PState q (rrem st) (crem st) (deg st) (stk st)) j)
      end
  end.

(** py_kernels.py:299-306, back substitution over reversed(assignment_stack) *)
Fixpoint back_subst (rows : list row) (values : list N) (stack : list (nat * nat))
         (out : list N) : res (list N) :=
  match stack with
  | [] => Ok out
  | (col, r) :: stack' =>
      let '(h1, h2, h3) := nth r rows (0, 0, 0) in
      let current_sum := N.lxor (N.lxor (nth h1 out 0%N) (nth h2 out 0%N)) (nth h3 out 0%N) in
      match nth_error values r with
      | None => Err IndexError
      | Some target => back_subst rows values stack' (upd out col (N.lxor target current_sum))
      end
  end.

(** py_kernels.py:247-308, after hashing *)
Definition solve_rows (rows : list row) (values : list N) (m : nat) : res (list N) :=
  match peel rows m (init_state rows m) with
  | Err e => Err e
  | Ok st =>
      if negb (Nat.eqb (length (stk st)) (length rows)) then Err CoreDetected
      else back_subst rows values (stk st) (repeat 0%N m)
  end.

(** py_kernels.py:218-308  okvs_solve *)
Definition okvs_solve (seed : N * N) (keys values : list N) (m : nat) : res (list N) :=
  if andb (Nat.eqb m 0) (negb (Nat.eqb (length keys) 0)) then Err ZeroDivisionError
  else solve_rows (map (hash_key_py seed m) keys) values m.

Definition decode_row (storage : list N) (r : row) : N :=
  let '(h1, h2, h3) := r in
  N.lxor (N.lxor (nth h1 storage 0%N) (nth h2 storage 0%N)) (nth h3 storage 0%N).

(** py_kernels.py:311-334  okvs_decode *)
Definition okvs_decode (seed : N * N) (keys storage : list N) (m : nat) : res (list N) :=
  if andb (Nat.eqb m 0) (negb (Nat.eqb (length keys) 0)) then Err ZeroDivisionError
  else Ok (map (fun k => decode_row storage (hash_key_py seed m k)) keys).

(** okvs.cpp:61-199  solve_okvs: the same peeling and back substitution, but on
    failure it prints to stderr and returns an all-zero table (lines 170-176).
    m > 0 (integer division by zero traps otherwise); [values] has n rows. *)
Definition cpp_solve_okvs (aes : N -> N * N) (keys values : list N) (m : nat) : list N :=
  match solve_rows (map (hash_key_cpp aes m) keys) values m with
  | Ok out => out
  | Err _ => repeat 0%N m
  end.

(** okvs.cpp:201-216  decode_okvs *)
Definition cpp_decode_okvs (aes : N -> N * N) (keys storage : list N) (m : nat) : list N :=
  map (fun k => decode_row storage (hash_key_cpp aes m k)) keys.
