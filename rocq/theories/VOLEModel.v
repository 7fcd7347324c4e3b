(** Model of the VOLE protocols: Gilboa (libs/mpc/vole/gilboa.py), silent expansion
    (libs/mpc/ot/silent.py), Silver (libs/mpc/vole/silver.py, vole/ldpc.py noise).
    A GF(2^128) element is a pair of 64-bit words; both parties run the same build, so the
    same multiplication kernel ([lib]: native library loaded or not). *)
From Coq Require Import List NArith ZArith Bool.
From Verif Require Import MPCBase OTModel GF128Model LDPCModel.
Import ListNotations.
Local Open Scope nat_scope.

Definition elem (v : list (N * N)) (i : nat) : N * N := nth i v (0, 0)%N.

(** v_out = m[0]; for i in 1..k-1: v_out ^= m[i] *)
Definition xor_from_first (k : nat) (f : nat -> N * N) : N * N :=
  fold_left (fun acc i => xor_pair acc (f i)) (seq 1 (k - 1)) (f 0).

Section VOLE.
Variable X : cenv.
Variable lib : bool.

(** gilboa.py:60-72: the 128 bits of delta as a (128,1) column *)
Definition delta_choice (delta : N * N) : choice := Choice2 (map (fun b => [b]) (block_bits delta)).

(** gilboa.py:228-237 powers of x *)
Definition power_of_x (i : nat) : N * N :=
  if Nat.ltb i 64 then (N.shiftl 1 (N.of_nat i), 0%N) else (0%N, N.shiftl 1 (N.of_nat (i - 64))).

(** gilboa.py:195-277 _sender_round: (corrections m[i][j], v[j]) *)
Definition sender_round (t : list (list N)) (s : list N) (u : list (N * N)) (n : nat)
  : list (list (N * N)) * list (N * N) :=
  let t_seed i := packbits (row t i) in
  let v0 i := prg X (seed_view (t_seed i)) n in
  let v1 i := prg X (seed_view (xor_bytes (t_seed i) (packbits s))) n in
  let term i j := field_mul_impl lib (elem u j) (power_of_x i) in
  (tab 128 (fun i => tab n (fun j =>
       xor_pair (xor_pair (elem (v0 i) j) (elem (v1 i) j)) (term i j))),
   tab n (fun j => xor_from_first 128 (fun i => elem (v0 i) j))).

(** gilboa.py:281-313 _recv_round *)
Definition recv_round (q : list (list N)) (m : list (list (N * N))) (dbits : list N) (n : nat)
  : list (N * N) :=
  let w_exp i := prg X (seed_view (packbits (row q i))) n in
  let res i j := xor_pair (elem (w_exp i) j)
                   (if N.eqb (at1 dbits i) 0 then (0, 0)%N else elem (nth i m []) j) in
  tab n (fun j => xor_from_first 128 (fun i => res i j)).

(** gilboa.py:32-191 vole with return_secrets=True: (v at the sender, w at the receiver,
    u, delta).  u_provider must return n elements (tiling and xor reject anything else). *)
Definition vole (u : list (N * N)) (delta : N * N) (n : nat) (R : iknp_rand)
  : option (list (N * N) * list (N * N) * list (N * N) * (N * N)) :=
  do '(t, q, s) <- iknp_core X (delta_choice delta) 128 R;
  if negb (Nat.eqb (length u) n) then None else
  let '(m, v) := sender_round t s u n in
  Some (v, recv_round q m (block_bits delta) n, u, delta).

(* ---------------------------------------------------------------- silent *)

(** silent.py:87 *)
Definition CHUNK_SIZE : nat := N.to_nat 100000.

(** base * mask on uint64 *)
Definition scale (b : N) (w : N * N) : N * N := (N.land (fst w * b) mask64, N.land (snd w * b) mask64).

(** silent.py:95-139 _expand_chunk; mask row i is the bits of the blocks of row i *)
Definition expand_chunk (base : list (N * N)) (mask : list (list (N * N))) (base_k len : nat)
  : list (N * N) :=
  let bits i := flat_map block_bits (nth i mask []) in
  tab len (fun j =>
    fold_left (fun carry i => xor_pair carry (scale (at1 (bits i) j) (elem base i))) (seq 0 base_k) (0, 0)%N).

(** silent.py:163-205 _run_expansion *)
Definition this_len (n i : nat) : nat := Nat.min CHUNK_SIZE (n - i * CHUNK_SIZE).
Definition num_chunks (n : nat) : nat := (n + CHUNK_SIZE - 1) / CHUNK_SIZE.
Definition chunk (base : list (N * N)) (seed : list N) (base_k n i : nat) : list (N * N) :=
  let master := seed_view (firstn 16 seed) in
  let row_seeds := prg X master base_k in
  let num_blocks := (this_len n i + 127) / 128 in
  let mask := map (fun r => prg X r num_blocks) row_seeds in
  expand_chunk base mask base_k (this_len n i).
Definition run_expansion (base : list (N * N)) (seed : list N) (base_k n : nat) : list (N * N) :=
  concat (map (chunk base seed base_k n) (seq 0 (num_chunks n))).

(** silent.py:31-217 silent_vole_random_u: (v_long, w_long, u_long, delta); jnp.concatenate
    of no chunk (n = 0) raises. *)
Definition silent_vole (u : list (N * N)) (delta : N * N) (seed : list N) (base_k n : nat) (R : iknp_rand)
  : option (list (N * N) * list (N * N) * list (N * N) * (N * N)) :=
  do '(v, w, u', d) <- vole u delta base_k R;
  if Nat.eqb (num_chunks n) 0 then None else
  Some (run_expansion v seed base_k n, run_expansion w seed base_k n, run_expansion u' seed base_k n, d).

(* ---------------------------------------------------------------- Silver *)

(** vole/ldpc.py:304-316: the drawn positions, in drawing order *)
Fixpoint noise_positions (n : Z) (raws : list Z) (acc : list Z) : list Z :=
  match raws with
  | [] => acc
  | r :: rest =>
      let pos := (r mod (n - Z.of_nat (length acc)))%Z in
      let offset := Z.of_nat (length (filter (fun p => Z.leb p pos) acc)) in
      noise_positions n rest (acc ++ [(pos + offset)%Z])
  end.

(** vole/silver.py:168-198: encode v, w, u with the same sparse matrix; noise is xored into
    the receiver's w only.  Blocks are joined to one 128-bit number for the LDPC kernel. *)
Definition silver_encode (base : list (N * N)) (indices indptr : list nat) (n : nat) : option (list N) :=
  ldpc_encode (map join base) indices indptr n.
Definition xor_vecs (a b : list N) : list N := map (fun p => N.lxor (fst p) (snd p)) (combine a b).
Definition silver_vole (u : list (N * N)) (delta : N * N) (noise : list N) (indices indptr : list nat)
  (base_k n : nat) (R : iknp_rand) : option (list N * list N * list N * (N * N)) :=
  do '(v, w, u', d) <- vole u delta base_k R;
  do V <- silver_encode v indices indptr n;
  do W_clean <- silver_encode w indices indptr n;
  do U_long <- silver_encode u' indices indptr n;
  Some (V, xor_vecs W_clean noise, U_long, d).

(** vole/silver.py:241-300 silver_vole_ldpc: 128 base OTs with random choice bits; every two
    consecutive matrix bytes are a seed; u and delta are drawn afresh at the end. *)
Fixpoint pairs (l : list N) : list (N * N) :=
  match l with a :: b :: l' => (a, b) :: pairs l' | _ => [] end.
Definition ldpc_expand (m : list (list N)) (n : nat) : list (N * N) :=
  firstn n (flat_map (fun sd => prg X sd (n / 128 + 1)) (pairs (concat m))).
Definition silver_vole_ldpc (cbits : list N) (n : nat) (R : iknp_rand) (u_rand : list (N * N)) (d_rand : N * N)
  : option (list (N * N) * list (N * N) * list (N * N) * (N * N)) :=
  do '(t, q, s) <- iknp_core X (Choice2 (map (fun b => [b]) cbits)) 128 R;
  Some (ldpc_expand t n, ldpc_expand q n, u_rand, d_rand).
End VOLE.
