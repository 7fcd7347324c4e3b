(** Model of the GF(2^128) kernels.
    Python integers are unbounded, so [N] is exact for them; numpy uint64 pairs
    and __m128i registers are pairs (lo, hi) of [N] words. *)
From Coq Require Import NArith List.
From Verif Require Import GF128Spec.
Import ListNotations.
Local Open Scope N_scope.

Definition mask64 : N := N.ones 64.                       (* (1 << 64) - 1 *)

(** py_kernels.py:39  _GF128_POLYNOMIAL = 0x87 *)
Definition GF128_POLYNOMIAL : N := 135.

(** py_kernels.py:50-56, the body of the loop of _gf128_clmul64 *)
Definition clmul64_step (a b : N) (acc : N * N) (i : N) : N * N :=
  let '(result_lo, result_hi) := acc in
  if N.testbit b i                                         (* (b >> i) & 1 *)
  then let shifted_lo := N.land (N.shiftl a i) mask64 in
       let shifted_hi := if 0 <? i then N.shiftr a (64 - i) else 0 in
       (N.lxor result_lo shifted_lo, N.lxor result_hi shifted_hi)
  else (result_lo, result_hi).

(** range(n) *)
Definition rangeN (n : nat) : list N := map N.of_nat (seq 0 n).

(** py_kernels.py:42-58  _gf128_clmul64 *)
Definition gf128_clmul64 (a b : N) : N * N :=
  fold_left (clmul64_step a b) (rangeN 64) (0, 0).

(** py_kernels.py:61-93  _gf128_clmul128 *)
Definition gf128_clmul128 (a_lo a_hi b_lo b_hi : N) : N * N * N * N :=
  let '(t0_lo, t0_hi) := gf128_clmul64 a_lo b_lo in
  let '(t1_lo, t1_hi) := gf128_clmul64 a_hi b_hi in
  let '(t2_lo, t2_hi) := gf128_clmul64 a_lo b_hi in
  let '(t3_lo, t3_hi) := gf128_clmul64 a_hi b_lo in
  let mid_lo := N.lxor t2_lo t3_lo in
  let mid_hi := N.lxor t2_hi t3_hi in
  (t0_lo, N.lxor t0_hi mid_lo, N.lxor t1_lo mid_hi, t1_hi).

(** py_kernels.py:96-135  _gf128_reduce *)
Definition gf128_reduce (r0 r1 r2 r3 : N) : N * N :=
  let '(q3_lo, q3_hi) := gf128_clmul64 r3 GF128_POLYNOMIAL in
  let r1 := N.lxor r1 q3_lo in
  let r2 := N.lxor r2 q3_hi in
  let '(q2_lo, q2_hi) := gf128_clmul64 r2 GF128_POLYNOMIAL in
  let r0 := N.lxor r0 q2_lo in
  let r1 := N.lxor r1 q2_hi in
  (r0, r1).

(** py_kernels.py:138-156  gf128_mul_single (operands are uint64[2]) *)
Definition gf128_mul_single (a b : N * N) : N * N :=
  let '(a_lo, a_hi) := a in
  let '(b_lo, b_hi) := b in
  let '(r0, r1, r2, r3) := gf128_clmul128 a_lo a_hi b_lo b_hi in
  let '(res_lo, res_hi) := gf128_reduce r0 r1 r2 r3 in
  (N.land res_lo mask64, N.land res_hi mask64).

(** py_kernels.py:159-178  gf128_mul_batch, on the flattened (n,2) arrays.
    The loop runs over a's rows; b must have at least as many (numpy indexing
    error otherwise): [None]. *)
Fixpoint gf128_mul_batch (a b : list (N * N)) : option (list (N * N)) :=
  match a, b with
  | [], _ => Some []
  | x :: a', y :: b' =>
      match gf128_mul_batch a' b' with
      | Some r => Some (gf128_mul_single x y :: r)
      | None => None
      end
  | _ :: _, [] => None
  end.

(** Elements as 128-bit integers: the uint64 pair (lo,hi), little endian. *)
Definition join (w : N * N) : N := N.lor (fst w) (N.shiftl (snd w) 64).
(** numpy `a ^ b` on uint64[2] rows *)
Definition xor_pair (a b : N * N) : N * N := (N.lxor (fst a) (fst b), N.lxor (snd a) (snd b)).
Definition split128 (x : N) : N * N := (N.land x mask64, N.shiftr x 64).
Definition word_pair (w : N * N) : Prop := fst w < 2 ^ 64 /\ snd w < 2 ^ 64.

(** ------------------------------------------------------------------------
    Native kernel, mplang/kernels/gf128.cpp.
    Intel semantics of the intrinsics used:
    - _mm_clmulepi64_si128(a, b, imm8): carry-less product of the 64-bit half of
      [a] selected by imm8 bit 0 and the half of [b] selected by imm8 bit 4;
    - _mm_slli_si128(x, 8) / _mm_srli_si128(x, 8): shift by 8 bytes in 128 bits;
    - _mm_xor_si128: xor.  A register is a 128-bit [N]. *)
Definition lo64 (x : N) : N := N.land x mask64.
Definition hi64 (x : N) : N := N.shiftr x 64.
Definition mm_clmulepi64 (a b : N) (imm8 : N) : N :=
  pmul (if N.testbit imm8 0 then hi64 a else lo64 a)
       (if N.testbit imm8 4 then hi64 b else lo64 b).
Definition mm_slli8 (x : N) : N := N.land (N.shiftl x 64) (N.ones 128).
Definition mm_srli8 (x : N) : N := N.shiftr x 64.
Definition mm_set_epi64x (hi lo : N) : N := N.lor (N.shiftl hi 64) lo.

(** gf128.cpp:96-133  gf128_mul *)
Definition cpp_gf128_mul (a b : N) : N :=
  let tmp3 := mm_clmulepi64 a b 0x00 in
  let tmp4 := mm_clmulepi64 a b 0x11 in
  let tmp5 := mm_clmulepi64 a b 0x01 in
  let tmp6 := mm_clmulepi64 a b 0x10 in
  let tmp5 := N.lxor tmp5 tmp6 in
  let tmp5_lo := mm_slli8 tmp5 in
  let tmp5_hi := mm_srli8 tmp5 in
  let r0 := N.lxor tmp3 tmp5_lo in
  let r1 := N.lxor tmp4 tmp5_hi in
  let Q := mm_set_epi64x 0 0x87 in
  let m0 := mm_clmulepi64 r1 Q 0x00 in
  let m1 := mm_clmulepi64 r1 Q 0x10 in
  let m1_shifted := mm_slli8 m1 in
  let M_lo := N.lxor m0 m1_shifted in
  let M_hi := mm_srli8 m1 in
  let H := mm_clmulepi64 M_hi Q 0x00 in
  let res := N.lxor r0 M_lo in
  N.lxor res H.

(** field_impl.py:113-138  _gf128_mul_impl on one element: the native kernel when
    the library loads, else the Python kernel. *)
Definition field_mul_impl (lib_loaded : bool) (a b : N * N) : N * N :=
  if lib_loaded then split128 (cpp_gf128_mul (join a) (join b))
  else gf128_mul_single a b.
