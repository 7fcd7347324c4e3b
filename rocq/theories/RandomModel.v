(** Model of the random values: crypto.random_bytes, random_tensor, random_bits (dialects/crypto.py:576-657,
    backends/crypto_impl.py:712-723) and ec_random_scalar (crypto_impl.py:211-213), as functions of the bytes
    that os.urandom returns.
    Simplified: tensors are their elements in row-major order, integer element types only; run_jax runs the
    function (C99) with 64-bit types enabled. *)
From Coq Require Import NArith ZArith List Arith Bool.
Import ListNotations.
Open Scope N_scope.

(** jnp.unpackbits(bitorder="little") *)
Definition byte_bits (b : N) : list N := map (fun i => N.b2n (N.testbit b i)) [0; 1; 2; 3; 4; 5; 6; 7].
Definition unpackbits (l : list N) : list N := flat_map byte_bits l.

(** crypto.py:628-657: the number of bytes asked for, and the tensor *)
Definition random_bits_len (n : nat) : nat := ((n + 7) / 8)%nat.
Definition random_bits (n : nat) (urandom : nat -> list N) : list N := firstn n (unpackbits (urandom (random_bits_len n))).

(** b.view(dtype) on a little-endian host: groups of w bytes *)
Fixpoint le (l : list N) : N := match l with [] => 0 | b :: r => b + 256 * le r end.
Fixpoint view (w : nat) (n : nat) (l : list N) : list N :=
  match n with O => [] | S n' => le (firstn w l) :: view w n' (skipn w l) end.
(** crypto.py:588-625, an unsigned element type of w bytes, shape with n elements *)
Definition random_tensor (w n : nat) (urandom : nat -> list N) : list N := view w n (urandom (n * w)%nat).
(** the same for a signed element type: two's complement *)
Definition signed (w : nat) (x : N) : Z := if x <? 2 ^ (8 * N.of_nat w - 1) then Z.of_N x else (Z.of_N x - 2 ^ (8 * Z.of_nat w))%Z.
Definition random_tensor_signed (w n : nat) (urandom : nat -> list N) : list Z := map (signed w) (random_tensor w n urandom).

(** crypto_impl.py:122-123 (the order of secp256k1), 211-213: int.from_bytes(os.urandom(32), "big") % N *)
Definition order : N := 115792089237316195423570985008687907852837564279074904382605163141518161494337.
Definition be (l : list N) : N := fold_left (fun a b => 256 * a + b) l 0.
Definition random_scalar (urandom : nat -> list N) : N := be (urandom 32%nat) mod order.
