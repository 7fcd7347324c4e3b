(** What the seed expansion is documented to be, and the inverse of the cipher. *)
From Coq Require Import NArith List Arith.
From Verif Require Import AESRound SeedExpandModel.
Import ListNotations.
Local Open Scope N_scope.

(** AES-CTR with the seed as key: block j is the encryption of the counter j under the seed *)
Definition aes_ctr (seed : N) (length : nat) : list N :=
  map (fun j => encrypt_block (aes_key_expand seed) (N.of_nat j)) (seq 0 length).

(** The standard inverse of AES (FIPS-197, section 5.3), with public round keys. *)
Fixpoint index_of (b : N) (l : list N) (i : N) : N :=
  match l with [] => 0 | x :: r => if x =? b then i else index_of b r (i + 1) end.
Definition inv_sub (b : N) : N := index_of b sbox 0.
(** the position the byte i of the shifted state comes from, and its inverse *)
Definition source (i : nat) : nat := (i mod 4 + 4 * ((i / 4 + i mod 4) mod 4))%nat.
Definition target (k : nat) : nat := (k mod 4 + 4 * ((k / 4 + 4 - k mod 4) mod 4))%nat.
Definition x2 (a : N) := xtime a.
Definition x4 (a : N) := xtime (xtime a).
Definition x8 (a : N) := xtime (xtime (xtime a)).
Definition by9 a := N.lxor (x8 a) a.
Definition by11 a := N.lxor (N.lxor (x8 a) (x2 a)) a.
Definition by13 a := N.lxor (N.lxor (x8 a) (x4 a)) a.
Definition by14 a := N.lxor (N.lxor (x8 a) (x4 a)) (x2 a).
Definition unmixed (z : N) (i : nat) : N :=
  let c := (4 * (i / 4))%nat in let r := (i mod 4)%nat in
  let b k := byte_at z (c + (r + k) mod 4)%nat in
  N.lxor (N.lxor (by14 (b 0%nat)) (by11 (b 1%nat))) (N.lxor (by13 (b 2%nat)) (by9 (b 3%nat))).
Definition dec (y rk : N) : N := let z := N.lxor y rk in pack (fun k => inv_sub (unmixed z (target k))).
Definition declast (y rk : N) : N := let z := N.lxor y rk in pack (fun k => inv_sub (byte_at z (target k))).
Definition decrypt_block (round_keys : list N) (y : N) : N :=
  N.lxor (fold_left (fun st r => dec st (nth r round_keys 0)) (rev (seq 1 9)) (declast y (nth 10 round_keys 0))) (nth 0 round_keys 0).

(** What anyone can compute from block j of an expanded seed: the key is a constant of the library. *)
Definition recover_seed (j : nat) (block : N) : N := N.lxor (decrypt_block (aes_key_expand fixed_key) block) (N.of_nat j).
