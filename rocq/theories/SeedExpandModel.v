(** Model of field.aes_expand with the native library: kernels/okvs.cpp:217-283 (AES-128 with a fixed
    key over seed xor counter).  A register is a 128-bit [N], byte 0 least significant. *)
From Coq Require Import NArith List Arith.
From Verif Require Import AESRound.
Import ListNotations.
Local Open Scope N_scope.

(** sixteen bytes as a register *)
Definition pack (f : nat -> N) : N := fold_right (fun i acc => N.lor (N.shiftl (f i) (8 * N.of_nat i)) acc) 0 (seq 0 16).

(** _mm_aesenclast_si128: the last round has no MixColumns *)
Definition aesenclast (x rk : N) : N := N.lxor (pack (shifted x)) rk.

(** _mm_aeskeygenassist_si128(x, rcon), then _mm_shuffle_epi32(., 0xff): the word
    RotWord(SubWord(bytes 12..15)) xor rcon in all four places *)
Definition assist (x rcon : N) : N :=
  pack (fun i => let r := (i mod 4)%nat in
                 N.lxor (sub_byte (byte_at x (12 + (r + 1) mod 4)%nat)) (if Nat.eqb r 0 then rcon else 0)).
(** _mm_slli_si128(x, 4) *)
Definition shift4 (x : N) : N := N.land (N.shiftl x 32) (N.ones 128).
(** okvs.cpp:218-229 *)
Definition aes_keygen_assist (key rcon : N) : N :=
  let t := N.lxor key (shift4 key) in
  let t2 := N.lxor t (shift4 (shift4 key)) in
  let t3 := N.lxor t2 (shift4 (shift4 (shift4 key))) in
  N.lxor t3 (assist key rcon).
Definition rcons : list N := [0x01; 0x02; 0x04; 0x08; 0x10; 0x20; 0x40; 0x80; 0x1b; 0x36].
(** okvs.cpp:231-243 *)
Definition aes_key_expand (user_key : N) : list N :=
  user_key :: snd (fold_left (fun acc rcon => let k := aes_keygen_assist (fst acc) rcon in (k, snd acc ++ [k])) rcons (user_key, [])).

(** okvs.cpp:270-276: xor, nine rounds, the last round *)
Definition encrypt_block (round_keys : list N) (block : N) : N :=
  let state := fold_left (fun st r => aesenc st (nth r round_keys 0)) (seq 1 9) (N.lxor block (nth 0 round_keys 0)) in
  aesenclast state (nth 10 round_keys 0).

(** okvs.cpp:250-254 *)
Definition fixed_key : N := 0x243F6A8885A308D3 * 2 ^ 64 + 0x13198A2E03707344.

(** okvs.cpp:258-282: the blocks of one seed; field_impl.py:330-360 *)
Definition expand_seed (seed : N) (length : nat) : list N :=
  map (fun j => encrypt_block (aes_key_expand fixed_key) (N.lxor seed (N.of_nat j))) (seq 0 length).
Definition aes_expand (seeds : list N) (length : nat) : list (list N) := map (fun s => expand_seed s length) seeds.

(** FIPS-197 Appendix B: key 2b7e1516..., input 3243f6a8..., output 3925841d... (byte 0 first) *)
Definition of_bytes (l : list N) : N := pack (fun i => nth i l 0).
Example encrypt_fips197 :
  encrypt_block (aes_key_expand (of_bytes [0x2b;0x7e;0x15;0x16;0x28;0xae;0xd2;0xa6;0xab;0xf7;0x15;0x88;0x09;0xcf;0x4f;0x3c]))
    (of_bytes [0x32;0x43;0xf6;0xa8;0x88;0x5a;0x30;0x8d;0x31;0x31;0x98;0xa2;0xe0;0x37;0x07;0x34]) =
  of_bytes [0x39;0x25;0x84;0x1d;0x02;0xdc;0x09;0xfb;0xdc;0x11;0x85;0x97;0x19;0x6a;0x0b;0x32].
Proof. vm_compute. reflexivity. Qed.
