(** Model of the elliptic-curve primitives, base oblivious transfer, IKNP extension and
    KKRT OPRF.  Files: mplang/backends/crypto_impl.py, mplang/libs/mpc/ot/base.py,
    mplang/libs/mpc/ot/extension.py, mplang/libs/mpc/psi/oprf.py.

    A protocol run is a function of the parties' inputs and of everything either of them
    draws at random.  [None] is a raised exception.  Transport between the two parties
    (simp.shuffle_static) delivers the sent value unchanged: that is C24/C26's subject. *)
From Coq Require Import List NArith ZArith Bool Lia.
From Verif Require Import MPCBase.
Import ListNotations.
Local Open Scope nat_scope.

(** The group behind coincurve: points with the identity (Python [None]) included. *)
Record ecgroup : Type := ECGroup {
  pt : Type; pzero : pt; padd : pt -> pt -> pt; popp : pt -> pt; pgen : pt;
  pis0 : pt -> bool;             (* [point is None] *)
  ord : Z                        (* crypto_impl.py:125 N *)
}.

(** External primitives: the group, its point encoding, SHA-256, the block generator behind
    field.aes_expand (field_impl.py:330-375, AES or the NumPy fallback: any function of the
    seed pair and the number of blocks). *)
Record cenv : Type := CEnv {
  grp : ecgroup;
  enc_pt : pt grp -> list N;                 (* coincurve format(compressed=False), 65 bytes *)
  dec_pt : list N -> option (pt grp);        (* coincurve.PublicKey(bytes) *)
  sha : list N -> list N;                    (* hashlib.sha256(d).digest() *)
  prg : N * N -> nat -> list (N * N)
}.

Section EC.
Variable E : ecgroup.

(** n-fold sum *)
Definition nmul (n : nat) (p : pt E) : pt E := Nat.iter n (padd E p) (pzero E).

(** crypto_impl.py:139-170 mul_impl: s % N; None when either is zero. *)
Definition ec_mul (p : pt E) (s : Z) : pt E := nmul (Z.to_nat (s mod ord E)) p.

(** crypto_impl.py:173-185 add_impl; coincurve's combine refuses a sum at infinity. *)
Definition ec_add (p q : pt E) : option (pt E) :=
  if pis0 E p then Some q else if pis0 E q then Some p
  else let r := padd E p q in if pis0 E r then None else Some r.

(** crypto_impl.py:188-208 sub_impl: q is negated by multiplying with N-1. *)
Definition ec_sub (p q : pt E) : option (pt E) :=
  if pis0 E q then Some p
  else let n := ec_mul q (ord E - 1) in
       if pis0 E p then Some n
       else let r := padd E p n in if pis0 E r then None else Some r.
End EC.

Section Prot.
Variable X : cenv.
Notation EE := (grp X).

(** crypto_impl.py:239-252 point_to_bytes_impl: 65 zero bytes for the identity. *)
Definition pt_bytes (p : pt EE) : list N := if pis0 EE p then repeat 0%N 65 else enc_pt X p.

(** crypto_impl.py:255-269 bytes_to_point_impl followed by the first use of the point
    (coincurve_key parses lazily; here at once). *)
Definition bytes_pt (b : list N) : option (pt EE) := dec_pt X b.

(* ---------------------------------------------------------------- base OT *)

(** base.py:35-60 _receiver_keygen_scalar; k is the drawn scalar. *)
Definition receiver_keygen (C : pt EE) (b k : Z) : option (pt EE) :=
  let PK_sigma := ec_mul EE (pgen EE) k in
  let two_PK_sigma := ec_mul EE PK_sigma 2 in
  do diff <- ec_sub EE C two_PK_sigma;
  let term := ec_mul EE diff b in
  ec_add EE PK_sigma term.

(** base.py:63-82 _sender_derive_keys; r0, r1 are the drawn scalars. *)
Definition sender_derive_keys (C PK0 : pt EE) (r0 r1 : Z) : option (pt EE * pt EE * pt EE * pt EE) :=
  do PK1 <- ec_sub EE C PK0;
  Some (ec_mul EE (pgen EE) r0, ec_mul EE PK0 r0, ec_mul EE (pgen EE) r1, ec_mul EE PK1 r1).

(** base.py:85-98 _receiver_derive_key *)
Definition receiver_derive_key (U0 U1 : pt EE) (k b : Z) : option (pt EE) :=
  do diff_U <- ec_sub EE U1 U0;
  let term_U := ec_mul EE diff_U b in
  do U <- ec_add EE U0 term_U;
  Some (ec_mul EE U k).

(** What one batch element draws: receiver scalar, sender scalars, the two AES-GCM nonces. *)
Record ot_rand : Type := OTRand { rk : Z; rr0 : Z; rr1 : Z; rn0 : list N; rn1 : list N }.

Section Transfer.
Variables (M CT : Type).
Variable enc : list N -> list N -> M -> CT.           (* crypto_impl.py:336-383: key, nonce, plaintext *)
Variable dec : list N -> CT -> option M.              (* crypto_impl.py:386-438: None = bad tag *)

(** base.py:101-222 transfer on a batch (tensor.elementwise runs every step per element):
    [ms0], [ms1] at the sender, [bs] at the receiver, rC the sender's first scalar. *)
Definition transfer (rC : Z) (rnd : nat -> ot_rand) (ms0 ms1 : list M) (bs : list Z) (dM : M)
  : option (list M) :=
  let n := length bs in
  if negb (Nat.eqb (length ms0) n && Nat.eqb (length ms1) n) then None else
  (* sender_init_fn; C is sent to the receiver *)
  let C := ec_mul EE (pgen EE) rC in
  (* receiver_keygen_fn; PK0 is sent to the sender, k stays *)
  do PK0s <- tabM n (fun i => receiver_keygen C (nth i bs 0%Z) (rk (rnd i)));
  (* sender_encrypt_fn; the four results are sent to the receiver *)
  do cts <- tabM n (fun i =>
    do '(u0, k0, u1, k1) <- sender_derive_keys C (nth i PK0s (pzero EE)) (rr0 (rnd i)) (rr1 (rnd i));
    let sk0 := sha X (pt_bytes k0) in
    let sk1 := sha X (pt_bytes k1) in
    Some (u0, enc sk0 (rn0 (rnd i)) (nth i ms0 dM), u1, enc sk1 (rn1 (rnd i)) (nth i ms1 dM)));
  (* receiver_decrypt_fn *)
  tabM n (fun i =>
    match nth_error cts i with
    | None => None
    | Some (u0, v0, u1, v1) =>
        let sel := nth i bs 0%Z in
        do k_pt <- receiver_derive_key u0 u1 (rk (rnd i)) sel;
        let sk := sha X (pt_bytes k_pt) in
        let v := if Z.eqb sel 0 then v0 else v1 in       (* crypto_impl.py:441-459 select *)
        dec sk v
    end).
End Transfer.

(* ---------------------------------------------------------------- IKNP *)

(** bit i of a 64-bit word, as the uint8 0 or 1 *)
Definition bitN (w : N) (i : nat) : N := N.b2n (N.testbit w (N.of_nat i)).

(** .view(uint64) of 8 and of 16 bytes (little endian) *)
Definition word_of_bytes (b : list N) : N := fold_right (fun x acc => (x + 256 * acc)%N) 0%N b.
Definition seed_view (b : list N) : N * N := (word_of_bytes (firstn 8 b), word_of_bytes (firstn 8 (skipn 8 b))).

(** extension.py:56-67 _blocks_to_bits: view as bytes, unpackbits(bitorder="little"). *)
Definition block_bits (w : N * N) : list N := tab 64 (bitN (fst w)) ++ tab 64 (bitN (snd w)).

(** extension.py:31-69 prg_expand for one seed row: first 16 bytes of the 32-byte seed. *)
Definition prg_expand (seed : list N) (len : nat) : list N :=
  firstn len (flat_map block_bits (prg X (seed_view (firstn 16 seed)) ((len + 127) / 128))).

(** jnp.packbits (most significant bit first) of one row; a trailing group is zero padded. *)
Definition pack8 (l : list N) : N :=
  fold_left (fun acc b => (2 * acc + b)%N) (map (fun i => nth i l 0%N) (seq 0 8)) 0%N.
Definition packbits (l : list N) : list N :=
  tab ((length l + 7) / 8) (fun i => pack8 (firstn 8 (skipn (8 * i) l))).
(** jnp.unpackbits (most significant bit first) of a row of bytes *)
Definition unpackbits (l : list N) : list N :=
  flat_map (fun w => map (fun i => bitN w (7 - i)) (seq 0 8)) l.

(** extension.py:72-108 vec_hash on one row of bytes; ds is written as 8 little-endian bytes. *)
Definition le8 (ds : N) : list N := tab 8 (fun i => N.land (N.shiftr ds (8 * N.of_nat i)) 255).
Definition vec_hash_row (ds : N) (r : list N) : list N :=
  sha X (if N.eqb ds 0 then r else le8 ds ++ r).

Definition K : nat := 128.                                     (* extension.py:121 *)

(** choice_bits at the receiver: 1-D (N,), or 2-D (N,1) or (N,K) *)
Inductive choice : Type := Choice1 (l : list N) | Choice2 (rows : list (list N)).
Definition choice_rows (c : choice) : nat :=
  match c with Choice1 l => length l | Choice2 r => length r end.
(** extension.py:342-351: r_t[k, j] after expand_dims/transpose and broadcasting over k *)
Definition choice_at (c : choice) (k j : nat) : N :=
  match c with
  | Choice1 l => at1 l j
  | Choice2 rows => if Nat.eqb (length (row rows j)) 1 then at2 rows j 0 else at2 rows j k
  end.
(** shapes accepted for num_ots = n (a one-row choice broadcast over n > 1 rows is left out) *)
Definition choice_shape (c : choice) (n : nat) : bool :=
  match c with
  | Choice1 l => Nat.eqb (length l) n
  | Choice2 rows => Nat.eqb (length rows) n &&
      (forallb (fun r => Nat.eqb (length r) 1) rows || forallb (fun r => Nat.eqb (length r) K) rows)
  end.

(** What the two parties draw in iknp_core. *)
Record iknp_rand : Type := IKNPRand {
  ik_s  : list N;          (* sender: 128 choice bits, extension.py:124-128 *)
  ik_k0 : list (list N);   (* receiver: 128 seeds of 32 bytes, 130-143 *)
  ik_k1 : list (list N);
  ik_rC : Z;               (* receiver scalar for C, 150-154 *)
  ik_kp : nat -> Z;        (* sender scalars, 168 *)
  ik_r  : nat -> Z         (* receiver scalars, 227 *)
}.

(** extension.py:160-193 base_sender_keygen *)
Definition base_sender_keygen (C : pt EE) (s : list N) (kp : nat -> Z) : option (list (list N)) :=
  tabM K (fun i =>
    let PK_sigma := ec_mul EE (pgen EE) (kp i) in
    do diff <- ec_sub EE C PK_sigma;
    let PK0 := if N.eqb (at1 s i) 0 then PK_sigma else diff in
    Some (pt_bytes PK0)).

(** extension.py:205-264 base_encrypt_rev *)
Definition base_encrypt_rev (C : pt EE) (PK0b : list (list N)) (m0 m1 : list (list N)) (r : nat -> Z)
  : option (list (list N * list N * list N)) :=
  tabM K (fun i =>
    do PK0 <- bytes_pt (row PK0b i);
    let U := ec_mul EE (pgen EE) (r i) in
    let K0 := ec_mul EE PK0 (r i) in
    do PK1 <- ec_sub EE C PK0;
    let K1 := ec_mul EE PK1 (r i) in
    Some (pt_bytes U,
          xor_bytes (row m0 i) (sha X (pt_bytes K0)),
          xor_bytes (row m1 i) (sha X (pt_bytes K1)))).

(** extension.py:278-325 base_decrypt_rev *)
Definition base_decrypt_rev (kp : nat -> Z) (cts : list (list N * list N * list N)) (s : list N)
  : option (list (list N)) :=
  tabM K (fun i =>
    match nth_error cts i with
    | None => None
    | Some (ub, c0, c1) =>
        do U <- bytes_pt ub;
        let sk := sha X (pt_bytes (ec_mul EE U (kp i))) in
        Some (xor_bytes (if N.eqb (at1 s i) 0 then c0 else c1) sk)
    end).

(** extension.py:330-353 calc_u: rows k, columns j *)
Definition calc_u (k0 k1 : list (list N)) (c : choice) (n : nat) : list (list N) :=
  tab K (fun k => tab n (fun j =>
    N.lxor (N.lxor (at1 (prg_expand (row k0 k) n) j) (at1 (prg_expand (row k1 k) n) j)) (choice_at c k j))).
(** extension.py:359-371 calc_t, transposed: rows j, columns k *)
Definition calc_t (ks u : list (list N)) (s : list N) (n : nat) : list (list N) :=
  tab n (fun j => tab K (fun k =>
    N.lxor (at1 (prg_expand (row ks k) n) j) (N.land (at2 u k j) (at1 s k)))).
(** extension.py:375-378 calc_q *)
Definition calc_q (k0 : list (list N)) (n : nat) : list (list N) :=
  tab n (fun j => tab K (fun k => at1 (prg_expand (row k0 k) n) j)).

(** extension.py:111-383 iknp_core: (t_matrix at the sender, q_matrix at the receiver, s) *)
Definition iknp_core (c : choice) (n : nat) (R : iknp_rand) : option (list (list N) * list (list N) * list N) :=
  if negb (choice_shape c n) then None else
  let C := ec_mul EE (pgen EE) (ik_rC R) in
  do PK0b <- base_sender_keygen C (ik_s R) (ik_kp R);
  do cts <- base_encrypt_rev C PK0b (ik_k0 R) (ik_k1 R) (ik_r R);
  do ks <- base_decrypt_rev (ik_kp R) cts (ik_s R);
  let u := calc_u (ik_k0 R) (ik_k1 R) c n in
  let t := calc_t ks u (ik_s R) n in
  Some (t, calc_q (ik_k0 R) n, ik_s R).

(** extension.py:390-477 transfer_extension.  Messages are (n,d) byte arrays; ht[:, :d] has
    only 32 columns, so d > 32 makes the xor fail; choice bits must be 1-D (470 compares
    r[:, None] with 1). *)
Definition transfer_extension (m0 m1 : list (list N)) (d : nat) (bits : list N) (n : nat) (R : iknp_rand)
  : option (list (list N)) :=
  do '(t, q, s) <- iknp_core (Choice1 bits) n R;
  if negb (Nat.leb d 32) then None else
  let cts := tab n (fun j =>
    let ht := vec_hash_row 1 (row t j) in
    let hts := vec_hash_row 1 (xor_bytes (row t j) s) in
    (xor_bytes (row m0 j) (firstn d ht), xor_bytes (row m1 j) (firstn d hts))) in
  Some (tab n (fun j =>
    let '(c0, c1) := nth j cts ([], []) in
    let hq := vec_hash_row 1 (row q j) in
    let m0c := xor_bytes c0 (firstn d hq) in
    let m1c := xor_bytes c1 (firstn d hq) in
    if N.eqb (at1 bits j) 1 then m1c else m0c)).

(* ---------------------------------------------------------------- OPRF *)

(** oprf.py:94-108 encode_inputs: the 128 bits of a 16-byte item *)
Definition encode_item (x : list N) : list N := firstn K (unpackbits x).

(** oprf.py:32-178 eval_oprf: ((t, s) at the sender, one hash per row at the receiver) *)
Definition eval_oprf (ys : list (list N)) (n : nat) (R : iknp_rand)
  : option ((list (list N) * list N) * list (list N)) :=
  do '(t, q, s) <- iknp_core (Choice2 (map encode_item ys)) n R;
  Some ((t, s), map (fun r => vec_hash_row 0x0CDF (packbits r)) q).

(** oprf.py:200-260 sender_eval_prf_batch *)
Definition sender_eval_prf_batch (key : list (list N) * list N) (xs : list (list N)) : list (list N) :=
  let '(t, s) := key in
  let M := length xs in
  let N_ := length t in
  let raw := tab (Nat.min M N_) (fun i =>
     let code := encode_item (row xs i) in
     let code_masked := tab K (fun k => if N.eqb (at1 code k) 0 then 0%N else at1 s k) in
     packbits (xor_bytes (row t i) code_masked)) in
  let raw' := raw ++ repeat (repeat 0%N 16) (M - N_) in
  map (vec_hash_row 0x0CDF) raw'.

(** oprf.py:263-310 sender_eval_prf: the final slice_tensor gets starts of rank 2 and ends of
    rank 1; dialects/tensor.py:826 rejects it while tracing. *)
Definition slice_args_ok (rank starts ends : nat) : bool := Nat.eqb starts rank && Nat.eqb ends rank.
Definition sender_eval_prf (key : list (list N) * list N) (x : list N) : option (list N) :=
  let '(t, s) := key in
  let code := encode_item x in
  let raw := packbits (xor_bytes (row t 0) (tab K (fun k => N.land (at1 code k) (at1 s k)))) in
  if slice_args_ok 2 2 1 then Some (vec_hash_row 0x0CDF raw) else None.
End Prot.
