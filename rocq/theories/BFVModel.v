(** Model of backends/bfv_impl.py, libs/mpc/analytics/aggregation.py and
    libs/mpc/analytics/groupby.py.

    A ciphertext is symbolic: the key it is encrypted under and its slot vector (2 rows of R
    slots, values modulo the plain modulus t), i.e. SEAL is taken to be correct and its noise
    budget is not modelled.  [None] as a result of an operation is an exception (or, for
    operations mixing two keys, garbage). *)
From Coq Require Import List ZArith Bool Arith.
From Verif Require Import MPCBase.
Import ListNotations.
Local Open Scope nat_scope.

(** bfv_impl.py:62-179: the three context classes.  A key pair is identified by a number;
    only a secret context can decrypt, a parameter context has no keys and no encryptor. *)
Inductive context : Type :=
| ParamCtx
| PublicCtx (key : nat)
| SecretCtx (key : nat).

(** public_key / encryptor / relin_keys / galois_keys attributes (120-124) *)
Definition public_part (c : context) : option nat :=
  match c with ParamCtx => None | PublicCtx k | SecretCtx k => Some k end.
(** decryptor attribute (159-160) *)
Definition secret_part (c : context) : option nat :=
  match c with SecretCtx k => Some k | _ => None end.

(** bfv_impl.py:182-192 BFVValue holding a ciphertext; payload None is a transparent
    (default constructed) ciphertext *)
Record cipher : Type := Cipher { payload : option (nat * list Z); cctx : context }.

(** Serialisation: contexts keep exactly what their class saves (85-93, 133-136, 170-173);
    a ciphertext arrives with a parameter context (193-239). *)
Definition send_context (c : context) : context := c.
Definition send_cipher (c : cipher) : cipher := Cipher (payload c) ParamCtx.

Section Ops.
Variables (R : nat) (t : Z).              (* row size, plain modulus *)

(** 307-315 encode + 366-367 BatchEncoder.encode: at most 2R entries, each at most t/2 in absolute
    value (SEAL's precondition, an exception in debug builds and undefined otherwise), zero padded
    and represented modulo t *)
Definition encodable (v : Z) : bool := (2 * Z.abs v <=? t)%Z.
Definition encode (vec : list Z) : option (list Z) :=
  if (length vec <=? 2 * R) && forallb encodable vec then Some (map (fun v => v mod t)%Z (vec ++ repeat 0%Z (2 * R - length vec))) else None.
(** 392-400 decode_int64: centred representatives *)
Definition centred (v : Z) : Z := (if t / 2 <? v mod t then v mod t - t else v mod t)%Z.
Definition decode (slots : list Z) : list Z := map centred slots.

(** 349-373 encrypt_impl *)
Definition encrypt (vec : list Z) (pk : context) : option cipher :=
  match public_part pk, encode vec with
  | Some k, Some s => Some (Cipher (Some (k, s)) pk)
  | _, _ => None
  end.
(** 376-389 decrypt_impl *)
Definition decrypt (c : cipher) (sk : context) : option (list Z) :=
  match secret_part sk, payload c with
  | Some k, Some (k', s) => if k =? k' then Some s else None
  | _, _ => None
  end.

Definition slotwise (f : Z -> Z -> Z) (a b : list Z) : list Z :=
  tab (2 * R) (fun p => (f (nth p a 0) (nth p b 0)) mod t)%Z.

(** 420-439 add_impl on two ciphertexts *)
Definition add (a b : cipher) : option cipher :=
  match payload a, payload b with
  | None, _ => Some b
  | _, None => Some a
  | Some (k, s), Some (k', s') => if k =? k' then Some (Cipher (Some (k, slotwise Z.add s s')) (cctx a)) else None
  end.
(** 598-620 mul_impl of a ciphertext with an encoded (TensorValue) plaintext: an all-zero
    plaintext is replaced by a fresh encryption of zero, which needs an encryptor *)
Definition mul_plain (a : cipher) (w : list Z) : option cipher :=
  match encode w with
  | None => None
  | Some e =>
      if forallb (Z.eqb 0) e then
        match public_part (cctx a) with
        | Some k => Some (Cipher (Some (k, repeat 0%Z (2 * R))) (cctx a))
        | None => None
        end
      else match payload a with
        | Some (k, s) => Some (Cipher (Some (k, slotwise Z.mul s e)) (cctx a))
        | None => None
        end
  end.
(** 649-668 relinearize_impl: ciphertext-plaintext products have size 2 and come back unchanged *)
Definition relinearize (a : cipher) (rk : context) : option cipher := Some a.

(** SEAL rotate_rows: both rows rotate left by [step], cyclically; |step| >= R is refused *)
Definition rpos (p : nat) (step : Z) : nat :=
  p / R * R + Z.to_nat ((Z.of_nat (p mod R) + step) mod Z.of_nat R).
Definition rot_rows (step : Z) (s : list Z) : list Z := tab (2 * R) (fun p => nth (rpos p step) s 0%Z).
(** SEAL rotate_columns: swap the rows *)
Definition swap_rows (s : list Z) : list Z := tab (2 * R) (fun p => nth (if p <? R then p + R else p - R) s 0%Z).

(** 671-692 rotate_impl *)
Definition rotate (a : cipher) (step : Z) (gk : context) : option cipher :=
  if (step =? 0)%Z then Some a else
  match payload a with
  | None => Some a
  | Some (k, s) =>
      match public_part gk with
      | Some k' => if (k =? k') && (Z.abs step <? Z.of_nat R)%Z then Some (Cipher (Some (k, rot_rows step s)) (cctx a)) else None
      | None => None
      end
  end.
(** 695-705 rotate_columns_impl *)
Definition rotate_columns (a : cipher) (gk : context) : option cipher :=
  match payload a, public_part gk with
  | Some (k, s), Some k' => if k =? k' then Some (Cipher (Some (k, swap_rows s)) (cctx a)) else None
  | _, _ => None
  end.

(* ---------------------------------------------------------------- aggregation.py *)

(** aggregation.py:52-55, the while loop of _safe_rotate *)
Fixpoint rotate_loop (fuel : nat) (current : cipher) (remaining sign max_step : Z) (gk : context) : option cipher :=
  match fuel with
  | O => Some current
  | S fuel =>
      if (0 <? remaining)%Z then
        let r := Z.min remaining max_step in
        do current' <- rotate current (sign * r) gk;
        rotate_loop fuel current' (remaining - r) sign max_step gk
      else Some current
  end.
(** 30-57 _safe_rotate (max_step >= 1) *)
Definition safe_rotate (c : cipher) (step : Z) (gk : context) (max_step : Z) : option cipher :=
  if (step =? 0)%Z then Some c
  else if (Z.abs step <=? max_step)%Z then rotate c step gk
  else rotate_loop (Z.to_nat (Z.abs step)) c (Z.abs step) (if (0 <? step)%Z then 1 else -1)%Z max_step gk.

(** the doubling loop shared by _rotate_and_sum_row (73-80), strided_rotate_and_sum (293-300)
    and batch_bucket_aggregate (338-347) *)
Fixpoint doubling (is_ : list nat) (stride k : nat) (current : cipher) (gk : context) (max_step : Z) : option cipher :=
  match is_ with
  | [] => Some current
  | i :: rest =>
      let step := stride * 2 ^ i in
      if k * stride <=? step then Some current     (* break *)
      else
        do rotated <- safe_rotate current (Z.of_nat step) gk max_step;
        do current' <- add current rotated;
        doubling rest stride k current' gk max_step
  end.
(** 60-80 _rotate_and_sum_row; math.ceil(math.log2(k)) is exact for k < 2^48 *)
Definition rotate_and_sum_row (c : cipher) (k : nat) (gk : context) (max_step : Z) : option cipher :=
  if k <=? 1 then Some c else doubling (seq 0 (Nat.log2_up k)) 1 k c gk max_step.
(** 83-135 rotate_and_sum *)
Definition rotate_and_sum (c : cipher) (k : nat) (gk : context) (slot_count : nat) : option cipher :=
  let row_size := slot_count / 2 in
  if k <=? row_size then rotate_and_sum_row c k gk 1024
  else
    do row0_sum <- rotate_and_sum_row c row_size gk 1024;
    do col_rotated <- rotate_columns c gk;
    do row1_sum <- rotate_and_sum_row col_rotated (k - row_size) gk 1024;
    add row0_sum row1_sum.
(** 256-300 strided_rotate_and_sum *)
Definition strided_rotate_and_sum (c : cipher) (stride n_elements : nat) (gk : context) (max_step : Z) : option cipher :=
  if n_elements <=? 1 then Some c else doubling (seq 0 (Nat.log2_up n_elements)) stride n_elements c gk max_step.
(** 303-347 batch_bucket_aggregate (n_buckets and slot_count are not used) *)
Definition batch_bucket_aggregate (c : cipher) (n_buckets samples : nat) (gk : context) (slot_count : nat) : option cipher :=
  if samples <=? 1 then Some c else doubling (seq 0 (Nat.log2_up samples)) 1 samples c gk 1024.
(** 350-372 extract_bucket_results *)
Definition extract_bucket_results (vector : list Z) (n_buckets slot_count : nat) : list Z :=
  map (fun b => nth (b * (slot_count / n_buckets)) vector 0%Z) (seq 0 n_buckets).

(** 185-190 the dict rotations: shift -> mask, in insertion order *)
Fixpoint set_mask (rots : list (Z * list Z)) (shift : Z) (target vector_size : nat) : list (Z * list Z) :=
  let mark (m : list Z) := tab vector_size (fun p => if Nat.eqb p target then 1%Z else nth p m 0%Z) in
  match rots with
  | [] => [(shift, mark (repeat 0%Z vector_size))]
  | (s, m) :: rest => if (s =? shift)%Z then (s, mark m) :: rest else (s, m) :: set_mask rest shift target vector_size
  end.
Definition rotations (aggs : list (nat * list nat)) (vector_size : nat) : list (Z * list Z) :=
  fold_left (fun rots ts => fold_left (fun rots src => set_mask rots (Z.of_nat src - Z.of_nat (fst ts))%Z (fst ts) vector_size)
                                      (snd ts) rots) aggs [].
(** 192-219; the result None is Python's None (no rotation), exceptions are [None] outside *)
Fixpoint sparse_loop (c : cipher) (rots : list (Z * list Z)) (gk : context) (acc : option cipher) : option (option cipher) :=
  match rots with
  | [] => Some acc
  | (shift, mask) :: rest =>
      if forallb (Z.eqb 0) mask then sparse_loop c rest gk acc else
      do rotated <- rotate c shift gk;              (* shift 0 returns c itself *)
      do masked <- mul_plain rotated mask;
      do acc' <- match acc with None => Some masked | Some f => add f masked end;
      sparse_loop c rest gk (Some acc')
  end.
(** 138-219 aggregate_sparse; a target beyond vector_size is an IndexError *)
Definition aggregate_sparse (c : cipher) (aggs : list (nat * list nat)) (gk : context) (vector_size : nat) : option (option cipher) :=
  if forallb (fun ts => (fst ts <? vector_size) || match snd ts with [] => true | _ => false end) aggs
  then sparse_loop c (rotations aggs vector_size) gk None else None.

(* ---------------------------------------------------------------- groupby.py, BFV *)

(** 288-299 make_relin_keys_impl and make_galois_keys_impl return their argument *)
Definition make_relin_keys (sk : context) : context := sk.
Definition make_galois_keys (sk : context) : context := sk.

(** groupby.py:92-103 chunk i of the data, zero padded to B; 157-162 the mask of bin k *)
Definition data_chunk (B : nat) (data : list Z) (i : nat) : list Z :=
  let s := i * B in let e := Nat.min ((i + 1) * B) (length data) in
  let c := firstn (e - s) (skipn s data) in
  c ++ repeat 0%Z (B - (e - s)).
Definition bin_mask (B : nat) (bins : list Z) (i : nat) (k : Z) : list Z :=
  let s := i * B in let e := Nat.min ((i + 1) * B) (length bins) in
  let c := firstn (e - s) (skipn s bins) in
  map (fun b => if (b =? k)%Z then 1%Z else 0%Z) (c ++ repeat (-1)%Z (B - (e - s))).
Definition num_chunks (B n : nat) : nat := (n + B - 1) / B.

(** 150-169 the masked sum of one bin *)
Fixpoint masked_sum (B : nat) (bins : list Z) (k : Z) (rk : context) (cts : list (nat * cipher)) (current : cipher) : option cipher :=
  match cts with
  | [] => Some current
  | (i, ct) :: rest =>
      do masked <- mul_plain ct (bin_mask B bins i k);
      do masked' <- relinearize masked rk;
      do current' <- add current masked';
      masked_sum B bins k rk rest current'
  end.

(** 34-224 oblivious_groupby_sum_bfv.  [key] is the number of the generated key pair;
    [networked] says whether values are serialised between the parties (HTTP) or handed over
    as objects (in-process cluster).  Also returned: what the receiver was sent. *)
Record receiver_view : Type := View { v_chunks : list cipher; v_pk : context; v_rk : context; v_gk : context }.
Definition move (networked : bool) (c : cipher) : cipher := if networked then send_cipher c else c.
Definition groupby_bfv (networked : bool) (key : nat) (data bins : list Z) (K : nat)
  : option receiver_view * option (list Z) :=
  let pk := PublicCtx key in let sk := SecretCtx key in
  let rk := make_relin_keys sk in let gk := make_galois_keys sk in
  let B := (2 * R) / 2 in                                        (* poly_modulus_degree = 2R *)
  match mapM (fun i => encrypt (data_chunk B data i) pk) (seq 0 (num_chunks B (length data))) with
  | None => (None, None)
  | Some chunks =>
      let view := View (map (move networked) chunks) (send_context pk) (send_context rk) (send_context gk) in
      (Some view,
       do ct_zero <- encrypt (repeat 0%Z B) (v_pk view);
       do sums <- mapM (fun k =>
          do s <- masked_sum B bins (Z.of_nat k) (v_rk view) (combine (seq 0 (length chunks)) (v_chunks view)) ct_zero;
          rotate_and_sum s B (v_gk view) (2 * R)) (seq 0 K);
       mapM (fun ct => do slots <- decrypt (move networked ct) sk; Some (nth 0 (decode slots) 0%Z)) sums)
  end.
End Ops.

(* ---------------------------------------------------------------- keygen cache *)

(** bfv_impl.py:245-285: one cache per process, keyed by (poly_modulus_degree, plain_modulus);
    [fresh] is the number of the next generated key pair *)
Record keystate : Type := KS { cache : list ((Z * Z) * nat); fresh : nat }.
Definition keygen (deg t : Z) (st : keystate) : (context * context) * keystate :=
  match find (fun e => (fst (fst e) =? deg)%Z && (snd (fst e) =? t)%Z) (cache st) with
  | Some (_, k) => ((PublicCtx k, SecretCtx k), st)
  | None => ((PublicCtx (fresh st), SecretCtx (fresh st)), KS (cache st ++ [((deg, t), fresh st)]) (S (fresh st)))
  end.
(** 250-252 clear_keygen_cache *)
Definition clear_keygen_cache (st : keystate) : keystate := KS [] (fresh st).

(** a history of calls in one process and what each keygen call returns *)
Inductive key_op : Type := Keygen (deg t : Z) | ClearCache.
Definition key_step (st : keystate) (o : key_op) : keystate * option (context * context) :=
  match o with
  | Keygen deg t => let '(ks, st') := keygen deg t st in (st', Some ks)
  | ClearCache => (clear_keygen_cache st, None)
  end.
Fixpoint key_run (st : keystate) (ops : list key_op) : list (option (context * context)) :=
  match ops with
  | [] => []
  | o :: rest => let '(st', r) := key_step st o in r :: key_run st' rest
  end.
