(** Model of the binned kernel kernels/okvs_opt.cpp and of the kernel selection in
    backends/field_impl.py.  [enc x rk] is one AES round (see AESRound.v for the
    concrete instruction); registers are 128-bit [N], lanes are 64 bits. *)
From Coq Require Import NArith ZArith List Arith Bool.
From Verif Require Import OKVSSpec OKVSModel.
Import ListNotations.

Definition two64 : N := 2 ^ 64.
Definition lane0 (x : N) : N := N.modulo x two64.
Definition lane1 (x : N) : N := N.div x two64.
Definition join_lanes (lo hi : N) : N := (lo + two64 * hi)%N.

(** okvs.cpp:34-39  the two hash words of hash_key *)
Definition aes_words (enc : N -> N -> N) (seed key : N) : N * N :=
  let h := enc (enc key seed) seed in (lane0 h, lane1 h).

(** okvs_opt.cpp:33 *)
Definition NUM_BINS : nat := 1024.

(** okvs_opt.cpp:45-51 *)
Definition get_bin_index (enc : N -> N -> N) (seed key : N) : nat :=
  N.to_nat (N.modulo (fst (aes_words enc seed key)) (N.of_nat NUM_BINS)).

(** okvs_opt.cpp:57  seed lanes + (1,1), lane-wise modulo 2^64 *)
Definition seed_plus (seed : N) : N :=
  join_lanes (lane0 (lane0 seed + 1)) (lane0 (lane1 seed + 1)).

(** okvs_opt.cpp:67 *)
Definition lcg (r : N) : N := N.modulo (r * 6364136223846793005 + 1442695040888963407) two64.

(** okvs_opt.cpp:72-77 *)
Definition make_distinct (h1 h2 h3 m : N) : N * N * N :=
  let h2 := if N.eqb h2 h1 then N.modulo (h2 + 1) m else h2 in
  let h3 :=
    if orb (N.eqb h3 h1) (N.eqb h3 h2) then
      let h3 := N.modulo (h3 + 1) m in
      if orb (N.eqb h3 h1) (N.eqb h3 h2) then N.modulo (h3 + 1) m else h3
    else h3 in
  (h1, h2, h3).

(** okvs_opt.cpp:54-79 (m_local > 0) *)
Definition get_bin_local_indices (enc : N -> N -> N) (seed key : N) (m_local : nat) : row :=
  let m := N.of_nat m_local in
  let s2 := seed_plus seed in
  let r0 := lane0 (enc (enc (enc key s2) s2) s2) in
  let r1 := lcg r0 in
  let r2 := lcg r1 in
  to_row (make_distinct (N.modulo r0 m) (N.modulo r1 m) (N.modulo r2 m) m).

(** okvs_opt.cpp:198-207 *)
Definition m_per_bin (m b : nat) : nat :=
  m / NUM_BINS + (if b <? m mod NUM_BINS then 1 else 0).
Fixpoint bin_offset (m b : nat) : nat :=
  match b with O => 0 | S b' => bin_offset m b' + m_per_bin m b' end.

(** okvs_opt.cpp:232-236  keys (with values) of bin b in input order *)
Definition bin_items (enc : N -> N -> N) (seed : N) (items : list (N * N)) (b : nat) : list (N * N) :=
  filter (fun kv => get_bin_index enc seed (fst kv) =? b) items.

(** okvs_opt.cpp:100-102  the rows of bin b inside its own segment *)
Definition local_rows (enc : N -> N -> N) (seed : N) (items : list (N * N)) (m b : nat) : list row :=
  map (fun kv => get_bin_local_indices enc seed (fst kv) (m_per_bin m b)) (bin_items enc seed items b).

(** okvs_opt.cpp:82-188  solve_bin on a zeroed local table; [None] is "return false".
    The peeling and back substitution are those of okvs.cpp on the local rows. *)
Definition solve_bin (enc : N -> N -> N) (seed : N) (items : list (N * N)) (ml : nat) : option (list N) :=
  match solve_rows (map (fun kv => get_bin_local_indices enc seed (fst kv) ml) items) (map snd items) ml with
  | Ok out => Some out
  | Err _ => None
  end.

(** okvs_opt.cpp:246-268  the table segment of bin b, with the fallback *)
Definition bin_segment (enc : N -> N -> N) (seed : N) (items : list (N * N)) (m b : nat) : list N :=
  let its := bin_items enc seed items b in
  let ml := m_per_bin m b in
  match its with
  | [] => repeat 0%N ml
  | _ =>
      match solve_bin enc seed its ml with
      | Some out => out
      | None => cpp_solve_okvs (aes_words enc seed) (map fst its) (map snd its) ml
      end
  end.

(** okvs_opt.cpp:190-270  solve_okvs_opt (segments are disjoint, so the parallel
    for loop is a concatenation in bin order; m >= NUM_BINS) *)
Definition solve_okvs_opt (enc : N -> N -> N) (seed : N) (keys values : list N) (m : nat) : list N :=
  concat (map (bin_segment enc seed (combine keys values) m) (seq 0 NUM_BINS)).

(** okvs_opt.cpp:291-304 *)
Definition decode_opt_key (enc : N -> N -> N) (seed : N) (storage : list N) (m : nat) (key : N) : N :=
  let b := get_bin_index enc seed key in
  let off := bin_offset m b in
  let '(h1, h2, h3) := get_bin_local_indices enc seed key (m_per_bin m b) in
  N.lxor (N.lxor (nth (off + h1) storage 0%N) (nth (off + h2) storage 0%N)) (nth (off + h3) storage 0%N).
Definition decode_okvs_opt (enc : N -> N -> N) (seed : N) (keys storage : list N) (m : nat) : list N :=
  map (decode_opt_key enc seed storage m) keys.

(** field_impl.py:150-158 and 191-196: which kernel handles n keys with table size m.
    [m / n < 1.32] is modelled as the rational comparison 100 m < 132 n. *)
Definition uses_binned_kernel (lib : bool) (n m : nat) : bool :=
  lib && negb (N.of_nat n <? 200000)%N && negb (100 * N.of_nat m <? 132 * N.of_nat n)%N.

(** field_impl.py:141-178 with the native library loaded *)
Definition okvs_solve_opt_native (enc : N -> N -> N) (seed : N) (keys values : list N) (m : nat) : list N :=
  if uses_binned_kernel true (length keys) m then solve_okvs_opt enc seed keys values m
  else cpp_solve_okvs (aes_words enc seed) keys values m.
(** field_impl.py:181-213 *)
Definition okvs_decode_opt_native (enc : N -> N -> N) (seed : N) (keys storage : list N) (m : nat) : list N :=
  if uses_binned_kernel true (length keys) m then decode_okvs_opt enc seed keys storage m
  else cpp_decode_okvs (aes_words enc seed) keys storage m.
