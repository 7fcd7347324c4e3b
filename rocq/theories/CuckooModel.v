(** Model of the batch hashing of libs/mpc/psi/cuckoo.py and of the bit helpers of
    libs/mpc/_utils.py.  Arrays are lists; -1 is [None]. *)
From Coq Require Import List NArith Bool Arith.
From Verif Require Import MPCBase OTModel.
Import ListNotations.
Local Open Scope nat_scope.

(** cuckoo.py:31-38 and 78-81, libs/mpc/common/constants.py:21-39 *)
Definition A_BASE : list N := [0x9E3779B97F4A7C15; 0xBF58476D1CE4E5B9; 0x94D049BB133111EB]%N.
Definition B_BASE : list N := [0x243F6A8885A308D3; 0x13198A2E03707344; 0xA4093822299F31D0]%N.

(** cuckoo.py:49-94 hash_to_positions for one item: candidate position number k.
    uint64 arithmetic wraps; table_size at most 2^31 (positions are int32). *)
Definition wrap64 (x : N) : N := N.land x (N.ones 64).
Definition position (seed : N * N) (table_size : nat) (item : list N) (k : nat) : nat :=
  let key := N.lxor (word_of_bytes (firstn 8 item)) (fst seed) in
  let a := N.lxor (nth k A_BASE 0%N) (fst seed) in
  let b := N.lxor (nth k B_BASE 0%N) (snd seed) in
  N.to_nat (wrap64 (wrap64 (key * a) + b) mod N.of_nat table_size).

(** the loop state of cuckoo_insert_batch *)
Record cstate : Type := CState {
  item_to_pos : nat -> option nat;     (* 126 *)
  active : nat -> bool;                (* 127 *)
  slots : nat -> option nat            (* 130: item index in each slot *)
}.

Section Insert.
Variables (N_ T : nat).                 (* items.shape[0], table_size *)
Variable pos : nat -> nat -> nat.       (* positions[i, k] *)
Variable win : nat -> nat -> nat.       (* which of several writers of a slot wins (round, slot): XLA's choice *)

(** 140-147 *)
Definition valid (k : nat) (st : cstate) (i : nat) : option nat :=
  if active st i then
    match slots st (pos i k) with None => Some (pos i k) | Some _ => None end
  else None.
Definition writers (k : nat) (st : cstate) (p : nat) : list nat :=
  filter (fun i => match valid k st i with Some q => Nat.eqb q p | None => false end) (seq 0 N_).
(** 151-159: scatter; one of the duplicates wins *)
Definition scattered (k : nat) (st : cstate) (p : nat) : option nat :=
  match writers k st p with
  | [] => slots st p
  | w :: ws => Some (nth (win k p mod S (length ws)) (w :: ws) 0)
  end.
(** 162-176 *)
Definition success_round (k : nat) (st : cstate) (i : nat) : bool :=
  match valid k st i with
  | Some p => match scattered k st p with Some j => Nat.eqb j i | None => false end
  | None => false
  end.
Definition round (st : cstate) (k : nat) : cstate :=
  CState (fun i => if success_round k st i then valid k st i else item_to_pos st i)
         (fun i => active st i && negb (success_round k st i))
         (scattered k st).
Definition init : cstate := CState (fun _ => None) (fun i => Nat.ltb i N_) (fun _ => None).
Definition insert : cstate := fold_left round (seq 0 3) init.
End Insert.

(** cuckoo.py:97-184 cuckoo_insert_batch: (final_table, item_to_pos, success_total) *)
Definition cuckoo_insert_batch (items : list (list N)) (T : nat) (seed : N * N) (win : nat -> nat -> nat)
  : list (list N) * list (option nat) * list bool :=
  let n := length items in
  let st := insert n (fun i k => position seed T (nth i items []) k) win in
  (tab T (fun p => match slots st p with Some i => nth i items [] | None => repeat 0%N 16 end),
   tab n (item_to_pos st),
   tab n (fun i => match item_to_pos st i with Some _ => true | None => false end)).

(** cuckoo.py:187-201 cuckoo_lookup_positions *)
Definition cuckoo_lookup_positions (items : list (list N)) (T : nat) (seed : N * N) : list (list nat) :=
  map (fun x => map (position seed T x) (seq 0 3)) items.

(** _utils.py:27-43 bytes_to_bits: unpackbits (most significant first), then each row of
    eight reversed *)
Definition bytes_to_bits (data : list N) : list N :=
  flat_map (fun w => rev (unpackbits [w])) data.
(** _utils.py:46-55 bits_to_bytes: packbits (most significant first) *)
Definition bits_to_bytes (bits : list N) : list N := packbits bits.
