(** Model of the two PSI protocols: libs/mpc/psi/rr22.py (psi_intersect) and
    libs/mpc/psi/unbalanced.py (psi_unbalanced), over the kernels of OKVSModel, the silent
    VOLE of VOLEModel and the hash of OTModel.  [lib]: native library loaded (at both
    parties: they run the same build).  128-bit blocks are pairs of words; the OKVS kernels
    hold them joined to one number. *)
From Coq Require Import List NArith ZArith Bool.
From Verif Require Import MPCBase OTModel GF128Model OKVSSpec OKVSModel VOLEModel VOLESpec.
Import ListNotations.
Local Open Scope nat_scope.

Section PSI.
Variable X : cenv.
Variable lib : bool.
Variable aes : N * N -> N -> N * N.      (* okvs.cpp: the AES key hash, a function of seed and key *)

(** field_impl.py:216-245 _okvs_solve_impl, psi/okvs_gct.py:79-81 *)
Definition okvs_encode (seed : N * N) (keys values : list N) (m : nat) : option (list N) :=
  if lib then Some (cpp_solve_okvs (aes seed) keys values m)
  else match okvs_solve seed keys values m with Ok s => Some s | Err _ => None end.

(** field_impl.py:247-277 _okvs_decode_impl, okvs_gct.py:83-85; m = storage.shape[0] *)
Definition okvs_dec (seed : N * N) (keys storage : list N) (m : nat) : option (list N) :=
  if lib then Some (cpp_decode_okvs (aes seed) keys storage m)
  else match okvs_decode seed keys storage m with Ok s => Some s | Err _ => None end.

(** rr22.py:153-165 and 220-232: Davies-Meyer over the block generator, seed (item, 0) *)
Definition item_hash (x : N) : N * N := xor_pair (entry (prg X (x, 0%N) 1) 0) (x, 0%N).

(** extension.py:72-108 vec_hash on a row of two uint64: concatenating the eight uint8
    domain bytes with a uint64 row promotes them, so ten little-endian words are hashed. *)
Definition tag_hash (t : N * N) : list N :=
  firstn 16 (sha X (flat_map le8 (le8 0x1111 ++ [fst t; snd t]))).

(** What both parties draw. *)
Record psi_rand : Type := PSIRand {
  ps_u : list (N * N);     (* base VOLE vector at the PSI receiver *)
  ps_delta : N * N;        (* at the PSI sender *)
  ps_vseed : list N;       (* expansion seed *)
  ps_iknp : iknp_rand;
  ps_seed : N * N          (* rr22.py:143-146 OKVS seed *)
}.

Record psi_out : Type := PSIOut {
  po_store : list N;             (* P, the receiver's OKVS *)
  po_v : list (N * N);           (* the receiver's VOLE share *)
  po_sent : list (N * N);        (* rr22.py:172-181: what the sender receives, q = P + u *)
  po_tags : list (N * N);        (* rr22.py:243 the sender's tags before hashing *)
  po_local : list (N * N);       (* rr22.py:281 the receiver's tags before hashing *)
  po_mask : list N               (* rr22.py:299 *)
}.

(** rr22.py:288-295: receiver index j is marked when some remote tag equals its own *)
Definition member_mask (remote locals : list (list N)) : list N :=
  map (fun l => if existsb (fun r => if list_eq_dec N.eq_dec r l then true else false) remote
                then 1%N else 0%N) locals.

(** rr22.py:72-303 psi_intersect, sender <> receiver, n items each.  M is the table size
    (rr22.py:112-115 computes it from n: n times a factor between 1.35 and 25, rounded up to
    a multiple of 128) and base_k = 1024: any M and base_k here. *)
Definition psi_run (base_k M n : nat) (xs ys : list N) (R : psi_rand) : option psi_out :=
  if Nat.eqb n 0 then None else
  if negb (Nat.eqb (length xs) n && Nat.eqb (length ys) n) then None else
  do '(v, w, u, delta) <- silent_vole X lib (ps_u R) (ps_delta R) (ps_vseed R) base_k M (ps_iknp R);
  (* receiver: 151-174 *)
  do P <- okvs_encode (ps_seed R) ys (map (fun y => join (item_hash y)) ys) M;
  let q := tab M (fun j => xor_pair (split128 (nth j P 0%N)) (entry u j)) in
  (* sender: 200-245 *)
  let k := tab M (fun j => xor_pair (field_mul_impl lib (entry q j) delta) (entry w j)) in
  do decoded <- okvs_dec (ps_seed R) xs (map join k) M;
  let tags := tab n (fun i => xor_pair (split128 (nth i decoded 0%N))
                                       (field_mul_impl lib (item_hash (nth i xs 0%N)) delta)) in
  (* receiver: 279-297 *)
  do local <- okvs_dec (ps_seed R) ys (map join v) M;
  let local := map split128 local in
  Some (PSIOut P v q tags local (member_mask (map tag_hash tags) (map tag_hash local))).

Definition psi_intersect (base_k M n : nat) (xs ys : list N) (R : psi_rand) : option (list N) :=
  do o <- psi_run base_k M n xs ys R; Some (po_mask o).

(* ---------------------------------------------------------------- unbalanced *)

Definition add64 (a b : N) : N := N.land (a + b) mask64.
(** unbalanced.py:103-150 _compute_hashes *)
Definition KEY_DOMAIN : N := 0xA5A5A5A5A5A5A5A5.
Definition VAL_DOMAIN : N := 0x5A5A5A5A5A5A5A5A.
Definition derive (dom : N) (s : N * N) (x : N) : N * N :=
  entry (prg X (N.lxor (add64 x (fst s)) dom, add64 (N.lxor x (snd s)) dom) 1) 0.
Definition derived_key (s : N * N) (x : N) : N := fst (derive KEY_DOMAIN s x).
Definition derived_value (s : N * N) (x : N) : N * N := derive VAL_DOMAIN s x.

(** unbalanced.py:45-200 psi_unbalanced; M as in 158-159 (any value here); s the server's
    seed.  The client learns the table and the seed. *)
Definition psi_unbalanced (M : nat) (server_items client_items : list N) (s : N * N) : option (list N) :=
  if Nat.eqb (length server_items) 0 || Nat.eqb (length client_items) 0 then None else
  do table <- okvs_encode s (map (derived_key s) server_items)
                (map (fun x => join (derived_value s x)) server_items) M;
  do decoded <- okvs_dec s (map (derived_key s) client_items) table M;
  Some (tab (length client_items) (fun j =>
    let dec := split128 (nth j decoded 0%N) in
    let ex := derived_value s (nth j client_items 0%N) in
    if N.eqb (fst dec) (fst ex) && N.eqb (snd dec) (snd ex) then 1%N else 0%N)).
End PSI.
