(** Model of libs/mpc/analytics/permutation.py: the bitonic sorting network computed from a
    permutation and applied to data, its first layer through oblivious transfer.
    Tensors of one dimension are lists; [tensor.run_jax] kernels are list functions. *)
From Coq Require Import List NArith ZArith Bool Arith.
From Verif Require Import MPCBase OTModel.
Import ListNotations.
Local Open Scope nat_scope.

(** numpy/jnp helpers: x[idx], x.at[idx].set(v) (updates applied in order), jnp.where,
    jax.lax.dynamic_slice (the start index is clamped), x[:n]. *)
Definition upd {A : Type} (l : list A) (i : nat) (v : A) : list A := firstn i l ++ match skipn i l with [] => [] | _ :: t => v :: t end.
Definition gather {A : Type} (d : A) (l : list A) (idx : list nat) : list A := map (fun i => nth i l d) idx.
Definition scatter {A : Type} (l : list A) (idx : list nat) (vs : list A) : list A :=
  fold_left (fun (l : list A) (iv : nat * A) => upd l (fst iv) (snd iv)) (combine idx vs) l.
Definition where_ {A : Type} (cs : list bool) (a b : list A) : list A :=
  map (fun cab : bool * (A * A) => if fst cab then fst (snd cab) else snd (snd cab)) (combine cs (combine a b)).
Definition dynamic_slice {A : Type} (l : list A) (start size : nat) : list A :=
  firstn size (skipn (Nat.min start (length l - size)) l).

(** permutation.py:102-107 and 230-234: the compared pairs of one layer *)
Definition idx_i (n dist : nat) : list nat := filter (fun i => i <? Nat.lxor i dist) (seq 0 n).
Definition idx_j (n dist : nat) : list nat := map (fun i => Nat.lxor i dist) (idx_i n dist).
(** 110-113 *)
Definition ascending (stage i : nat) : bool := Nat.even (i / 2 ^ (stage + 1)).
(** 97-99 and 224-226: stage and distance of every layer, in order *)
Definition layers (num_stages : nat) : list (nat * nat) :=
  flat_map (fun stage => map (fun step => (stage, 2 ^ (stage - step))) (seq 0 (stage + 1))) (seq 0 num_stages).

(** 116-124: the control bits of one layer *)
Definition layer_ctrls (n stage dist : nat) (current : list nat) : list bool :=
  let v_i := gather 0 current (idx_i n dist) in
  let v_j := gather 0 current (idx_j n dist) in
  where_ (map (ascending stage) (idx_i n dist))
         (map (fun ab : nat * nat => snd ab <? fst ab) (combine v_i v_j))
         (map (fun ab : nat * nat => fst ab <? snd ab) (combine v_i v_j)).
(** 127-131 and 331-346 (apply_local_step): conditional swap of all pairs of a layer *)
Definition local_step {A : Type} (d : A) (n dist : nat) (ctrls : list bool) (current : list A) : list A :=
  let v_i := gather d current (idx_i n dist) in
  let v_j := gather d current (idx_j n dist) in
  scatter (scatter current (idx_i n dist) (where_ ctrls v_j v_i)) (idx_j n dist) (where_ ctrls v_i v_j).

(** 72-135 _compute_bitonic_sort_controls; [num_stages] = int(log2 n) (exact below 2^48) *)
Fixpoint controls_loop (n : nat) (ls : list (nat * nat)) (current : list nat) : list bool :=
  match ls with
  | [] => []
  | (stage, dist) :: rest =>
      let c := layer_ctrls n stage dist current in
      c ++ controls_loop n rest (local_step 0 n dist c current)
  end.
Definition sort_controls (perm : list nat) (n : nat) : list bool :=
  controls_loop n (layers (Nat.log2 n)) (scatter (repeat 0 n) perm (seq 0 n)).

Section Apply.
Variables (X : cenv) (M CT : Type) (enc : list N -> list N -> M -> CT) (dec : list N -> CT -> option M).
Variable d : M.                          (* the zero of the dtype: padding and fresh arrays *)

(** random draws of the two transfers of one switch *)
Record switch_rand : Type := SwitchRand { rC0 : Z; rnd0 : nat -> ot_rand; rC1 : Z; rnd1 : nat -> ot_rand }.

(** 41-69 secure_switch (vectorised): two transfers, the second with the inverted bit *)
Definition bit (c : bool) : Z := if c then 1%Z else 0%Z.
Definition secure_switch (R : switch_rand) (x0 x1 : list M) (ctrl : list bool) : option (list M * list M) :=
  match transfer X M CT enc dec (rC0 R) (rnd0 R) x0 x1 (map bit ctrl) d,
        transfer X M CT enc dec (rC1 R) (rnd1 R) x0 x1 (map (fun c => 1 - bit c)%Z ctrl) d with
  | Some y0, Some y1 => Some (y0, y1)
  | _, _ => None
  end.

(** 224-358: the layers.  [on_sender] is the test of line 241 (sender <> receiver): true for
    the first layer only, since its result lives at the receiver. *)
Fixpoint run_layers (R : switch_rand) (n : nat) (controls : list bool) (ls : list (nat * nat))
    (ctrl_offset : nat) (on_sender : bool) (current : list M) : option (list M) :=
  match ls with
  | [] => Some current
  | (_, dist) :: rest =>
      let num_pairs := length (idx_i n dist) in
      let step_ctrls := dynamic_slice controls ctrl_offset num_pairs in
      if on_sender then
        match secure_switch R (gather d current (idx_i n dist)) (gather d current (idx_j n dist)) step_ctrls with
        | Some (res_i, res_j) =>
            run_layers R n controls rest (ctrl_offset + num_pairs) false
              (scatter (scatter (repeat d n) (idx_i n dist) res_i) (idx_j n dist) res_j)
        | None => None
        end
      else run_layers R n controls rest (ctrl_offset + num_pairs) false (local_step d n dist step_ctrls current)
  end.

(** 138-386 apply_permutation.  A list argument is stacked, permuted and unstacked; both forms
    are the list here. *)
Definition apply_permutation (R : switch_rand) (data : list M) (perm : list nat) : option (list M) :=
  let n := length data in
  let n_padded := 2 ^ Nat.log2_up (Nat.max n 2) in
  let data' := data ++ repeat d (n_padded - n) in
  let perm' := perm ++ seq n (n_padded - n) in
  match run_layers R n_padded (sort_controls perm' n_padded) (layers (Nat.log2 n_padded)) 0 true data' with
  | Some current => Some (firstn n current)
  | None => None
  end.
End Apply.
