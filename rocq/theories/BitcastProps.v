(** C219: bitcast reinterprets the same bytes. *)
From Coq Require Import List NArith Arith Bool Lia.
From Verif Require Import BitcastModel.
Import ListNotations.

(** ** Specification: an array in memory *)
Definition size (s : list nat) : nat := fold_right Nat.mul 1 s.
(** the little-endian bytes of an element *)
Fixpoint le (w : nat) (x : N) : list N := match w with 0 => [] | S w' => (x mod 256)%N :: le w' (x / 256)%N end.
(** the bytes of an array, row after row *)
Definition memory (a : arr) : list N := flat_map (le (width (dt a))) (elems a).
(** as many elements as the shape says, each fitting its type *)
Definition wf (a : arr) : Prop :=
  length (elems a) = size (shape a) /\ Forall (fun x => (x < 256 ^ N.of_nat (width (dt a)))%N) (elems a).
(** the type is one that JAX keeps *)
Definition kept (x64 : bool) (t : ety) : Prop := x64 = true \/ width t < 8.

(** ** Proofs *)
Local Lemma pow_S : forall w, (256 ^ N.of_nat (S w) = 256 * 256 ^ N.of_nat w)%N.
Proof. intros w. rewrite Nnat.Nat2N.inj_succ, N.pow_succ_r'. reflexivity. Qed.
Local Lemma pow_nz : forall w, (256 ^ N.of_nat w <> 0)%N.
Proof. intros w. apply N.pow_nonzero. discriminate. Qed.
Local Lemma le_app : forall a b x y, (x < 256 ^ N.of_nat a)%N -> le (a + b) (x + 256 ^ N.of_nat a * y) = le a x ++ le b y.
Proof.
  induction a as [|a IH]; intros b x y Hx.
  - change (256 ^ N.of_nat 0)%N with 1%N in *. replace x with 0%N by lia. cbn [le app Nat.add]. f_equal. lia.
  - cbn [le app Nat.add]. rewrite pow_S in *. f_equal.
    + replace (x + 256 * 256 ^ N.of_nat a * y)%N with (x + (256 ^ N.of_nat a * y) * 256)%N by lia.
      apply N.mod_add. discriminate.
    + rewrite <- IH by (apply N.div_lt_upper_bound; [discriminate | lia]). f_equal.
      replace (x + 256 * 256 ^ N.of_nat a * y)%N with (x + (256 ^ N.of_nat a * y) * 256)%N by lia.
      apply N.div_add. discriminate.
Qed.
Local Lemma join_le : forall w l, Forall (fun x => (x < 256 ^ N.of_nat w)%N) l -> le (length l * w) (join w l) = flat_map (le w) l.
Proof.
  induction l as [|x l IH]; intros Hl; [reflexivity|]. cbn [length join flat_map Nat.mul].
  rewrite le_app by (inversion Hl; assumption). f_equal. apply IH. inversion Hl; assumption.
Qed.
Local Lemma split_le : forall w k x, flat_map (le w) (split w k x) = le (k * w) x.
Proof.
  induction k as [|k IH]; intros x; [reflexivity|]. cbn [split flat_map Nat.mul]. rewrite IH.
  rewrite <- le_app by (apply N.mod_lt, pow_nz). f_equal. rewrite N.add_comm. symmetry. apply N.div_mod, pow_nz.
Qed.
Local Lemma join_lt : forall w l, Forall (fun x => (x < 256 ^ N.of_nat w)%N) l -> (join w l < 256 ^ N.of_nat (length l * w))%N.
Proof.
  induction l as [|x l IH]; intros Hl; [reflexivity|]. inversion Hl; subst. cbn [join length Nat.mul].
  rewrite Nnat.Nat2N.inj_add, N.pow_add_r. specialize (IH H2). pose proof (pow_nz w). nia.
Qed.
Local Lemma split_lt : forall w k x, Forall (fun y => (y < 256 ^ N.of_nat w)%N) (split w k x).
Proof. induction k as [|k IH]; intros x; constructor; [apply N.mod_lt, pow_nz | apply IH]. Qed.
Local Lemma split_len : forall w k x, length (split w k x) = k.
Proof. induction k as [|k IH]; intros x; cbn; auto. Qed.
Local Lemma groups_ok : forall m k l, length l = m * k ->
  concat (groups m k l) = l /\ Forall (fun g => length g = k) (groups m k l) /\ length (groups m k l) = m.
Proof.
  induction m as [|m IH]; intros k l Hl; cbn in *.
  - destruct l; [repeat split; constructor | discriminate].
  - destruct (IH k (skipn k l)) as (A & B & C); [rewrite skipn_length; lia|].
    rewrite A, firstn_skipn. repeat split; [constructor; [rewrite firstn_length; lia | exact B] | f_equal; exact C].
Qed.
Local Lemma concat_map_flat {A B} (f : A -> list B) (gs : list (list A)) : flat_map f (concat gs) = flat_map (flat_map f) gs.
Proof. induction gs as [|g gs IH]; [reflexivity|]. cbn. rewrite flat_map_app, IH. reflexivity. Qed.
Local Lemma joins_le : forall w k gs, Forall (fun g => length g = k) gs -> Forall (fun x => (x < 256 ^ N.of_nat w)%N) (concat gs) ->
  flat_map (le (k * w)) (map (join w) gs) = flat_map (le w) (concat gs) /\ Forall (fun x => (x < 256 ^ N.of_nat (k * w))%N) (map (join w) gs).
Proof.
  induction gs as [|g gs IH]; intros Hk Hl; [split; [reflexivity | constructor]|]. inversion Hk; subst. cbn in Hl.
  apply Forall_app in Hl. destruct Hl as [Hg Hr]. destruct (IH H2 Hr) as [E F]. cbn. rewrite flat_map_app, E, join_le by assumption.
  split; [reflexivity|]. constructor; [apply join_lt; assumption | exact F].
Qed.
Local Lemma splits_le : forall w k l, flat_map (le w) (flat_map (split w k) l) = flat_map (le (k * w)) l.
Proof. induction l as [|x l IH]; [reflexivity|]. cbn. rewrite flat_map_app, split_le, IH. reflexivity. Qed.
Local Lemma splits_lt : forall w k l, Forall (fun y => (y < 256 ^ N.of_nat w)%N) (flat_map (split w k) l).
Proof. induction l as [|x l IH]; cbn; [constructor|]. apply Forall_app. split; [apply split_lt | exact IH]. Qed.
Local Lemma splits_len : forall w k l, length (flat_map (split w k) l) = length l * k.
Proof. induction l as [|x l IH]; [reflexivity|]. cbn. rewrite app_length, split_len, IH. reflexivity. Qed.
Local Lemma size_app : forall a b, size (a ++ b) = size a * size b.
Proof. induction a as [|x a IH]; intros b; cbn; [unfold size; lia|]. fold (size (a ++ b)). fold (size a). rewrite IH. lia. Qed.
Local Lemma widths : forall t u, (exists k, width u = S k * width t) \/ (exists k, width t = S (S k) * width u).
Proof.
  intros t u; destruct t, u; cbn;
    first [left; exists 0; reflexivity | left; exists 1; reflexivity | left; exists 3; reflexivity | left; exists 7; reflexivity
          | right; exists 0; reflexivity | right; exists 2; reflexivity | right; exists 6; reflexivity].
Qed.
Local Lemma width_pos : forall t, 0 < width t. Proof. destruct t; cbn; lia. Qed.
Local Lemma le_inj : forall w x y, (x < 256 ^ N.of_nat w)%N -> (y < 256 ^ N.of_nat w)%N -> le w x = le w y -> x = y.
Proof.
  induction w as [|w IH]; intros x y Hx Hy E; [change (256 ^ N.of_nat 0)%N with 1%N in *; lia|].
  rewrite pow_S in *. cbn in E. injection E as E1 E2.
  apply IH in E2; [| apply N.div_lt_upper_bound; [discriminate | lia] | apply N.div_lt_upper_bound; [discriminate | lia]].
  rewrite (N.div_mod x 256), (N.div_mod y 256) by discriminate. rewrite E1, E2. reflexivity.
Qed.
Local Lemma le_len : forall w x, length (le w x) = w. Proof. induction w as [|w IH]; intros x; cbn; auto. Qed.
Local Lemma app_split {A} (a b c d : list A) : length a = length c -> a ++ b = c ++ d -> a = c /\ b = d.
Proof. revert c. induction a as [|x a IH]; intros [|y c] L E; try discriminate; [auto|]. cbn in *. injection E as -> E. destruct (IH c) as [-> ->]; auto. Qed.
Local Lemma mem_inj : forall w l m, 0 < w -> Forall (fun x => (x < 256 ^ N.of_nat w)%N) l -> Forall (fun x => (x < 256 ^ N.of_nat w)%N) m ->
  flat_map (le w) l = flat_map (le w) m -> l = m.
Proof.
  intros w l. induction l as [|x l IH]; intros [|y m] Hw Hl Hm E; [reflexivity | | |].
  - apply (f_equal (@length N)) in E. cbn in E. rewrite app_length, le_len in E. lia.
  - apply (f_equal (@length N)) in E. cbn in E. rewrite app_length, le_len in E. lia.
  - cbn in E. inversion Hl; inversion Hm; subst. apply app_split in E; [|rewrite !le_len; reflexivity]. destruct E as [E1 E2].
    apply le_inj in E1; try assumption. subst. f_equal. apply IH; assumption.
Qed.
Local Lemma accepted : forall x64 a t, (bitcast x64 a t <> None) <->
  (shape a = [] /\ width (dt a) = width (canonical x64 t)) \/
  (exists lead n, shape a = lead ++ [n] /\ Nat.divide (width (canonical x64 t)) (n * width (dt a))).
Proof.
  intros x64 a t. unfold bitcast. pose proof (width_pos (canonical x64 t)). destruct (shape a) as [|d s] eqn:S0.
  - destruct (Nat.eqb_spec (width (dt a)) (width (canonical x64 t))).
    + split; [auto | discriminate].
    + split; [congruence|]. intros [[_ ?] | (lead & n1 & E & _)]; [contradiction|]. destruct lead; discriminate.
  - assert (P : d :: s <> []) by discriminate.
    destruct (Nat.eqb_spec ((last (d :: s) 0 * width (dt a)) mod width (canonical x64 t)) 0) as [M | M]; cbn [negb].
    + split; [|discriminate]. intros _. right. exists (removelast (d :: s)), (last (d :: s) 0). split; [apply app_removelast_last, P|].
      apply Nat.mod_divide; [lia | exact M].
    + split; [congruence|]. intros [[? _] | (lead & n1 & E & D)]; [discriminate|]. exfalso. apply M.
      rewrite E, last_last. apply Nat.mod_divide; [lia | exact D].
Qed.
Local Lemma cast_ok : forall x64 a t b, wf a -> bitcast x64 a t = Some b ->
  wf b /\ dt b = canonical x64 t /\ memory b = memory a /\ length (shape b) = length (shape a) /\
  removelast (shape b) = removelast (shape a) /\ last (shape b) 0 * width (dt b) = last (shape a) 0 * width (dt a).
Proof.
  intros x64 [di sh el] t b [Hn Hr] H. unfold bitcast in H. cbn [shape dt elems] in *. set (u := canonical x64 t) in *.
  destruct sh as [|d s].
  - destruct (Nat.eqb_spec (width di) (width u)) as [W | W]; [|discriminate]. injection H as <-. unfold wf, memory. cbn. rewrite <- W. auto 8.
  - assert (P : d :: s <> []) by discriminate. pose proof (app_removelast_last 0 P) as Sh.
    set (sh := d :: s) in *. set (n := last sh 0) in *. set (lead := removelast sh) in *. clearbody sh n lead. subst sh.
    destruct (Nat.eqb_spec ((n * width di) mod width u) 0) as [M | M]; [|discriminate]. cbn [negb] in H. injection H as <-.
    pose proof (width_pos di). pose proof (width_pos u).
    apply Nat.mod_divide in M; [|lia]. destruct M as [q Hq]. rewrite Hq, Nat.div_mul by lia.
    rewrite size_app in Hn. unfold wf, memory. cbn [shape dt elems]. rewrite size_app, !removelast_last, !last_last, !app_length. cbn [size fold_right] in *.
    destruct (widths di u) as [[k W] | [k W]].
    + assert (K : width u / width di = S k) by (rewrite W; apply Nat.div_mul; lia).
      assert (n = q * S k) as -> by nia.
      assert (L : length el = size lead * q * S k) by lia.
      destruct (Nat.ltb_spec (width di) (width u)).
      * rewrite K, L, Nat.div_mul by discriminate. rewrite Nat.mul_assoc in L || idtac.
        destruct (groups_ok (size lead * q) (S k) el L) as (A & B & C).
        destruct (joins_le (width di) (S k) _ B) as [D E]; [rewrite A; exact Hr|]. rewrite A in D. rewrite W.
        repeat split; try assumption; try lia. rewrite map_length. lia.
      * assert (k = 0) as -> by nia. assert (W' : width u = width di) by lia. rewrite W', Nat.div_same by lia.
        assert (W1 : forall l, Forall (fun x => (x < 256 ^ N.of_nat (width di))%N) l -> flat_map (split (width di) 1) l = l).
        { induction l as [|x l IH]; intros F; [reflexivity|]. inversion F; subst. change (flat_map (split (width di) 1) (x :: l)) with ((x mod 256 ^ N.of_nat (width di))%N :: flat_map (split (width di) 1) l). rewrite IH, N.mod_small by assumption. reflexivity. }
        rewrite W1 by exact Hr. repeat split; try assumption; lia.
    + assert (G : width u <= width di) by nia. apply Nat.ltb_ge in G. rewrite G. rewrite W, Nat.div_mul by lia.
      rewrite splits_len, splits_le. repeat split; try apply splits_lt; try reflexivity; nia.
Qed.
Local Lemma kept_canonical : forall x64 t, kept x64 t -> canonical x64 t = t.
Proof. intros x64 t [-> | W]; [reflexivity|]. destruct x64; [reflexivity|]. destruct t; cbn in *; try reflexivity; lia. Qed.

(** ** The theorems *)

(** The result has the type asked for, the same bytes in memory and the same leading axes; only the last
    axis changes, so that the number of bytes in a row stays. *)
Theorem C219_bytes : forall (x64 : bool) (a b : arr) (t : ety), kept x64 t -> wf a -> bitcast x64 a t = Some b ->
  wf b /\ dt b = t /\ memory b = memory a /\ length (shape b) = length (shape a) /\
  removelast (shape b) = removelast (shape a) /\ last (shape b) 0 * width (dt b) = last (shape a) 0 * width (dt a).
Proof. intros x64 a b t K Ha H. rewrite <- (kept_canonical x64 t K) at 1. apply cast_ok; assumption. Qed.
Print Assumptions C219_bytes.

(** It raises exactly when the bytes of a row do not divide into the elements asked for
    (for a scalar: when the widths differ). *)
Theorem C219_accepts : forall (x64 : bool) (a : arr) (t : ety), kept x64 t ->
  ((exists b, bitcast x64 a t = Some b) <->
   (shape a = [] /\ width (dt a) = width t) \/
   (exists lead n, shape a = lead ++ [n] /\ Nat.divide (width t) (n * width (dt a)))).
Proof.
  intros x64 a t K. pose proof (accepted x64 a t) as A. rewrite (kept_canonical x64 t K) in A. rewrite <- A.
  destruct (bitcast x64 a t); split; [discriminate | eauto | intros [b E]; discriminate E | congruence].
Qed.
Print Assumptions C219_accepts.

(** Casting back gives the tensor one started from. *)
Theorem C219_round_trip : forall (x64 : bool) (a b : arr) (t : ety), kept x64 t -> kept x64 (dt a) -> wf a ->
  bitcast x64 a t = Some b -> bitcast x64 b (dt a) = Some a.
Proof.
  intros x64 a b t K K' Ha H. destruct (cast_ok x64 a t b Ha H) as (Hb & D & Mem & Len & Lead & Last).
  rewrite (kept_canonical x64 t K) in D.
  assert (Ex : exists c, bitcast x64 b (dt a) = Some c).
  { apply C219_accepts; [exact K'|]. destruct (shape a) as [|d s] eqn:S0.
    - left. destruct (shape b); [|discriminate]. split; [reflexivity|]. rewrite D. symmetry.
      assert (Ex : exists b', bitcast x64 a t = Some b') by (exists b; exact H). apply C219_accepts in Ex; [|exact K].
      destruct Ex as [[_ W] | (lead & n & E & _)]; [exact W|]. rewrite S0 in E. destruct lead; discriminate.
    - right. destruct (shape b) as [|d' s'] eqn:S1; [discriminate|].
      exists (removelast (d' :: s')), (last (d' :: s') 0). split; [apply app_removelast_last; discriminate|].
      exists (last (d :: s) 0). exact Last. }
  destruct Ex as [c Hc]. rewrite Hc. destruct (cast_ok x64 b (dt a) c Hb Hc) as (Hc' & D' & Mem' & Len' & Lead' & Last').
  rewrite (kept_canonical x64 _ K') in D'. f_equal.
  assert (Sh : shape c = shape a).
  { destruct (shape a) as [|d s] eqn:S0; [destruct (shape c); [reflexivity | cbn in *; lia]|].
    destruct (shape c) as [|d' s'] eqn:S1; [cbn in *; lia|].
    rewrite (app_removelast_last 0 (l := d :: s)), (app_removelast_last 0 (l := d' :: s')) by discriminate.
    rewrite Lead', Lead. f_equal. f_equal. rewrite D' in Last'. pose proof (width_pos (dt a)). nia. }
  assert (El : elems c = elems a).
  { apply (mem_inj (width (dt a))); [apply width_pos | rewrite <- D'; apply Hc' | apply Ha |].
    unfold memory in Mem, Mem'. rewrite D' in Mem'. congruence. }
  destruct c, a; cbn in *. congruence.
Qed.
Print Assumptions C219_round_trip.

(** Without the 64-bit mode of JAX, which mplang leaves off, a 64-bit type that was asked for is not the
    type of the result: eight bytes cast to u64 give two u32s. *)
Theorem C219_type_refuted : exists (a b : arr) (t : ety), wf a /\ bitcast false a t = Some b /\ dt b <> t.
Proof.
  exists (Arr U8 [8] [1; 2; 3; 4; 5; 6; 7; 8]%N). eexists. exists U64. split; [|split; [vm_compute; reflexivity | discriminate]].
  split; [reflexivity|]. repeat constructor.
Qed.
Print Assumptions C219_type_refuted.

(** The docstring asks only that the total byte count stay the same, but a tensor whose bytes make up whole
    elements can still be rejected: its rows may not. *)
Theorem C219_total_refuted : exists (a : arr) (t : ety), wf a /\ Nat.divide (width t) (length (memory a)) /\ bitcast true a t = None.
Proof.
  exists (Arr U8 [4; 2] [1; 2; 3; 4; 5; 6; 7; 8]%N), U64. split; [|split; [exists 1; reflexivity | reflexivity]].
  split; [reflexivity|]. repeat constructor.
Qed.
Print Assumptions C219_total_refuted.

(** Two rows of two u16s become two rows of one u32 and back. *)
Example C219_ex : bitcast false (Arr U16 [2; 2] [1; 2; 3; 0xFFFF]%N) U32 = Some (Arr U32 [2; 1] [0x20001; 0xFFFF0003]%N) /\
  bitcast false (Arr U32 [2; 1] [0x20001; 0xFFFF0003]%N) U16 = Some (Arr U16 [2; 2] [1; 2; 3; 0xFFFF]%N) /\
  bitcast true (Arr U64 [1; 2] [0x0807060504030201; 9]%N) U8 = Some (Arr U8 [1; 16] [1; 2; 3; 4; 5; 6; 7; 8; 9; 0; 0; 0; 0; 0; 0; 0]%N) /\
  kept false U32 /\ wf (Arr U16 [2; 2] [1; 2; 3; 0xFFFF]%N).
Proof. split; [|split; [|split; [|split; [right; cbn; lia | split; [reflexivity | repeat constructor]]]]]; vm_compute; reflexivity. Qed.
