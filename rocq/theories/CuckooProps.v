(** C13 and C18: the batch hash table of libs/mpc/psi/cuckoo.py and the bit helpers of
    libs/mpc/_utils.py, stated about the returned arrays only. *)
From Coq Require Import List NArith Bool Arith Lia.
From Verif Require Import MPCBase OTModel CuckooModel CuckooProofs.
Import ListNotations.
Local Open Scope nat_scope.

(** ** C13.  The table returned by cuckoo_insert_batch is sound, whatever writer wins a
    slot (XLA does not say which of several scatter writers wins). *)
Record cuckoo_sound (items : list (list N)) (T : nat) (seed : N * N)
    (table : list (list N)) (where_ : list (option nat)) (placed : list bool) : Prop := {
  (* shapes *)
  cs_table : length table = T;
  cs_where : length where_ = length items;
  cs_placed : length placed = length items;
  (* an item is reported as placed exactly when it has a position *)
  cs_report : forall i, i < length items -> nth i placed false = true <-> nth i where_ None <> None;
  (* a placed item is found at one of the positions lookup returns for it *)
  cs_found : forall i p, nth i where_ None = Some p ->
    p < T /\ In p (nth i (cuckoo_lookup_positions items T seed) []) /\ nth p table [] = nth i items [];
  (* no slot holds two items and no item is at two slots *)
  cs_inj : forall i j p, nth i where_ None = Some p -> nth j where_ None = Some p -> i = j;
  (* a slot that belongs to no placed item is the zero row *)
  cs_free : forall p, p < T -> (forall i, nth i where_ None <> Some p) -> nth p table [] = repeat 0%N 16;
  (* an item is dropped only if all of its candidate slots belong to other items *)
  cs_dropped : forall i p, i < length items -> nth i where_ None = None ->
    In p (nth i (cuckoo_lookup_positions items T seed) []) ->
    exists j, j <> i /\ nth j where_ None = Some p
}.

Theorem C13_cuckoo_table_sound : forall items T seed win, 0 < T ->
  let '(table, where_, placed) := cuckoo_insert_batch items T seed win in
  cuckoo_sound items T seed table where_ placed.
Proof.
  intros items T seed win HT. unfold cuckoo_insert_batch. cbv zeta.
  set (pos := fun i k => position seed T (nth i items []) k).
  destruct (insert_inv (length items) pos win) as (I1 & I2 & I3 & I4 & I5).
  set (st := insert (length items) pos win) in *.
  assert (forall i, i < length items -> nth i (tab (length items) (item_to_pos st)) None = item_to_pos st i) as E
    by (intros; apply tab_nth; assumption).
  assert (forall i, ~ i < length items -> nth i (tab (length items) (item_to_pos st)) None = None) as E'
    by (intros i H; apply nth_overflow; rewrite tab_length; lia).
  assert (forall i p, nth i (tab (length items) (item_to_pos st)) None = Some p -> i < length items /\ item_to_pos st i = Some p) as F.
  { intros i p H. destruct (lt_dec i (length items)) as [L|L]; [rewrite E in H by exact L; auto|rewrite E' in H by exact L; discriminate H]. }
  assert (forall i, i < length items -> nth i (cuckoo_lookup_positions items T seed) [] = [pos i 0; pos i 1; pos i 2]) as L.
  { intros i Hi. unfold cuckoo_lookup_positions.
    rewrite (nth_indep _ _ (map (position seed T []) (seq 0 3))) by (rewrite map_length; exact Hi).
    exact (map_nth (fun x => map (position seed T x) (seq 0 3)) items [] i). }
  split.
  - apply tab_length.
  - apply tab_length.
  - apply tab_length.
  - intros i Hi. rewrite E, tab_nth by exact Hi. destruct (item_to_pos st i); split; congruence.
  - intros i p H. destruct (F i p H) as [Hi Hp]. pose proof (I2 i p Hp) as Hs.
    destruct (I1 p i Hs) as (_ & _ & _ & c & Hc & ->).
    assert (pos i c < T) as Hlt by (apply position_lt, HT).
    split; [exact Hlt|]. split.
    + rewrite L by exact Hi. destruct c as [|[|[|c]]]; cbn; auto. lia.
    + rewrite tab_nth by exact Hlt. rewrite Hs. reflexivity.
  - intros i j p Hi Hj. apply F in Hi. apply F in Hj. destruct Hi as [_ Hi]. destruct Hj as [_ Hj].
    apply I2 in Hi. apply I2 in Hj. congruence.
  - intros p Hp H. rewrite tab_nth by exact Hp. destruct (slots st p) as [i|] eqn:Hs; [|reflexivity].
    destruct (I1 p i Hs) as (Hi & Hw & _). exfalso. apply (H i). rewrite E by exact Hi. exact Hw.
  - intros i p Hi H Hin. rewrite E in H by exact Hi. rewrite L in Hin by exact Hi.
    assert (active st i = true) as Ha.
    { destruct (active st i) eqn:Ha; [reflexivity|]. exfalso. exact (I4 i Hi Ha H). }
    assert (exists c, c < 3 /\ p = pos i c) as (c & Hc & ->).
    { destruct Hin as [<-|[<-|[<-|[]]]]; [exists 0|exists 1|exists 2]; split; auto. }
    pose proof (I5 i c Ha Hc) as Hs. destruct (slots st (pos i c)) as [j|] eqn:Ej; [|congruence].
    destruct (I1 _ _ Ej) as (Hj & Hw & _). exists j. split; [intros ->; congruence|]. rewrite E by exact Hj. exact Hw.
Qed.
Print Assumptions C13_cuckoo_table_sound.

(** Concrete run: four items in five slots, three placed in the first round or later, one dropped
    or moved, under "first writer wins" and under "last writer wins". *)
Definition ex_items : list (list N) :=
  [[1;2;3;4;5;6;7;8;0;0;0;0;0;0;0;0]; [9;2;3;4;5;6;7;8;0;0;0;0;0;0;0;0];
   [77;2;3;4;5;6;7;8;0;0;0;0;0;0;0;0]; [200;2;3;4;5;6;7;1;0;0;0;0;0;0;0;0]]%N.
Example C13_run_first : snd (fst (cuckoo_insert_batch ex_items 5 (12345, 678)%N (fun _ _ => 0)))
  <> snd (fst (cuckoo_insert_batch ex_items 5 (12345, 678)%N (fun _ _ => 3))).
Proof. vm_compute. discriminate. Qed.
Example C13_run_drops : exists T seed, nth 0 (snd (cuckoo_insert_batch ex_items T seed (fun _ _ => 0))) false = true /\
  In false (snd (cuckoo_insert_batch ex_items T seed (fun _ _ => 0))).
Proof. exists 3, (12345, 678)%N. split; vm_compute; tauto. Qed.

(** ** C18.  The full claim is bits_to_bytes (bytes_to_bits x) = x for every byte array.
    It is false: the two helpers use opposite bit orders, so the composition reverses the
    bits of every byte. *)
Definition bits_inverse : Prop :=
  forall data, Forall (fun w => w < 256)%N data -> bits_to_bytes (bytes_to_bits data) = data.

Theorem C18_bits_inverse_refuted : ~ bits_inverse.
Proof.
  intros H. assert (Forall (fun w => w < 256)%N [1%N]) as F by (constructor; [reflexivity|constructor]).
  specialize (H [1%N] F). vm_compute in H. discriminate H.
Qed.
Print Assumptions C18_bits_inverse_refuted.

(** What the composition does instead, for every byte array: byte j of the result holds bit
    7-b of byte j of the input at bit b. *)
Theorem C18_bits_reverse_partial : forall data, Forall (fun w => w < 256)%N data ->
  length (bytes_to_bits data) = 8 * length data /\
  (forall j b, j < length data -> b < 8 -> nth (8 * j + b) (bytes_to_bits data) 0%N
      = if N.testbit (nth j data 0%N) (N.of_nat b) then 1%N else 0%N) /\
  length (bits_to_bytes (bytes_to_bits data)) = length data /\
  (forall j b, j < length data -> b < 8 ->
     N.testbit (nth j (bits_to_bytes (bytes_to_bits data)) 0%N) (N.of_nat b) = N.testbit (nth j data 0%N) (N.of_nat (7 - b))).
Proof.
  intros data H. split; [|split; [|split]].
  - unfold bytes_to_bits. clear H. induction data as [|a l IH]; [reflexivity|].
    cbn [flat_map length]. rewrite app_length, IH, unpack1_length. lia.
  - induction data as [|a l IH]; intros j b Hj Hb; [cbn in Hj; lia|].
    inversion H as [|? ? Ha Hl]; subst. unfold bytes_to_bits. cbn [flat_map].
    destruct j as [|j].
    + rewrite app_nth1 by (rewrite unpack1_length; lia). cbn [nth]. rewrite Nat.mul_0_r, Nat.add_0_l.
      apply N.eqb_eq. apply (byte_cases (fun w => N.eqb (nth b (rev (unpackbits [w])) 0%N) (if N.testbit w (N.of_nat b) then 1%N else 0%N))); [|exact Ha].
      do 8 (destruct b as [|b]; [vm_compute; reflexivity|]). lia.
    + rewrite app_nth2 by (rewrite unpack1_length; lia). rewrite unpack1_length. cbn [nth length] in *.
      replace (8 * S j + b - 8) with (8 * j + b) by lia. apply (IH Hl); lia.
  - rewrite round_trip by exact H. apply map_length.
  - intros j b Hj Hb. rewrite round_trip by exact H.
    rewrite (nth_indep _ 0%N (rev8 0%N)) by (rewrite map_length; exact Hj). rewrite map_nth.
    assert (nth j data 0%N < 256)%N as Hw by (apply (proj1 (Forall_forall _ _) H), nth_In, Hj).
    apply eqb_prop.
    apply (byte_cases (fun w => eqb (N.testbit (rev8 w) (N.of_nat b)) (N.testbit w (N.of_nat (7 - b))))); [|exact Hw].
    do 8 (destruct b as [|b]; [vm_compute; reflexivity|]). lia.
Qed.
Print Assumptions C18_bits_reverse_partial.
Example C18_run : bits_to_bytes (bytes_to_bits [1; 24; 200]%N) = [128; 24; 19]%N.
Proof. vm_compute. reflexivity. Qed.
