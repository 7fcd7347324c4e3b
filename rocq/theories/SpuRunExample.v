(** An SPU library meeting the promises of SpuRunSpec: additive shares tagged with the local
    rank they were made for; the joint execution checks the tags. *)
From Coq Require Import Bool Arith ZArith String List Lia Sorted.
From Verif Require Import SimpModel SimpProofs2 DeviceModel DeviceSpec SpuRunModel SpuRunSpec SpuRunProofs.
Import ListNotations.
Local Open Scope nat_scope.

Definition XV : Type := (Z + nat * Z)%type.      (* a plain value, or a share with its rank *)
Definition toZ (v : XV) : Z := match v with inl z => z | inr (_, z) => z end.
Fixpoint ones (i k : nat) : list XV := match k with 0 => [] | S k => inr (i, 1%Z) :: ones (S i) k end.
Definition x_make (v : XV) (k : nat) : list XV := match k with 0 => [] | S k => inr (0, (toZ v - Z.of_nat k)%Z) :: ones 1 k end.
Definition x_sum (col : list XV) : Z := fold_right (fun s a => (toZ s + a)%Z) 0%Z col.
Definition x_rec (col : list XV) : XV := inl (x_sum col).
Fixpoint tags (i : nat) (col : list XV) : bool :=
  match col with [] => true | inr (j, _) :: r => (i =? j) && tags (S i) r | inl _ :: _ => false end.
Definition x_is (v : XV) : bool := match v with inr _ => true | inl _ => false end.
Definition x_code : Type := (nat * (list XV -> list XV))%type.
Definition x_compile (m : nat) (g : list XV -> list XV) : option (x_code * nat) := Some ((m, g), 1).
Definition x_sec (g : list XV -> list XV) (vs : list XV) : list XV := [inl (toZ (hd (inl 0%Z) (g vs)))].
Definition x_joint (c : x_code) (rows : list (list XV)) : option (list (list XV)) :=
  match mapO (fun i => mapO (fun row => nth_error row i) rows) (seq 0 (fst c)) with
  | Some cols => if forallb (tags 0) cols then Some (map (fun s => [s]) (x_make (hd (inl 0%Z) (x_sec (snd c) (map x_rec cols))) (length rows))) else None
  | None => None
  end.
Definition x_shared (v : XV) (col : list XV) : Prop := v = inl (x_sum col) /\ tags 0 col = true.

Lemma ones_ok k : forall i, length (ones i k) = k /\ tags i (ones i k) = true /\ x_sum (ones i k) = Z.of_nat k.
Proof.
  induction k as [|k IH]; intros i; [auto|]. destruct (IH (S i)) as (A & B & C). cbn [ones length tags]. rewrite Nat.eqb_refl. split; [lia|]. split; [exact B|].
  change (x_sum (inr (i, 1%Z) :: ones (S i) k)) with (1 + x_sum (ones (S i) k))%Z. rewrite C. lia.
Qed.
Lemma x_make_ok v k : 0 < k -> length (x_make v k) = k /\ x_shared (inl (toZ v)) (x_make v k).
Proof.
  destruct k as [|k]; [lia|]. intros _. destruct (ones_ok k 1) as (A & B & C). cbn [x_make length]. split; [lia|]. split; [|exact B]. f_equal.
  change (x_sum (inr (0, (toZ v - Z.of_nat k)%Z) :: ones 1 k)) with (toZ v - Z.of_nat k + x_sum (ones 1 k))%Z. rewrite C. lia.
Qed.
Lemma tags_is col : forall i s, tags i col = true -> In s col -> x_is s = true.
Proof. induction col as [|[z|[j z]] r IH]; intros i s H Hs; [destruct Hs|discriminate H|]. cbn in H. apply andb_prop in H. destruct Hs as [<-|Hs]; [reflexivity|]. exact (IH _ _ (proj2 H) Hs). Qed.

Lemma x_laws : spu_laws x_make x_rec x_compile x_joint x_is (fun v => inl (toZ v)) x_sec x_shared.
Proof.
  constructor.
  - intros v k Hk. apply x_make_ok, Hk.
  - intros v col [-> _]. reflexivity.
  - intros v col s [_ Ht] Hs. exact (tags_is col 0 s Ht Hs).
  - intros m g c nout E rows vs Hr Lv Fr H. injection E as <- <-.
    assert (HC : exists cols, mapO (fun i => mapO (fun row => nth_error row i) rows) (seq 0 m) = Some cols /\ forallb (tags 0) cols = true /\ map x_rec cols = vs).
    { assert (HH : forall i v, nth_error vs i = Some v -> exists col, mapO (fun row => nth_error row i) rows = Some col /\ x_shared v col).
      { intros i v Hv. destruct (H i v Hv) as (col & [Cl Cn] & Sh). exists col. split; [|exact Sh]. apply mapO_by_nth; [exact Cl|]. intros k row Hk. exact (proj1 (Cn k row Hk)). }
      clear -HH Lv. subst m. 
      assert (G : forall vs s, (forall i v, nth_error vs i = Some v -> exists col, mapO (fun row => nth_error row (s + i)) rows = Some col /\ x_shared v col) ->
         exists cols, mapO (fun i => mapO (fun row => nth_error row i) rows) (seq s (length vs)) = Some cols /\ forallb (tags 0) cols = true /\ map x_rec cols = vs).
      { clear. induction vs as [|v vs IH]; intros s HH; [exists []; auto|]. destruct (HH 0 v eq_refl) as (col & E & [Ev Et]). rewrite Nat.add_0_r in E.
        destruct (IH (S s)) as (cols & A & B & C). { intros i w Hw. destruct (HH (S i) w Hw) as (c & Hc). exists c. replace (S s + i) with (s + S i) by lia. exact Hc. }
        exists (col :: cols). cbn [length seq mapO]. rewrite E, A. cbn. rewrite Et, B, C. unfold x_rec. rewrite <- Ev. auto. }
      exact (G vs 0 HH). }
    destruct HC as (cols & E1 & E2 & E3).
    destruct (x_make_ok (hd (inl 0%Z) (x_sec g vs)) (length rows) Hr) as [L1 S1].
    exists (map (fun s => [s]) (x_make (hd (inl 0%Z) (x_sec g vs)) (length rows))).
    unfold x_joint. cbn [fst snd]. rewrite E1, E2, E3. split; [reflexivity|]. split; [now rewrite map_length|]. split; [|split; [reflexivity|]].
    + apply Forall_forall. intros rw Hrw. apply in_map_iff in Hrw. destruct Hrw as (s & <- & _). reflexivity.
    + intros [|j] v Hv; [|destruct j; discriminate Hv]. cbn in Hv. injection Hv as <-. exists (x_make (hd (inl 0%Z) (x_sec g vs)) (length rows)). split; [|exact S1].
      split; [now rewrite map_length|]. intros k row Hk. rewrite nth_error_map in Hk. destruct (nth_error (x_make _ (length rows)) k) eqn:Ek; [|discriminate Hk].
      cbn in Hk. injection Hk as <-. cbn. auto.
Qed.
