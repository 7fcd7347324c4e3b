(** Array helpers shared by the MPC protocol models: arrays are lists, loops
    [for i in range(n)] are [tab]/[tabM]; indexing is [nth]. *)
From Coq Require Import List NArith ZArith Lia Bool.
Import ListNotations.

(** [f(0), ..., f(n-1)] *)
Definition tab {A : Type} (n : nat) (f : nat -> A) : list A := map f (seq 0 n).

(** A loop whose body can raise: the first error aborts the loop. *)
Fixpoint mapM {A B : Type} (f : A -> option B) (l : list A) : option (list B) :=
  match l with
  | [] => Some []
  | a :: l' =>
      match f a with
      | None => None
      | Some b => match mapM f l' with None => None | Some bs => Some (b :: bs) end
      end
  end.
Definition tabM {A : Type} (n : nat) (f : nat -> option A) : option (list A) := mapM f (seq 0 n).

Definition bind {A B : Type} (o : option A) (f : A -> option B) : option B :=
  match o with Some a => f a | None => None end.
Notation "'do' x <- e ; f" := (bind e (fun x => f)) (at level 200, x name, e at level 100, f at level 200).
Notation "'do' ' p <- e ; f" := (bind e (fun p => f)) (at level 200, p strict pattern, e at level 100, f at level 200).

(** Reading arrays: entry of a vector, of a matrix. *)
Definition at1 (v : list N) (i : nat) : N := nth i v 0%N.
Definition row (m : list (list N)) (i : nat) : list N := nth i m [].
Definition at2 (m : list (list N)) (i j : nat) : N := at1 (row m i) j.

(** Bytewise xor of two equal-length rows. *)
Definition xor_bytes (a b : list N) : list N := map (fun p => N.lxor (fst p) (snd p)) (combine a b).

Lemma tab_length {A} n (f : nat -> A) : length (tab n f) = n.
Proof. unfold tab. rewrite map_length, seq_length. reflexivity. Qed.

Lemma tab_nth {A} n (f : nat -> A) i d : i < n -> nth i (tab n f) d = f i.
Proof.
  intros H. unfold tab. rewrite nth_indep with (d' := f 0) by (rewrite map_length, seq_length; exact H).
  rewrite map_nth. rewrite seq_nth by exact H. reflexivity.
Qed.

Lemma tab_ext {A} n (f g : nat -> A) : (forall i, i < n -> f i = g i) -> tab n f = tab n g.
Proof.
  intros H. unfold tab. apply map_ext_in. intros i Hi. apply in_seq in Hi. apply H. lia.
Qed.

Lemma list_as_tab {A} (l : list A) (d : A) : l = tab (length l) (fun i => nth i l d).
Proof.
  apply nth_ext with (d := d) (d' := d); [rewrite tab_length; reflexivity|].
  intros i Hi. rewrite tab_nth by exact Hi. reflexivity.
Qed.

Lemma mapM_Some {A B} (f : A -> option B) l : forall r, mapM f l = Some r ->
  length r = length l /\ forall i da db, i < length l -> f (nth i l da) = Some (nth i r db).
Proof.
  induction l as [|a l IH]; intros r H; cbn [mapM] in H.
  - injection H as <-. split; [reflexivity|]. intros i da db Hi. cbn in Hi. lia.
  - destruct (f a) as [b|] eqn:Fa; [|discriminate]. destruct (mapM f l) as [bs|] eqn:Fl; [|discriminate].
    injection H as <-. destruct (IH _ eq_refl) as [L E]. split; [cbn; congruence|].
    intros [|i] da db Hi; cbn [nth]; [exact Fa|]. apply E. cbn in Hi. lia.
Qed.

Lemma mapM_total {A B} (f : A -> option B) l :
  (forall a, In a l -> exists b, f a = Some b) -> exists r, mapM f l = Some r.
Proof.
  induction l as [|a l IH]; intros H; cbn [mapM]; [eauto|].
  destruct (H a (or_introl eq_refl)) as [b ->].
  destruct IH as [r ->]; [intros x Hx; apply H; right; exact Hx|]. eauto.
Qed.

Lemma tabM_Some {A} n (f : nat -> option A) r : tabM n f = Some r ->
  length r = n /\ forall i d, i < n -> f i = Some (nth i r d).
Proof.
  intros H. apply mapM_Some in H. rewrite seq_length in H. destruct H as [L E].
  split; [exact L|]. intros i d Hi. specialize (E i 0 d Hi). rewrite seq_nth in E by exact Hi. exact E.
Qed.

Lemma tabM_total {A} n (f : nat -> option A) :
  (forall i, i < n -> exists b, f i = Some b) -> exists r, tabM n f = Some r.
Proof.
  intros H. apply mapM_total. intros i Hi. apply in_seq in Hi. apply H. lia.
Qed.

Lemma bind_Some {A B} (o : option A) (f : A -> option B) r :
  bind o f = Some r -> exists a, o = Some a /\ f a = Some r.
Proof. destruct o as [a|]; cbn; [eauto|discriminate]. Qed.

Lemma xor_bytes_length a b : length (xor_bytes a b) = Nat.min (length a) (length b).
Proof. unfold xor_bytes. rewrite map_length, combine_length. reflexivity. Qed.

Lemma xor_bytes_cancel a : forall b, length a = length b -> xor_bytes (xor_bytes a b) b = a.
Proof.
  induction a as [|x a IH]; intros [|y b] L; cbn in *; try reflexivity; try discriminate.
  injection L as L. unfold xor_bytes in *. cbn [combine map fst snd]. rewrite IH by exact L.
  rewrite N.lxor_assoc, N.lxor_nilpotent, N.lxor_0_r. reflexivity.
Qed.

Lemma xor_bytes_nth a b i : length a = length b ->
  at1 (xor_bytes a b) i = N.lxor (at1 a i) (at1 b i).
Proof.
  unfold at1, xor_bytes. revert b i. induction a as [|x a IH]; intros [|y b] i L; try discriminate.
  - cbn. destruct i; reflexivity.
  - injection L as L. destruct i; cbn [combine map nth fst snd]; [reflexivity|]. apply IH. exact L.
Qed.
