From Coq Require Import Arith NArith ZArith Ascii String List Bool Lia.
From Verif Require Import Base64Model ConstModel.
Import ListNotations.
Open Scope string_scope.

(** an array whose components fit its dtype and fill its shape *)
Definition wf_arr (a : nparr) : Prop :=
  exists w k, layout a.(adt).(dname) = Some (w, k) /\
    List.length a.(acomp) = k * asize a.(ashape) /\
    Forall (fun x => (x < 256 ^ N.of_nat w)%N) a.(acomp).

Lemma le_length : forall w x, List.length (le w x) = w.
Proof. induction w; simpl; auto. Qed.

Lemma of_le_le : forall w x, (x < 256 ^ N.of_nat w)%N -> of_le (le w x) = x.
Proof.
  induction w; intros x H.
  - simpl in *. destruct x; auto. lia.
  - replace (N.of_nat (S w)) with (N.succ (N.of_nat w)) in H by lia.
    rewrite N.pow_succ_r' in H. cbn [le of_le].
    rewrite IHw. 2:{ apply N.div_lt_upper_bound; lia. }
    rewrite N_ascii_embedding. 2:{ apply N.mod_lt; lia. }
    rewrite N.add_comm. symmetry. apply N.div_mod. lia.
Qed.

Lemma groups_flat : forall w l, (0 < w) -> Forall (fun g : list ascii => List.length g = w) l ->
  groups (List.length l) w (List.concat l) = Some l.
Proof.
  intros w l W F. induction F as [|g l E F IH]; simpl; auto.
  assert (A : firstn w (g ++ List.concat l) = g).
  { rewrite <- E. rewrite firstn_app, Nat.sub_diag, firstn_all. simpl. apply app_nil_r. }
  assert (B : skipn w (g ++ List.concat l) = List.concat l).
  { rewrite <- E. rewrite skipn_app, Nat.sub_diag, skipn_all. reflexivity. }
  rewrite A, B, E, Nat.eqb_refl, IH. reflexivity.
Qed.

Lemma comp_bytes_length : forall w s x, List.length (comp_bytes w s x) = w.
Proof. intros. unfold comp_bytes. destruct s; rewrite ?rev_length, le_length; auto. Qed.

Lemma layout_pos : forall n w k, layout n = Some (w, k) -> 0 < w.
Proof.
  intros n w k H. unfold layout in H.
  repeat match type of H with context [if ?c then _ else _] => destruct c end; inversion H; lia.
Qed.

(** reading back with component width [w] what was written with the same width *)
Lemma frombuffer_tobytes : forall (a : nparr) (d : dtype) w k b,
  layout a.(adt).(dname) = Some (w, k) -> layout d.(dname) = Some (w, k) ->
  List.length a.(acomp) = k * asize a.(ashape) ->
  tobytes a = Some b ->
  frombuffer d a.(ashape) b =
    Some {| adt := d; ashape := a.(ashape);
            acomp := map (fun x => of_le (let g := comp_bytes w a.(adt).(dswap) x in
                                          if d.(dswap) then rev g else g)) a.(acomp) |}.
Proof.
  intros a d w k b L1 L2 N T. unfold tobytes in T. rewrite L1 in T. inversion T; subst; clear T.
  unfold frombuffer. rewrite L2, list_ascii_of_string_of_list_ascii, <- N, flat_map_concat_map.
  rewrite <- (map_length (comp_bytes w a.(adt).(dswap)) a.(acomp)).
  rewrite groups_flat.
  - rewrite map_map. reflexivity.
  - eapply layout_pos; eauto.
  - apply Forall_forall. intros g Hg. apply in_map_iff in Hg. destruct Hg as (x & <- & _).
    apply comp_bytes_length.
Qed.

Lemma find_table : forall n s, lookup_name n = Some s -> lookup_sc s = Some n.
Proof.
  intros n s H. unfold lookup_name, scalar_table in H. cbn [find] in H. cbn [fst] in H.
  repeat (match type of H with context [String.eqb ?x n] =>
    destruct (String.eqb_spec x n) as [<-|_];
      [cbv in H; inversion H; reflexivity | ] end; cbv iota in H).
  discriminate.
Qed.

Lemma tobytes_inj : forall a b s, wf_arr a -> wf_arr b -> adt a = adt b -> ashape a = ashape b ->
  tobytes a = Some s -> tobytes b = Some s -> a = b.
Proof.
  intros a b s (w & k & L & N & F) (w' & k' & L' & N' & F') D S A B.
  rewrite <- D, L in L'. inversion L'; subst w' k'.
  pose proof (frombuffer_tobytes a (adt a) w k s L L N A) as E.
  pose proof (frombuffer_tobytes b (adt a) w k s) as E'. rewrite <- D, <- S in E'.
  rewrite <- S in N'. specialize (E' L L N' B). rewrite E in E'.
  inversion E' as [M].
  assert (I : forall c : nparr, adt c = adt a -> Forall (fun x => (x < 256 ^ N.of_nat w)%N) (acomp c) ->
    map (fun x => of_le (let g := comp_bytes w (dswap (adt c)) x in
       if dswap (adt a) then rev g else g)) (acomp c) = acomp c).
  { intros c Ec Fc. rewrite <- (map_id (acomp c)) at 2. apply map_ext_in. intros x Hx. cbv zeta.
    rewrite Ec. unfold comp_bytes. rewrite Forall_forall in Fc.
    destruct (dswap (adt a)); rewrite ?rev_involutive; apply of_le_le; auto. }
  pose proof (I a eq_refl F) as Ia. pose proof (I b (eq_sym D) F') as Ib. cbv zeta in Ia, Ib, M.
  rewrite <- D in Ib.
  rewrite Ia, Ib in M.
  destruct a as [da sa ca], b as [db sb cb]; simpl in *. subst. reflexivity.
Qed.

(** ** one constant *)
Definition known (n : string) : Prop := exists s, lookup_name n = Some s.

Lemma known_layout : forall n, known n -> exists w k, layout n = Some (w, k).
Proof.
  intros n (s & H). unfold lookup_name, scalar_table in H. cbn [find] in H. cbn [fst] in H.
  repeat (match type of H with context [String.eqb ?x n] =>
    destruct (String.eqb_spec x n) as [<-|_];
      [eexists; eexists; reflexivity | ] end; cbv iota in H).
  discriminate.
Qed.

Definition no_zero (s : list nat) : Prop := Forall (fun n => n <> 0) s.
Lemma no_zero_b : forall s, forallb (fun n => negb (Nat.eqb n 0)) s = true <-> no_zero s.
Proof.
  intros s. rewrite forallb_forall. unfold no_zero. rewrite Forall_forall.
  split; intros H x Hx; specialize (H x Hx).
  - intros ->. discriminate.
  - destruct x; auto.
Qed.

(** what is delivered, for any dtype name that maps to one with the same layout *)
Lemma delivered : forall a n s, wf_arr a -> from_dtype a.(adt) = Some s -> lookup_sc s = Some n ->
  layout n = layout a.(adt).(dname) -> no_zero a.(ashape) ->
  exists op w k, layout a.(adt).(dname) = Some (w, k) /\ constant_trace a = Some op /\
   constant_impl op = Some {| adt := {| dname := n; dswap := false |}; ashape := a.(ashape);
     acomp := map (fun x => of_le (comp_bytes w a.(adt).(dswap) x)) a.(acomp) |}.
Proof.
  intros a n s (w & k & L & N & F) Fd Ls Ln Z. unfold constant_trace. rewrite Fd.
  unfold tobytes at 1. rewrite L.
  rewrite (proj2 (no_zero_b _) Z). eexists; exists w, k. split; [auto|]. split; [reflexivity|].
  unfold constant_impl. cbn [c_elem c_b64 c_shape]. unfold to_jax. rewrite Ls. cbn [option_map].
  rewrite b64_roundtrip.
  assert (T : tobytes a = Some (string_of_list_ascii (flat_map (comp_bytes w (dswap (adt a))) (acomp a)))).
  { unfold tobytes. rewrite L. reflexivity. }
  rewrite (frombuffer_tobytes a {| dname := n; dswap := false |} w k _ L); auto.
  cbn [dname]. rewrite Ln, L. reflexivity.
Qed.

Lemma round_trip : forall a, wf_arr a -> known a.(adt).(dname) -> a.(adt).(dswap) = false ->
  no_zero a.(ashape) ->
  exists op, constant_trace a = Some op /\ constant_impl op = Some a.
Proof.
  intros a W K S Z. destruct K as (s & K).
  destruct (delivered a (dname (adt a)) s) as (op & w & k & L & T & I); auto.
  { unfold from_dtype. rewrite K. reflexivity. }
  { apply find_table; auto. }
  exists op. split; auto. rewrite I. f_equal.
  destruct W as (w' & k' & L' & N & F). rewrite L in L'. inversion L'; subst w' k'.
  destruct a as [[dn ds] sh co]; simpl in *. subst ds. f_equal.
  rewrite <- (map_id co) at 2. apply map_ext_in. intros x Hx. unfold comp_bytes.
  rewrite Forall_forall in F. apply of_le_le; auto.
Qed.

(** ** histories *)
Definition good (a : nparr) : Prop :=
  wf_arr a /\ known a.(adt).(dname) /\ a.(adt).(dswap) = false /\ no_zero a.(ashape).

Definition key_of (a : nparr) (b : string) : ckey := ((dname (adt a), dswap (adt a)), ashape a, b).

(** [h]: the arrays requested so far, with the objects returned *)
Definition inv (t : tracer) (h : list (nparr * nat)) : Prop :=
  (forall k o, cache_find k (cache t) = Some o -> exists a b, In (a, o) h /\ tobytes a = Some b /\ k = key_of a b) /\
  (forall a o, In (a, o) h -> good a /\ value_of t o = Some a /\
     exists b, tobytes a = Some b /\ cache_find (key_of a b) (cache t) = Some o).

Lemma key_of_inj : forall a a' b b', good a -> good a' -> tobytes a = Some b -> tobytes a' = Some b' ->
  key_of a b = key_of a' b' -> a = a'.
Proof.
  intros a a' b b' (W & _) (W' & _) T T' E. unfold key_of in E. inversion E; subst.
  apply (tobytes_inj a a' b'); auto. destruct (adt a), (adt a'); simpl in *; congruence.
Qed.

Lemma cache_find_cons : forall k k0 o c,
  cache_find k ((k0, o) :: c) = if ckey_eq_dec k0 k then Some o else cache_find k c.
Proof. intros. unfold cache_find. simpl. destruct (ckey_eq_dec k0 k); reflexivity. Qed.

Lemma value_of_app : forall t op o v c, value_of t o = Some v ->
  value_of {| ops := ops t ++ [op]; cache := c |} o = Some v.
Proof.
  intros t op o v c H. unfold value_of in *. simpl.
  destruct (nth_error (ops t) o) eqn:E; [|discriminate].
  rewrite nth_error_app1; [rewrite E; auto|]. apply nth_error_Some. congruence.
Qed.

Lemma constant_step : forall t h a, inv t h -> good a ->
  exists t' o, constant t a = Some (t', o) /\ inv t' ((a, o) :: h).
Proof.
  intros t h a (I1 & I2) G. pose proof G as (W & K & Sw & Z).
  destruct (round_trip a W K Sw Z) as (op & T & V).
  destruct (known_layout _ K) as (w & k & L).
  assert (B : exists b, tobytes a = Some b) by (unfold tobytes; rewrite L; eauto).
  destruct B as (b & B). unfold constant. rewrite B.
  change (dname (adt a), dswap (adt a), ashape a, b) with (key_of a b).
  destruct (cache_find (key_of a b) (cache t)) as [o|] eqn:C.
  - exists t, o. split; auto. destruct (I1 _ _ C) as (a' & b' & Hin & B' & E).
    assert (a = a').
    { destruct (I2 _ _ Hin) as (G' & _). eapply key_of_inj; eauto. } subst a'.
    split.
    + intros k0 o0 H0. destruct (I1 _ _ H0) as (x & y & ? & ? & ?). exists x, y. simpl; auto.
    + intros x o0 [H0|H0]; auto. inversion H0; subst. auto.
  - rewrite T. eexists; eexists. split; [reflexivity|].
    assert (New : value_of {| ops := ops t ++ [op]; cache := (key_of a b, length (ops t)) :: cache t |}
                    (length (ops t)) = Some a).
    { unfold value_of. simpl. rewrite nth_error_app2, Nat.sub_diag by lia. simpl. auto. }
    split.
    + cbn [cache]. intros k0 o0 H0. rewrite cache_find_cons in H0. destruct (ckey_eq_dec (key_of a b) k0).
      * inversion H0; subst. exists a, b. simpl; auto.
      * destruct (I1 _ _ H0) as (x & y & ? & ? & ?). exists x, y. simpl; auto.
    + intros x o0 [H0|H0].
      * inversion H0; subst x o0. split; [auto|]. split; [exact New|]. exists b. split; auto.
        cbn [cache]. rewrite cache_find_cons. destruct (ckey_eq_dec (key_of a b) (key_of a b)); congruence.
      * destruct (I2 _ _ H0) as (G' & V' & b' & B' & C'). split; [auto|].
        split; [apply value_of_app; auto|]. exists b'. split; auto. cbn [cache]. rewrite cache_find_cons.
        destruct (ckey_eq_dec (key_of a b) (key_of x b')); [|auto]. rewrite e in C. congruence.
Qed.

Lemma constants_inv : forall l t h, inv t h -> Forall good l ->
  exists t' os, constants t l = Some (t', os) /\ length os = length l /\
    exists h', inv t' h' /\ (forall a o, In (a, o) (combine l os) -> In (a, o) h') /\
      (forall p, In p h -> In p h').
Proof.
  induction l as [|a l IH]; intros t h I F; simpl.
  - exists t, []. split; auto. split; auto. exists h. simpl. tauto.
  - inversion F as [|? ? Ga Fl]; subst. destruct (constant_step t h a I Ga) as (t' & o & C & I').
    rewrite C. destruct (IH t' _ I' Fl) as (t'' & os & Cs & Len & h' & Ih & H1 & H2). rewrite Cs.
    exists t'', (o :: os). split; auto. split; [simpl; lia|]. exists h'. split; auto. split.
    + intros x y [E|Hin]; [inversion E; subst; apply H2; left; auto | apply H1; auto].
    + intros p Hp. apply H2. right; auto.
Qed.

Lemma inv_new : inv new_tracer [].
Proof. split; [intros k o H; discriminate | intros a o []]. Qed.
