(** Proofs about run_sql (C96). *)
From Coq Require Import String List Bool Arith Lia.
From Verif Require Import SqlModel SqlSpec.
Import ListNotations.
Local Open Scope nat_scope.

Section P.
Variable T : Type.
Notation data := (data T). Notation duck := (duck T). Notation world := (world T). Notation query := (query T). Notation cmd := (cmd T).
Implicit Types (d : data) (s : duck) (w : world) (q : query) (m : list (option T)).

(** ** lists *)
Lemma nth_set : forall A (l : list A) i j x dflt, nth j (set_nth i x l) dflt = if (j =? i) && (i <? length l) then x else nth j l dflt.
Proof.
  induction l as [|y l IH]; intros i j x dflt; cbn.
  - rewrite andb_false_r. now destruct i.
  - destruct i, j; cbn; auto. rewrite IH. destruct (j =? i) eqn:E; cbn; auto.
Qed.
Lemma length_set : forall A (l : list A) i x, length (set_nth i x l) = length l.
Proof. induction l; intros [|i] x; cbn; auto. Qed.
Lemma all_some_ok : forall A B (f : A -> option B) l ys, all_some f l = Some ys <-> Forall2 (fun x y => f x = Some y) l ys.
Proof.
  induction l as [|x l IH]; intros ys; cbn; split; intros H.
  - injection H as <-. constructor.
  - now inversion H.
  - destruct (f x) eqn:E; [|discriminate]. destruct (all_some f l) eqn:E2; [|discriminate]. injection H as <-.
    constructor; auto. now apply IH.
  - inversion H; subst. rewrite H2. apply IH in H4. now rewrite H4.
Qed.
Lemma all_some_total : forall A B (f : A -> option B) l, (forall x, In x l -> f x <> None) -> all_some f l <> None.
Proof.
  induction l as [|x l IH]; intros H; cbn; [discriminate|].
  destruct (f x) eqn:E; [|exfalso; apply (H x); cbn; auto].
  destruct (all_some f l); [discriminate|]. exfalso. apply IH; auto. intros; apply H; cbn; auto.
Qed.
Lemma find_view_In : forall n l v, find_view T n l = Some v -> In (n, v) l.
Proof.
  induction l as [|[a b] l IH]; cbn; intros v H; [discriminate|].
  destruct (String.eqb_spec a n); [injection H as <-; subst; auto|]. auto.
Qed.
Lemma find_view_None : forall n l, find_view T n l = None <-> ~ In n (map fst l).
Proof.
  induction l as [|[a b] l IH]; cbn; [tauto|]. destruct (String.eqb_spec a n).
  - split; [discriminate|]. intros H. exfalso; apply H; auto.
  - rewrite IH. tauto.
Qed.
Lemma find_table_In : forall n l d, find_table T n l = Some d -> In (n, d) l.
Proof.
  induction l as [|[a b] l IH]; cbn; intros v H; [discriminate|].
  destruct (String.eqb_spec a n); [injection H as <-; subst; auto|]. auto.
Qed.
Lemma find_table_None : forall n l, find_table T n l = None -> forall d, ~ In (n, d) l.
Proof.
  induction l as [|[a b] l IH]; cbn; intros H d; [tauto|]. destruct (String.eqb_spec a n); [discriminate|].
  intros [E|I]; [injection E as -> _; congruence|]. eapply IH; eauto.
Qed.

(** ** denotations *)
Inductive den (w : world) : data -> T -> Prop :=
| den_arrow : forall o c, den w (DArrow T o c) c
| den_file : forall o c, den w (DFile T o c) c
| den_query : forall o st q cs, dens w st (q_reads _ q) cs -> den w (DQuery T o st q) (q_fn _ q cs)
with dens (w : world) : nat -> list string -> list T -> Prop :=
| dens_nil : forall st, dens w st [] []
| dens_cons : forall st r rs c cs n d,
    In (n, d) (tables _ (get_duck _ w st)) -> fold n = fold r -> den w d c -> dens w st rs cs -> dens w st (r :: rs) (c :: cs).
Scheme den_ind2 := Induction for den Sort Prop with dens_ind2 := Induction for dens Sort Prop.

Definition grows (w w' : world) := forall k n d, In (n, d) (tables _ (get_duck _ w k)) -> In (n, d) (tables _ (get_duck _ w' k)).
Lemma den_mono : forall w w', grows w w' -> forall d c, den w d c -> den w' d c.
Proof.
  intros w w' G d c H. induction H using den_ind2 with (P0 := fun st rs cs _ => dens w' st rs cs); try constructor; auto.
  econstructor; eauto.
Qed.
Lemma grows_refl : forall w, grows w w. Proof. intros w k n d H; exact H. Qed.
Lemma grows_trans : forall a b c, grows a b -> grows b c -> grows a c. Proof. intros a b c H1 H2 k n d H; auto. Qed.

Definition view_of (d : data) : view T := match d with DArrow _ _ c | DFile _ _ c => VData T c | DQuery _ _ _ q => VQuery T q end.
Definition home (k : nat) (d : data) : Prop := match d with DQuery _ _ st _ => st = k | _ => True end.
Definition present (w : world) (d : data) := (exists i, cell _ w i = Some d) \/ (exists k n, In (n, d) (tables _ (get_duck _ w k))).

Section Inv.
(** all names of the program, free of case variants *)
Variable NN : list string.
Hypothesis SAFE : forall a b, In a NN -> In b NN -> fold a = fold b -> a = b.

Record duck_ok (w : world) (k : nat) (s : duck) : Prop := {
  dk_names : forall n d, In (n, d) (tables _ s) -> In n NN;
  dk_den : forall n d, In (n, d) (tables _ s) -> home k d /\ exists c, den w d c;
  dk_look : forall n d, In (n, d) (tables _ s) -> lookup _ s n = Some (view_of d);
  dk_views : forall f, In f (map fst (temp _ s) ++ map fst (main _ s)) -> exists n d, In (n, d) (tables _ s) /\ fold n = f
}.
Record inv (w : world) (m : list (option T)) : Prop := {
  i_len : length (cells _ w) = length m;
  i_cells : forall i d, cell _ w i = Some d -> exists c, nth i m None = Some c /\ den w d c;
  i_home : forall i d o st q, cell _ w i = Some d -> d = DQuery T o st q -> st < length (ducks _ w);
  i_ducks : forall k, duck_ok w k (get_duck _ w k);
  i_next : forall d, present w d -> ident _ d < next _ w;
  i_id : forall d d', present w d -> present w d' -> ident _ d = ident _ d' -> d = d'
}.

Lemma eval_sound : forall w m, inv w m -> forall fuel o st q c c', den w (DQuery T o st q) c -> eval _ fuel (get_duck _ w st) q = Some c' -> c' = c.
Proof.
  intros w m I. induction fuel as [|fuel IH]; intros o st q c c' D E; [discriminate|]. cbn [eval] in E.
  destruct (all_some _ (q_reads T q)) as [cs|] eqn:A; [|discriminate]. injection E as <-.
  inversion D as [| |o0 st0 q0 cs0 HD]; subst. f_equal. apply all_some_ok in A. clear D.
  revert cs A. induction HD as [st|st r rs c cs' n d Hin Hf Hd Hds IHd]; intros cs A; inversion A; subst; [reflexivity|].
  f_equal; [|eapply IHd; eauto].
  pose proof (i_ducks _ _ I st) as K. pose proof (dk_look _ _ _ K _ _ Hin) as L.
  assert (L' : lookup T (get_duck T w st) r = Some (view_of d)) by (unfold lookup in *; rewrite <- Hf; exact L).
  rewrite L' in H1. destruct (dk_den _ _ _ K _ _ Hin) as [Hh _].
  destruct d as [o1 c1|o1 c1|o1 st1 q1]; cbn in H1.
  - inversion Hd; congruence.
  - inversion Hd; congruence.
  - cbn in Hh. subst st1. eapply IH; eauto.
Qed.

Lemma cell_set : forall w i j x dk nx, i < length (cells _ w) -> cell _ (World T dk (set_nth i x (cells _ w)) nx) j = if j =? i then x else cell _ w j.
Proof. intros. unfold cell. cbn [cells]. rewrite nth_set. apply Nat.ltb_lt in H. rewrite H, andb_true_r. reflexivity. Qed.
Lemma cell_lt : forall w i d, cell _ w i = Some d -> i < length (cells _ w).
Proof. intros w i d H. destruct (Nat.lt_ge_cases i (length (cells T w))); auto. unfold cell in H. now rewrite nth_overflow in H. Qed.

Lemma duck_ok_mono : forall w w' k s, grows w w' -> duck_ok w k s -> duck_ok w' k s.
Proof.
  intros w w' k s G [A B C D]. constructor; auto. intros n d H. destruct (B n d H) as [X [c Y]]. split; auto. exists c. eapply den_mono; eauto.
Qed.

(** replacing a cell's data by a new Arrow table of the same meaning *)
Lemma inv_cache : forall w m i c d, inv w m -> cell _ w i = Some d -> nth i m None = Some c ->
  inv (World T (ducks _ w) (set_nth i (Some (DArrow T (next _ w) c)) (cells _ w)) (S (next _ w))) m.
Proof.
  intros w m i c d I C M. assert (LT := cell_lt _ _ _ C).
  set (w' := World _ _ _ _). assert (G : grows w w') by (intros k n x H; exact H).
  assert (CS : forall j, cell T w' j = if j =? i then Some (DArrow T (next T w) c) else cell T w j) by (intros j; apply cell_set; auto).
  assert (PR : forall x, present w' x -> x = DArrow T (next T w) c \/ present w x).
  { intros x [[j H]|[k [n H]]]; [|right; right; eauto]. rewrite CS in H. destruct (j =? i); [left; congruence|right; left; eauto]. }
  constructor.
  - cbn. rewrite length_set. apply (i_len _ _ I).
  - intros j x H. rewrite CS in H. destruct (Nat.eqb_spec j i).
    + injection H as <-. subst j. exists c. split; auto. constructor.
    + destruct (i_cells _ _ I _ _ H) as [c' [H1 H2]]. exists c'. split; auto. eapply den_mono; eauto.
  - intros j x o st q H E. rewrite CS in H. destruct (j =? i); [congruence|]. eapply (i_home _ _ I); eauto.
  - intros k. eapply duck_ok_mono; [exact G|]. exact (i_ducks _ _ I k).
  - intros x H. cbn. destruct (PR _ H) as [->|P]; cbn; [lia|]. pose proof (i_next _ _ I _ P). lia.
  - intros x y Hx Hy E. destruct (PR _ Hx) as [->|Px], (PR _ Hy) as [->|Py]; auto.
    + pose proof (i_next _ _ I _ Py). cbn in E. lia.
    + pose proof (i_next _ _ I _ Px). cbn in E. lia.
    + eapply (i_id _ _ I); eauto.
Qed.

Lemma materialise_inv : forall w m i r w', inv w m -> materialise _ w i = (r, w') ->
  inv w' m /\ ducks _ w' = ducks _ w /\ length (cells _ w') = length (cells _ w) /\
  (forall c, r = Some c -> nth i m None = Some c /\ exists o, cell _ w' i = Some (DArrow T o c)) /\
  (forall j, j <> i -> cell _ w' j = cell _ w j) /\ (r = None -> w' = w) /\ ((exists d, cell _ w i = Some d) -> exists d, cell _ w' i = Some d).
Proof.
  intros w m i r w' I E. unfold materialise in E. destruct (cell T w i) as [[o c|o c|o st q]|] eqn:C.
  - injection E as <- <-. split; [auto|]. split; [auto|]. split; [auto|]. split; [|split; [auto|split; [discriminate|eauto]]].
    intros c0 [= <-]. destruct (i_cells _ _ I _ _ C) as [c' [H1 H2]]. inversion H2; subst. split; eauto.
  - destruct (i_cells _ _ I _ _ C) as [c' [H1 H2]]. inversion H2; subst c'.
    injection E as <- <-. assert (LT := cell_lt _ _ _ C).
    split; [eapply inv_cache; eauto|]. split; [auto|]. split; [cbn; apply length_set|]. split; [|split; [|split]].
    + intros c2 [= <-]. split; auto. eexists. rewrite cell_set by auto. now rewrite Nat.eqb_refl.
    + intros j NE. rewrite cell_set by auto. apply Nat.eqb_neq in NE. now rewrite NE.
    + discriminate.
    + intros _. eexists. rewrite cell_set by auto. now rewrite Nat.eqb_refl.
  - destruct (execute T (get_duck T w st) q) as [c|] eqn:X.
    + destruct (i_cells _ _ I _ _ C) as [c' [H1 H2]]. assert (c = c') by (eapply eval_sound; eauto). subst c'.
      injection E as <- <-. assert (LT := cell_lt _ _ _ C).
      split; [eapply inv_cache; eauto|]. split; [auto|]. split; [cbn; apply length_set|]. split; [|split; [|split]].
      * intros c2 [= <-]. split; auto. eexists. rewrite cell_set by auto. now rewrite Nat.eqb_refl.
      * intros j NE. rewrite cell_set by auto. apply Nat.eqb_neq in NE. now rewrite NE.
      * discriminate.
      * intros _. eexists. rewrite cell_set by auto. now rewrite Nat.eqb_refl.
    + injection E as <- <-. split; [auto|]. split; [auto|]. split; [auto|]. split; [discriminate|]. split; [auto|]. split; [auto|]. intros [dd HH]; solve [eauto | discriminate | rewrite C in HH; discriminate].
  - injection E as <- <-. split; [auto|]. split; [auto|]. split; [auto|]. split; [discriminate|]. split; [auto|]. split; [auto|]. intros [dd HH]; solve [eauto | discriminate | rewrite C in HH; discriminate].
Qed.

(** ** registration *)
Lemma get_set_duck : forall w k s j, k < length (ducks _ w) -> get_duck _ (set_duck _ w k s) j = if j =? k then s else get_duck _ w j.
Proof. intros. unfold get_duck, set_duck. cbn [ducks]. rewrite nth_set. apply Nat.ltb_lt in H. rewrite H, andb_true_r. reflexivity. Qed.
Lemma tables_register : forall s n d, tables _ (register _ s n d) = tables _ s.
Proof. intros s n [o c|o c|o st q]; reflexivity. Qed.
Lemma find_put_same : forall n v l, find_view T (fold n) (put T n v l) = Some v.
Proof. intros. cbn. now rewrite String.eqb_refl. Qed.
Lemma find_put_other : forall n v l f, f <> fold n -> find_view T f (put T n v l) = find_view T f l.
Proof.
  intros n v l f NE. cbn. destruct (String.eqb_spec (fold n) f); [congruence|].
  induction l as [|[a b] l IH]; cbn; auto. destruct (String.eqb_spec a (fold n)); cbn.
  - destruct (String.eqb_spec a f); [congruence|]. auto.
  - destruct (String.eqb_spec a f); auto.
Qed.
Lemma put_keys : forall n v l f, In f (map fst (put T n v l)) -> f = fold n \/ In f (map fst l).
Proof.
  intros n v l f [H|H]; auto. right. apply in_map_iff in H. destruct H as [[a b] [<- H]]. apply filter_In in H.
  apply in_map_iff. exists (a, b). tauto.
Qed.
Lemma look_register_other : forall s n d a, fold a <> fold n -> lookup _ (register _ s n d) a = lookup _ s a.
Proof.
  intros s n d a NE. unfold lookup. destruct d as [o c|o c|o st q]; cbn [register temp main]; rewrite find_put_other; auto.
Qed.
(** the name was not there, or the same object was registered under it *)
Lemma look_register_same : forall s n d, (find_view T (fold n) (temp _ s) = None \/ lookup _ s n = Some (view_of d)) -> lookup _ (register _ s n d) n = Some (view_of d).
Proof.
  intros s n d H. unfold lookup in *. destruct d as [o c|o c|o st q]; cbn [register temp main view_of] in *; rewrite ?find_put_same; auto.
  - destruct H as [->|H]; auto. now destruct (find_view T (fold n) (temp T s)).
  - destruct H as [->|H]; auto. now destruct (find_view T (fold n) (temp T s)).
Qed.
Lemma keys_register : forall s n d f, In f (map fst (temp _ (register _ s n d)) ++ map fst (main _ (register _ s n d))) ->
  f = fold n \/ In f (map fst (temp _ s) ++ map fst (main _ s)).
Proof.
  intros s n d f H. rewrite in_app_iff in H. rewrite in_app_iff. destruct d as [o c|o c|o st q]; cbn [register temp main] in H;
  destruct H as [H|H]; auto; apply put_keys in H; tauto.
Qed.

Lemma enter_inv : forall w m st n i d w', inv w m -> In n NN -> st < length (ducks _ w) -> cell _ w i = Some d -> home st d ->
  enter _ w st n d = Some w' ->
  inv w' m /\ grows w w' /\ cells _ w' = cells _ w /\ length (ducks _ w') = length (ducks _ w) /\ In (n, d) (tables _ (get_duck _ w' st)).
Proof.
  intros w m st n i d w' I HN LT C HH E. unfold enter in E.
  destruct (i_cells _ _ I _ _ C) as [cc [HM HD]].
  assert (GEN : forall s, duck_ok w st s \/ True -> (forall a b, In (a, b) (tables _ s) <-> (a, b) = (n, d) \/ In (a, b) (tables _ (get_duck _ w st))) ->
     temp _ s = temp _ (get_duck _ w st) -> main _ s = main _ (get_duck _ w st) ->
     (find_view T (fold n) (temp _ s) = None \/ lookup _ s n = Some (view_of d)) ->
     (forall a b, In (a, b) (tables _ (get_duck _ w st)) -> fold a = fold n -> view_of b = view_of d) ->
     let w2 := set_duck _ w st (register _ s n d) in
     inv w2 m /\ grows w w2 /\ cells _ w2 = cells _ w /\ length (ducks _ w2) = length (ducks _ w) /\ In (n, d) (tables _ (get_duck _ w2 st))).
  { intros s _ TB TE MA LK UN w2.
    assert (GD : forall j, get_duck T w2 j = if j =? st then register T s n d else get_duck T w j) by (intros; now apply get_set_duck).
    assert (G : grows w w2).
    { intros k a b H. rewrite GD. destruct (Nat.eqb_spec k st); auto. subst k. rewrite tables_register. apply TB; auto. }
    assert (PR : forall x, present w2 x -> present w x).
    { intros x [[j H]|[k [a H]]]; [left; exists j; exact H|]. rewrite GD in H. destruct (Nat.eqb_spec k st).
      - rewrite tables_register in H. apply TB in H. destruct H as [H|H]; [injection H as -> ->; left; exists i; exact C|right; exists st, a; exact H].
      - right; exists k, a; exact H. }
    split; [|split; [exact G|split; [reflexivity|split; [cbn; apply length_set|]]]].
    - constructor.
      + cbn. apply (i_len _ _ I).
      + intros j x H. destruct (i_cells _ _ I j x H) as [c' [H1 H2]]. exists c'. split; auto. eapply den_mono; eauto.
      + intros j x o st' q H Ex. cbn. rewrite length_set. eapply (i_home _ _ I); eauto.
      + intros k. rewrite GD. destruct (Nat.eqb_spec k st); [|eapply duck_ok_mono; [exact G|apply (i_ducks _ _ I)]].
        subst k. pose proof (i_ducks _ _ I st) as K. constructor.
        * intros a b H. rewrite tables_register in H. apply TB in H. destruct H as [H|H]; [congruence|]. eapply (dk_names _ _ _ K); eauto.
        * intros a b H. rewrite tables_register in H. apply TB in H. destruct H as [H|H].
          -- injection H as -> ->. split; auto. exists cc. eapply den_mono; eauto.
          -- destruct (dk_den _ _ _ K _ _ H) as [X [c Y]]. split; auto. exists c. eapply den_mono; eauto.
        * intros a b H. rewrite tables_register in H. apply TB in H. destruct H as [H|H].
          -- injection H as -> ->. now apply look_register_same.
          -- destruct (String.eqb_spec (fold a) (fold n)) as [e|e].
             ++ rewrite (UN _ _ H e). pose proof (look_register_same s n d LK) as X.
                unfold lookup in *. now rewrite e.
             ++ rewrite look_register_other by auto. unfold lookup. rewrite TE, MA. apply (dk_look _ _ _ K _ _ H).
        * intros f H. apply keys_register in H. rewrite tables_register. destruct H as [->|H].
          -- exists n, d. split; auto. apply TB; auto.
          -- rewrite TE, MA in H. destruct (dk_views _ _ _ K _ H) as (a & b & X & Y). exists a, b. split; auto. apply TB; auto.
      + intros x H. cbn. apply (i_next _ _ I), PR, H.
      + intros x y Hx Hy Ee. apply (i_id _ _ I); auto.
    - rewrite GD, Nat.eqb_refl, tables_register. apply TB; auto. }
  pose proof (i_ducks _ _ I st) as K.
  destruct (find_table T n (tables T (get_duck T w st))) as [d'|] eqn:F.
  - destruct (Nat.eqb_spec (ident T d') (ident T d)); [|discriminate]. injection E as <-. apply find_table_In in F.
    assert (d' = d). { apply (i_id _ _ I); auto; [right; eauto|left; eauto]. } subst d'.
    apply GEN; auto.
    + intros a b. split; auto. intros [H|H]; [congruence|auto].
    + right. apply (dk_look _ _ _ K _ _ F).
    + intros a b H Ef. assert (a = n) by (apply SAFE; auto; eapply (dk_names _ _ _ K); eauto). subst a.
      pose proof (dk_look _ _ _ K _ _ H). pose proof (dk_look _ _ _ K _ _ F).
      congruence.
  - injection E as <-. apply GEN; auto.
    + intros a b. cbn. split; intros [H|H]; auto.
    + left. cbn. apply find_view_None. intros H. destruct (dk_views _ _ _ K (fold n)) as (a & b & X & Y); [apply in_app_iff; auto|].
      assert (a = n) by (apply SAFE; auto; eapply (dk_names _ _ _ K); eauto). subst a. eapply find_table_None; eauto.
    + intros a b H Ef. assert (a = n) by (apply SAFE; auto; eapply (dk_names _ _ _ K); eauto). subst a. exfalso. eapply find_table_None; eauto.
Qed.

Lemma enter_arg_inv : forall w m st n i (w' : option world) w'', inv w m -> In n NN -> st < length (ducks _ w) -> enter_arg _ w st n i = (w', w'') ->
  inv w'' m /\ grows w w'' /\ length (ducks _ w'') = length (ducks _ w) /\
  (forall w2, w' = Some w2 -> w2 = w'' /\ exists d c, In (n, d) (tables _ (get_duck _ w'' st)) /\ den w'' d c /\ nth i m None = Some c).
Proof.
  intros w m st n i w' w'' I HN LT E. unfold enter_arg in E.
  destruct (cell T w i) as [d|] eqn:C.
  2:{ injection E as <- <-. split; [auto|]. split; [apply grows_refl|]. split; [auto|discriminate]. }
  set (foreign := match d with DQuery _ _ st' _ => negb (st' =? st) | _ => false end) in E.
  destruct (materialise T w i) as [r wm] eqn:MA. pose proof (materialise_inv _ _ _ _ _ I MA) as (IM & DM & _ & RM & _ & NM & _).
  assert (GM : grows w wm) by (intros k a b H; unfold get_duck in *; now rewrite DM).
  assert (FIN : forall w1 d1, inv w1 m -> grows w w1 -> length (ducks _ w1) = length (ducks _ w) -> cell T w1 i = Some d1 -> home st d1 ->
    match enter T w1 st n d1 with Some w2 => (Some w2, w2) | None => (None, w1) end = (w', w'') ->
    inv w'' m /\ grows w w'' /\ length (ducks _ w'') = length (ducks _ w) /\
    (forall w2, w' = Some w2 -> w2 = w'' /\ exists d c, In (n, d) (tables _ (get_duck _ w'' st)) /\ den w'' d c /\ nth i m None = Some c)).
  { intros w1 d1 I1 G1 L1 C1 H1 E1. destruct (enter T w1 st n d1) as [w2|] eqn:EN.
    - injection E1 as <- <-. destruct (enter_inv w1 m st n i d1 w2) as (A & B & C2 & D & F); auto; [lia|].
      split; [auto|]. split; [eapply grows_trans; eauto|]. split; [lia|]. intros w3 [= <-]. split; auto.
      assert (C3 : cell T w2 i = Some d1) by (unfold cell in *; now rewrite C2).
      destruct (i_cells _ _ A _ _ C3) as [c [X Y]]. exists d1, c. auto.
    - injection E1 as <- <-. split; [auto|]. split; [auto|]. split; [auto|discriminate]. }
  destruct foreign eqn:FO; cbn [fst snd] in E.
  - destruct r as [c|]; cbn in E.
    + destruct (RM c eq_refl) as [_ [o C1]]. rewrite C1 in E. apply (FIN wm (DArrow T o c)); auto; [congruence|cbn; auto].
    + injection E as <- <-. split; [auto|]. split; [apply grows_refl|]. split; [auto|discriminate].
  - cbn in E. rewrite C in E. apply (FIN w d); auto; [apply grows_refl|].
    subst foreign. destruct d; cbn; auto. apply negb_false_iff, Nat.eqb_eq in FO. auto.
Qed.

Lemma enter_all_inv : forall l w m st (w' : option world) w'', inv w m -> Forall (fun p => In (fst p) NN) l -> st < length (ducks _ w) -> enter_all _ w st l = (w', w'') ->
  inv w'' m /\ grows w w'' /\ length (ducks _ w'') = length (ducks _ w) /\
  (forall w2, w' = Some w2 -> w2 = w'' /\ forall n i, In (n, i) l -> exists d c, In (n, d) (tables _ (get_duck _ w'' st)) /\ den w'' d c /\ nth i m None = Some c).
Proof.
  induction l as [|[n i] l IH]; intros w m st w' w'' I F LT E; cbn [enter_all] in E.
  - injection E as <- <-. split; [auto|]. split; [apply grows_refl|]. split; [auto|]. intros w2 [= <-]. split; auto. intros ? ? [].
  - inversion F; subst. destruct (enter_arg T w st n i) as [[w1|] w2] eqn:A.
    + destruct (enter_arg_inv _ _ _ _ _ _ _ I H1 LT A) as (I1 & G1 & L1 & R1). destruct (R1 _ eq_refl) as [-> (d & c & X & Y & Z)].
      destruct (IH w2 m st w' w'' I1 H2 ltac:(lia) E) as (I2 & G2 & L2 & R2).
      split; [auto|]. split; [eapply grows_trans; eauto|]. split; [lia|]. intros w3 Hw. destruct (R2 _ Hw) as [-> R3]. split; auto.
      intros a j [Ea|Ha]; [|eauto]. injection Ea as <- <-. exists d, c. split; [now apply G2|]. split; [eapply den_mono; eauto|auto].
    + injection E as <- <-. destruct (enter_arg_inv _ _ _ _ _ _ _ I H1 LT A) as (I1 & G1 & L1 & R1).
      split; [auto|]. split; [auto|]. split; [auto|discriminate].
Qed.

Lemma cell_app : forall w x i, cell _ (new_cell _ w x) i = if i =? length (cells _ w) then x else cell _ w i.
Proof.
  intros w x i. unfold cell, new_cell. cbn [cells]. destruct (Nat.eqb_spec i (length (cells T w))).
  - subst. rewrite app_nth2, Nat.sub_diag by lia. reflexivity.
  - destruct (Nat.lt_ge_cases i (length (cells T w))).
    + now rewrite app_nth1.
    + rewrite !nth_overflow; auto. rewrite app_length; cbn; lia.
Qed.
(** a new cell, empty or holding new data of the right meaning *)
Lemma inv_new : forall w m x mx, inv w m ->
  (forall d, x = Some d -> ident _ d = next _ w /\ (forall o st q, d = DQuery T o st q -> st < length (ducks _ w)) /\ exists c, mx = Some c /\ den w d c) ->
  inv (new_cell _ w x) (m ++ [mx]).
Proof.
  intros w m x mx I H. set (w' := new_cell T w x). assert (G : grows w w') by (intros k n d K; exact K).
  assert (CS : forall j, cell T w' j = if j =? length (cells T w) then x else cell T w j) by (intros; apply cell_app).
  assert (PR : forall d, present w' d -> (x = Some d) \/ present w d).
  { intros d [[j K]|[k [n K]]]; [|right; right; eauto]. rewrite CS in K. destruct (j =? _); [auto|right; left; eauto]. }
  pose proof (i_len _ _ I) as LEN. constructor.
  - cbn. rewrite !app_length. cbn. lia.
  - intros j d K. rewrite CS in K. destruct (Nat.eqb_spec j (length (cells T w))).
    + subst j. destruct (H _ K) as (_ & _ & c & -> & D). exists c. rewrite LEN, app_nth2, Nat.sub_diag by lia. split; auto. eapply den_mono; eauto.
    + destruct (i_cells _ _ I _ _ K) as (c & X & Y). exists c. split; [|eapply den_mono; eauto].
      rewrite app_nth1; auto. apply cell_lt in K. lia.
  - intros j d o st q K Ed. rewrite CS in K. cbn. destruct (j =? _); [destruct (H _ K) as (_ & X & _); eauto|]. eapply (i_home _ _ I); eauto.
  - intros k. eapply duck_ok_mono; [exact G|]. exact (i_ducks _ _ I k).
  - intros d P. cbn. destruct (PR _ P) as [E|Q]; [destruct (H _ E); lia|]. pose proof (i_next _ _ I _ Q). lia.
  - intros d d' P P' E. destruct (PR _ P) as [Q|Q], (PR _ P') as [Q'|Q']; [congruence| | |now apply (i_id _ _ I)].
    + destruct (H _ Q) as [X _]. pose proof (i_next _ _ I _ Q'). lia.
    + destruct (H _ Q') as [X _]. pose proof (i_next _ _ I _ Q). lia.
Qed.

Lemma inv_new_duck : forall w m, inv w m -> inv (World T (ducks _ w ++ [empty_duck T]) (cells _ w) (next _ w)) m.
Proof.
  intros w m I. set (w' := World _ _ _ _).
  assert (GD : forall k, get_duck T w' k = get_duck T w k).
  { intros k. unfold get_duck. cbn. destruct (Nat.lt_ge_cases k (length (ducks T w))).
    - now rewrite app_nth1.
    - rewrite app_nth2 by lia. rewrite (nth_overflow (ducks T w)) by lia. now destruct (k - _) as [|[|]]. }
  assert (G : grows w w') by (intros k n d H; now rewrite GD).
  assert (PR : forall d, present w' d -> present w d).
  { intros d [[j K]|[k [n K]]]; [left; exists j; exact K|right; exists k, n]. now rewrite GD in K. }
  constructor.
  - apply (i_len _ _ I).
  - intros i d H. destruct (i_cells _ _ I _ _ H) as (c & X & Y). exists c. split; auto. eapply den_mono; eauto.
  - intros i d o st q H E. cbn. rewrite app_length. cbn. pose proof (i_home _ _ I i d o st q H E). lia.
  - intros k. rewrite GD. eapply duck_ok_mono; [exact G|]. apply (i_ducks _ _ I).
  - intros d H. apply (i_next _ _ I), PR, H.
  - intros d d' H H' E. apply (i_id _ _ I); auto.
Qed.

Lemma choose_lt : forall w m, inv w m -> forall l st, choose _ w l = Some st -> st < length (ducks _ w).
Proof.
  intros w m I. induction l as [|i l IH]; intros st E; cbn in E; [discriminate|].
  destruct (cell T w i) as [[o c|o c|o s q]|] eqn:C; auto. injection E as <-. eapply (i_home _ _ I); eauto.
Qed.

Lemma denoted_In : forall g r i, denoted g r = Some i -> exists n, In (n, i) g /\ fold n = fold r.
Proof.
  induction g as [|[n j] g IH]; intros r i E; cbn in E; [discriminate|].
  destruct (String.eqb_spec (fold n) (fold r)); [injection E as <-; exists n; cbn; auto|].
  destruct (IH _ _ E) as (a & X & Y). exists a; cbn; auto.
Qed.
Lemma denoted_some : forall g r, (exists n, In n (map fst g) /\ fold n = fold r) -> exists i, denoted g r = Some i.
Proof.
  induction g as [|[n j] g IH]; intros r (a & H & E); [contradiction|]. cbn.
  destruct (String.eqb_spec (fold n) (fold r)); [eauto|]. apply IH. exists a. destruct H as [H|H]; [cbn in H; congruence|auto].
Qed.

Lemma run_sql_inv : forall w m q g, inv w m -> Forall (fun p => In (fst p) NN) g -> self_contained _ (RunSql q g) ->
  inv (run_sql _ w q g) (m ++ meaning_of _ m (RunSql q g)).
Proof.
  intros w m q g I F SC. unfold run_sql.
  destruct (forallb _ g); cbn [negb]; [|apply inv_new; auto; discriminate].
  set (p := match choose T w (map snd g) with Some st => (st, w) | None => (length (ducks T w), World T (ducks T w ++ [empty_duck T]) (cells T w) (next T w)) end).
  assert (HP : inv (snd p) m /\ fst p < length (ducks T (snd p))).
  { subst p. destruct (choose T w (map snd g)) as [st|] eqn:C; cbn [fst snd].
    - split; auto. eapply choose_lt; eauto.
    - split; [now apply inv_new_duck|]. cbn. rewrite app_length. cbn. lia. }
  destruct p as [st w0]. cbn [fst snd] in HP. destruct HP as [I0 LT].
  destruct (enter_all T w0 st g) as [o w1] eqn:E. destruct (enter_all_inv g w0 m st o w1 I0 F LT E) as (I1 & G1 & L1 & R1).
  destruct o as [w2|]; [|apply inv_new; auto; discriminate].
  destruct (R1 _ eq_refl) as [-> GIV].
  destruct (execute T (get_duck T w1 st) q) as [cv|] eqn:X; [|apply inv_new; auto; discriminate].
  cbn [meaning_of].
  assert (DN : forall rs, (forall r, In r rs -> exists n, In n (map fst g) /\ fold n = fold r) ->
    exists cs, all_some (fun r => match denoted g r with Some i => nth i m None | None => None end) rs = Some cs /\ dens w1 st rs cs).
  { induction rs as [|r rs IH]; intros H; [exists []; split; [reflexivity|constructor]|].
    destruct IH as (cs & A & D); [intros; apply H; cbn; auto|].
    destruct (denoted_some g r) as [i Hi]; [apply H; cbn; auto|]. destruct (denoted_In _ _ _ Hi) as (n & Hn & Hf).
    destruct (GIV _ _ Hn) as (d & c & P1 & P2 & P3). exists (c :: cs). cbn. rewrite Hi, P3, A. split; auto. econstructor; eauto. }
  destruct (DN (q_reads T q) SC) as (cs & A & D). rewrite A.
  apply inv_new; auto. intros d [= <-]. split; [reflexivity|]. split.
  - intros o s q' [= <- <- <-]. lia.
  - eexists. split; [reflexivity|]. now constructor.
Qed.

Lemma step_inv : forall w m o obs w', inv w m -> Forall (fun n => In n NN) (names _ o) -> self_contained _ o -> step _ w o = (obs, w') ->
  inv w' (m ++ meaning_of _ m o) /\ forall i c, In (i, Some c) obs -> nth i m None = Some c.
Proof.
  intros w m o obs w' I F SC E. destruct o as [c|c|q g|i]; cbn [step] in E.
  - injection E as <- <-. split; [|intros ? ? []]. apply inv_new; auto. intros d [= <-]. repeat split; [discriminate|]. exists c. split; [auto|constructor].
  - injection E as <- <-. split; [|intros ? ? []]. apply inv_new; auto. intros d [= <-]. repeat split; [discriminate|]. exists c. split; [auto|constructor].
  - injection E as <- <-. split; [|intros ? ? []]. apply run_sql_inv; auto. cbn [names] in F. rewrite Forall_map in F. exact F.
  - destruct (materialise T w i) as [r w1] eqn:MA. injection E as <- <-. destruct (materialise_inv _ _ _ _ _ I MA) as (A & _ & _ & R & _).
    cbn [meaning_of]. rewrite app_nil_r. split; auto. intros j c [H|[]]. injection H as <- ->. now apply R.
Qed.

Lemma meanings_nth : forall os m i c, nth i m None = Some c -> nth i (meanings _ m os) None = Some c.
Proof.
  induction os as [|o os IH]; intros m i c H; cbn; auto. apply IH. rewrite app_nth1; auto.
  destruct (Nat.lt_ge_cases i (length m)); auto. now rewrite nth_overflow in H.
Qed.

Lemma run_safe : forall os w m obs w', inv w m -> Forall (fun o => Forall (fun n => In n NN) (names _ o)) os -> Forall (self_contained _) os ->
  run _ w os = (obs, w') -> inv w' (meanings _ m os) /\ forall i c, In (i, Some c) obs -> nth i (meanings _ m os) None = Some c.
Proof.
  induction os as [|o os IH]; intros w m obs w' I F SC E; cbn [run] in E.
  - injection E as <- <-. split; auto. intros ? ? [].
  - destruct (step T w o) as [x w1] eqn:S1. destruct (run T w1 os) as [y w2] eqn:R1. injection E as <- <-.
    inversion F; subst. inversion SC; subst. destruct (step_inv _ _ _ _ _ I H1 H3 S1) as [I1 O1].
    destruct (IH _ _ _ _ I1 H2 H4 R1) as [I2 O2]. cbn [meanings]. split; auto.
    intros i c H. apply in_app_or in H. destruct H as [H|H]; auto. apply meanings_nth.
    specialize (O1 _ _ H). rewrite app_nth1; auto. destruct (Nat.lt_ge_cases i (length m)); auto. now rewrite nth_overflow in O1.
Qed.
Lemma inv_start : inv (start T) [].
Proof.
  constructor.
  - reflexivity.
  - intros i d H. now destruct i.
  - intros i d o st q H. now destruct i.
  - intros k. replace (get_duck T (start T) k) with (empty_duck T) by now destruct k. constructor; cbn; intros; contradiction.
  - intros d [[i H]|[k [n H]]]; [now destruct i|]. now destruct k.
  - intros d d' [[i H]|[k [n H]]]; [now destruct i|]. now destruct k.
Qed.
End Inv.

Theorem safe : forall os, case_safe _ os -> Forall (self_contained _) os ->
  forall i c, In (i, Some c) (observed T os) -> meaning T os i = Some c.
Proof.
  intros os CS SC i c H. unfold observed in H. destruct (run T (start T) os) as [obs w'] eqn:R.
  eapply (run_safe (flat_map (names T) os) CS os (start T) [] obs w'); auto.
  - apply inv_start.
  - apply Forall_forall. intros o Ho. apply Forall_forall. intros n Hn. apply in_flat_map. eauto.
Qed.

(** ** with fresh names nothing raises *)
Lemma eval_mono : forall f s q c, eval _ f s q = Some c -> forall f', f <= f' -> eval _ f' s q = Some c.
Proof.
  induction f as [|f IH]; intros s q c E f' L; [discriminate|]. destruct f' as [|f']; [lia|]. cbn [eval] in *.
  destruct (all_some _ (q_reads T q)) as [cs|] eqn:A; [|discriminate]. injection E as <-.
  apply all_some_ok in A.
  replace (all_some _ (q_reads T q)) with (Some cs); auto. symmetry. apply all_some_ok.
  induction A as [|r y rs ys H A IHA]; constructor; auto. destruct (lookup T s r) as [[c|q']|]; auto. eapply IH; eauto. lia.
Qed.
Definition has (l : list (string * view T)) (n : string) := In (fold n) (map fst l).
Definition covered (s : duck) (q : query) := forall r, In r (q_reads _ q) -> has (temp _ s) r \/ has (main _ s) r.
Fixpoint wf_main (t l : list (string * view T)) : Prop :=
  match l with
  | [] => True
  | (_, v) :: r => match v with VQuery _ q => forall x, In x (q_reads _ q) -> has t x \/ has r x | VData _ _ => True end /\ wf_main t r
  end.
Lemma has_find : forall l n, has l n -> exists v, find_view T (fold n) l = Some v.
Proof. intros l n H. destruct (find_view T (fold n) l) eqn:E; eauto. apply find_view_None in E. contradiction. Qed.
Lemma find_view_app : forall a b n, find_view T n (a ++ b) = match find_view T n a with Some v => Some v | None => find_view T n b end.
Proof. induction a as [|[k v] a IH]; intros b n; cbn; auto. destruct (String.eqb k n); auto. Qed.
Lemma find_split : forall l n v, find_view T n l = Some v -> exists a b, l = a ++ (n, v) :: b /\ find_view T n a = None.
Proof.
  induction l as [|[k x] l IH]; cbn; intros n v E; [discriminate|]. destruct (String.eqb_spec k n).
  - injection E as <-. subst. exists [], l. auto.
  - destruct (IH _ _ E) as (a & b & -> & F). exists ((k, x) :: a), b. split; auto. cbn. apply String.eqb_neq in n0. now rewrite n0.
Qed.
Lemma wf_main_app : forall t a b, wf_main t (a ++ b) -> wf_main t b.
Proof. induction a as [|[k v] a IH]; cbn; intros b H; auto. apply IH. tauto. Qed.
Lemma NoDup_app_keys : forall (a b : list (string * view T)), NoDup (map fst (a ++ b)) -> forall n, In n (map fst b) -> find_view T n a = None.
Proof.
  induction a as [|[k v] a IH]; cbn; intros b H n Hn; auto. inversion H; subst. destruct (String.eqb_spec k n).
  - subst. exfalso. apply H2. rewrite map_app. apply in_or_app; auto.
  - eapply IH; eauto.
Qed.

Lemma eval_S : forall k s q, eval _ (S k) s q =
  match all_some (fun r => match lookup _ s r with Some (VData _ c) => Some c | Some (VQuery _ q') => eval _ k s q' | None => None end) (q_reads _ q) with
  | Some cs => Some (q_fn _ q cs) | None => None end.
Proof. reflexivity. Qed.
Lemma eval_total : forall s, Forall (fun p => exists c, snd p = VData T c) (temp _ s) -> NoDup (map fst (main _ s)) -> wf_main (temp _ s) (main _ s) ->
  forall k pre suf q, main _ s = pre ++ suf -> length suf <= k -> (forall r, In r (q_reads _ q) -> has (temp _ s) r \/ has suf r) ->
  eval _ (S k) s q <> None.
Proof.
  intros s TD ND WF. induction k as [|k IH]; intros pre suf q E L C.
  - rewrite eval_S. destruct (all_some _ (q_reads T q)) eqn:A; [discriminate|]. exfalso. revert A. apply all_some_total.
    intros r Hr. unfold lookup. destruct (C r Hr) as [H|H].
    + destruct (has_find _ _ H) as [v Hv]. rewrite Hv. apply find_view_In in Hv. rewrite Forall_forall in TD.
      destruct (TD _ Hv) as [c Hc]. cbn in Hc. subst v. discriminate.
    + destruct suf; [destruct H|cbn in L; lia].
  - rewrite eval_S. destruct (all_some _ (q_reads T q)) eqn:A; [discriminate|]. exfalso. revert A. apply all_some_total.
    intros r Hr. unfold lookup. destruct (find_view T (fold r) (temp T s)) as [v|] eqn:FT.
    + apply find_view_In in FT. rewrite Forall_forall in TD. destruct (TD _ FT) as [c Hc]. cbn in Hc. subst v. discriminate.
    + destruct (C r Hr) as [H|H]; [apply find_view_None in FT; contradiction|].
      destruct (has_find _ _ H) as [v Hv]. 
      assert (FM : find_view T (fold r) (main T s) = Some v).
      { rewrite E, find_view_app. assert (ND' : NoDup (map fst (pre ++ suf))) by (rewrite <- E; exact ND).
        rewrite (NoDup_app_keys pre suf ND' (fold r) H). exact Hv. }
      rewrite FM.
      destruct v as [c|q']; [discriminate|]. destruct (find_split _ _ _ Hv) as (a & b & Es & _).
      assert (W : wf_main (temp T s) ((fold r, VQuery T q') :: b)) by (apply (wf_main_app _ (pre ++ a)); rewrite <- app_assoc, <- Es, <- E; auto).
      cbn in W. destruct W as [W _].
      apply (IH (pre ++ a ++ [(fold r, VQuery T q')]) b q').
      * rewrite E, Es, <- !app_assoc. reflexivity.
      * subst suf. rewrite app_length in L. cbn in L. lia.
      * exact W.
Qed.

Record duck_live (U : list string) (s : duck) : Prop := {
  dl_temp : Forall (fun p => exists c, snd p = VData T c) (temp _ s);
  dl_nodup : NoDup (map fst (main _ s));
  dl_wf : wf_main (temp _ s) (main _ s);
  dl_used : forall f, In f (map fst (temp _ s)) \/ In f (map fst (main _ s)) \/ In f (map (fun p => fold (fst p)) (tables _ s)) -> In f U
}.
Record live (U : list string) (w : world) : Prop := {
  l_ducks : forall k, duck_live U (get_duck _ w k);
  l_cells : forall i, i < length (cells _ w) -> exists d, cell _ w i = Some d /\
            forall o st q, d = DQuery T o st q -> st < length (ducks _ w) /\ covered (get_duck _ w st) q
}.
Lemma execute_live : forall U w st q, live U w -> covered (get_duck _ w st) q -> execute _ (get_duck _ w st) q <> None.
Proof.
  intros U w st q L C. destruct (l_ducks _ _ L st) as [A B D E]. unfold execute.
  apply (eval_total _ A B D _ [] (main T (get_duck T w st))); auto.
Qed.
Lemma materialise_live : forall U w i, live U w -> i < length (cells _ w) ->
  exists c w', materialise _ w i = (Some c, w') /\ live U w' /\ ducks _ w' = ducks _ w /\ length (cells _ w') = length (cells _ w) /\
  exists o, cell _ w' i = Some (DArrow T o c).
Proof.
  intros U w i L LT. destruct (l_cells _ _ L i LT) as [d [C Q]].
  assert (UPD : forall c, let w' := World T (ducks T w) (set_nth i (Some (DArrow T (next T w) c)) (cells T w)) (S (next T w)) in
     live U w' /\ ducks _ w' = ducks _ w /\ length (cells _ w') = length (cells _ w) /\ exists o, cell _ w' i = Some (DArrow T o c)).
  { intros c w'. assert (CS : forall j, cell T w' j = if j =? i then Some (DArrow T (next T w) c) else cell T w j) by (intros j; apply cell_set; auto).
    split; [|split; [reflexivity|split; [cbn; apply length_set|eexists; rewrite CS, Nat.eqb_refl; reflexivity]]].
    constructor; [exact (l_ducks _ _ L)|]. intros j Hj. cbn in Hj. rewrite length_set in Hj. rewrite CS.
    destruct (j =? i); [eexists; split; [reflexivity|discriminate]|]. apply (l_cells _ _ L j Hj). }
  unfold materialise. rewrite C. destruct d as [o c|o c|o st q].
  - exists c, w. repeat split; eauto; apply L.
  - exists c. eexists. split; [reflexivity|]. apply UPD.
  - destruct (Q _ _ _ eq_refl) as [_ CV]. pose proof (execute_live _ _ _ _ L CV) as X.
    destruct (execute T (get_duck T w st) q) as [c|]; [|congruence]. exists c. eexists. split; [reflexivity|]. apply UPD.
Qed.

Lemma filter_fresh : forall (l : list (string * view T)) f, ~ In f (map fst l) -> filter (fun p => negb (String.eqb (fst p) f)) l = l.
Proof.
  induction l as [|[a b] l IH]; cbn; intros f H; auto. destruct (String.eqb_spec a f); [exfalso; apply H; auto|]. cbn. rewrite IH; auto.
Qed.
Lemma has_cons : forall l n x, has l n -> has (x :: l) n. Proof. intros. right. exact H. Qed.
Lemma wf_main_mono : forall t t' l, (forall n, has t n -> has t' n) -> wf_main t l -> wf_main t' l.
Proof.
  induction l as [|[a v] l IH]; cbn; intros H W; auto. destruct W as [W1 W2]. split; auto. destruct v; auto. intros x Hx. destruct (W1 x Hx); auto.
Qed.

Lemma enter_live : forall U w st n i d, live U w -> ~ In (fold n) U -> st < length (ducks _ w) -> cell _ w i = Some d -> home st d -> i < length (cells _ w) ->
  exists w', enter _ w st n d = Some w' /\ live (fold n :: U) w' /\ length (ducks _ w') = length (ducks _ w) /\ cells _ w' = cells _ w /\
  (forall r, has (temp _ (get_duck _ w st)) r \/ has (main _ (get_duck _ w st)) r -> has (temp _ (get_duck _ w' st)) r \/ has (main _ (get_duck _ w' st)) r) /\
  (has (temp _ (get_duck _ w' st)) n \/ has (main _ (get_duck _ w' st)) n).
Proof.
  intros U w st n i d L FR LT C HH LI. pose proof (l_ducks _ _ L st) as K. destruct K as [KT KN KW KU]. set (s := get_duck T w st) in *.
  destruct (l_cells _ _ L i LI) as [d0 [C0 Q]]. rewrite C in C0. injection C0 as <-.
  unfold enter. fold s. destruct (find_table T n (tables T s)) as [d'|] eqn:F.
  { exfalso. apply FR, KU. right; right. apply find_table_In in F. apply (in_map (fun p => fold (fst p))) in F. exact F. }
  eexists. split; [reflexivity|]. set (s' := register T _ n d).
  assert (FT : ~ In (fold n) (map fst (temp T s))) by (intros H; apply FR, KU; auto).
  assert (FM : ~ In (fold n) (map fst (main T s))) by (intros H; apply FR, KU; auto).
  assert (MONO : forall r, has (temp T s) r \/ has (main T s) r -> has (temp T s') r \/ has (main T s') r).
  { subst s'. intros r [H|H]; destruct d; cbn [register temp main]; unfold put; rewrite ?filter_fresh by auto; auto using has_cons. }
  assert (HN : has (temp T s') n \/ has (main T s') n).
  { subst s'. destruct d; cbn [register temp main]; unfold put, has; cbn; auto. }
  assert (GD : forall j, get_duck T (set_duck T w st s') j = if j =? st then s' else get_duck T w j) by (intros; now apply get_set_duck).
  assert (TS : tables T s' = (n, d) :: tables T s) by (subst s'; rewrite tables_register; reflexivity).
  split; [|split; [cbn; apply length_set|split; [reflexivity|]]]; [|rewrite GD, Nat.eqb_refl; auto].
  constructor.
  - intros k. rewrite GD. destruct (Nat.eqb_spec k st).
    + constructor.
      * subst s'. destruct d; cbn [register temp main]; auto. unfold put. constructor; [cbn; eauto|]. rewrite filter_fresh; auto.
      * subst s'. destruct d; cbn [register temp main]; auto; unfold put; rewrite filter_fresh by auto; cbn; constructor; auto.
      * subst s'. destruct d as [o c|o c|o st' q]; cbn [register temp main].
        -- eapply wf_main_mono; [|exact KW]. unfold put. rewrite filter_fresh by auto. intros; now apply has_cons.
        -- unfold put. rewrite filter_fresh by auto. cbn. auto.
        -- unfold put. rewrite filter_fresh by auto. cbn. split; auto. cbn in HH. subst st'. destruct (Q _ _ _ eq_refl) as [_ CV]. exact CV.
      * intros f H. rewrite TS in H. cbn. destruct H as [H|[H|H]].
        -- assert (X : In f (map fst (temp T s)) \/ f = fold n).
           { subst s'. destruct d; cbn [register temp main] in H; auto. destruct (put_keys _ _ _ _ H); auto. }
           destruct X; auto.
        -- assert (X : In f (map fst (main T s)) \/ f = fold n).
           { subst s'. destruct d; cbn [register temp main] in H; auto; destruct (put_keys _ _ _ _ H); auto. }
           destruct X; auto.
        -- cbn in H. destruct H; auto.
    + destruct (l_ducks _ _ L k) as [A B D E]. constructor; auto. intros f H. right. auto.
  - intros j Hj. destruct (l_cells _ _ L j Hj) as [dj [Cj Qj]]. exists dj. split; [exact Cj|]. intros o st' q Ed.
    destruct (Qj _ _ _ Ed) as [X Y]. cbn [ducks set_duck]. rewrite length_set. split; auto. rewrite GD. destruct (Nat.eqb_spec st' st); auto.
    subst st'. intros r Hr. apply MONO. now apply Y.
Qed.

Lemma enter_all_live : forall g U w st, live U w -> st < length (ducks _ w) -> NoDup (map fold (map fst g)) -> (forall n, In n (map fst g) -> ~ In (fold n) U) ->
  Forall (fun p => snd p < length (cells _ w)) g ->
  exists w', enter_all _ w st g = (Some w', w') /\ live (rev (map fold (map fst g)) ++ U) w' /\ length (ducks _ w') = length (ducks _ w) /\
  length (cells _ w') = length (cells _ w) /\
  (forall r, has (temp _ (get_duck _ w st)) r \/ has (main _ (get_duck _ w st)) r -> has (temp _ (get_duck _ w' st)) r \/ has (main _ (get_duck _ w' st)) r) /\
  (forall n, In n (map fst g) -> has (temp _ (get_duck _ w' st)) n \/ has (main _ (get_duck _ w' st)) n).
Proof.
  induction g as [|[n i] g IH]; intros U w st L LT ND FR SC.
  - exists w. cbn. repeat split; auto; try apply L. intros n [].
  - cbn [map fst] in *. inversion ND; subst. inversion SC; subst. cbn in H3.
    assert (STEP : exists w1, enter_arg T w st n i = (Some w1, w1) /\ live (fold n :: U) w1 /\ length (ducks T w1) = length (ducks T w) /\ length (cells T w1) = length (cells T w) /\
      (forall r, has (temp _ (get_duck _ w st)) r \/ has (main _ (get_duck _ w st)) r -> has (temp _ (get_duck _ w1 st)) r \/ has (main _ (get_duck _ w1 st)) r) /\
      (has (temp _ (get_duck _ w1 st)) n \/ has (main _ (get_duck _ w1 st)) n)).
    { unfold enter_arg. destruct (l_cells _ _ L i H3) as [d [C Q]]. rewrite C.
      set (foreign := match d with DQuery _ _ st' _ => negb (st' =? st) | _ => false end). destruct foreign eqn:FO.
      - destruct (materialise_live U w i L H3) as (c & w0 & MA & L0 & D0 & N0 & o & C0). rewrite MA. cbn [fst snd negb]. rewrite C0.
        destruct (enter_live U w0 st n i (DArrow T o c)) as (w1 & E1 & L1 & D1 & N1 & M1 & F1); auto; try lia; [apply FR; cbn; auto|now rewrite D0|cbn; auto|].
        exists w1. rewrite E1. split; auto. split; auto. split; [congruence|]. split; [rewrite N1; auto|]. split; auto.
        intros r Hr. apply M1. unfold get_duck in *. now rewrite D0.
      - cbn [negb]. rewrite C. assert (HH : home st d). { subst foreign. destruct d; cbn; auto. apply negb_false_iff, Nat.eqb_eq in FO. auto. }
        destruct (enter_live U w st n i d) as (w1 & E1 & L1 & D1 & N1 & M1 & F1); auto; [apply FR; cbn; auto|].
        exists w1. rewrite E1. split; auto. split; auto. split; auto. split; [congruence|]. auto. }
    destruct STEP as (w1 & E1 & L1 & D1 & N1 & M1 & F1). cbn [enter_all]. rewrite E1.
    destruct (IH (fold n :: U) w1 st) as (w' & E2 & L2 & D2 & N2 & M2 & F2); auto; try lia.
    + intros a Ha [K|K]; [|apply (FR a); cbn; auto]. apply H1. rewrite K. now apply in_map.
    + rewrite N1. exact H4.
    + exists w'. split; auto. split; [cbn; rewrite <- app_assoc; exact L2|]. split; [lia|]. split; [lia|]. split; [auto|].
      intros a [<-|Ha]; auto.
Qed.

Lemma live_new : forall U w d, live U w -> (forall o st q, d = DQuery T o st q -> st < length (ducks _ w) /\ covered (get_duck _ w st) q) -> live U (new_cell _ w (Some d)).
Proof.
  intros U w d L H. constructor; [exact (l_ducks _ _ L)|]. intros i Hi. rewrite cell_app. cbn in Hi. rewrite app_length in Hi. cbn in Hi.
  destruct (Nat.eqb_spec i (length (cells T w))); [eauto|]. apply (l_cells _ _ L i). lia.
Qed.

Lemma run_sql_live : forall U w q g, live U w -> NoDup (map fold (map fst g)) -> (forall n, In n (map fst g) -> ~ In (fold n) U) ->
  Forall (fun p => snd p < length (cells _ w)) g -> self_contained _ (RunSql q g) ->
  live (rev (map fold (map fst g)) ++ U) (run_sql _ w q g) /\ length (cells _ (run_sql _ w q g)) = S (length (cells _ w)).
Proof.
  intros U w q g L ND FR SC CT. unfold run_sql.
  replace (forallb _ g) with true. 2:{ symmetry. apply forallb_forall. intros p Hp. rewrite Forall_forall in SC. destruct (l_cells _ _ L _ (SC p Hp)) as [d [-> _]]. auto. }
  cbn [negb].
  set (p := match choose T w (map snd g) with Some st => (st, w) | None => (length (ducks T w), World T (ducks T w ++ [empty_duck T]) (cells T w) (next T w)) end).
  assert (HP : live U (snd p) /\ fst p < length (ducks T (snd p)) /\ cells T (snd p) = cells T w).
  { subst p. destruct (choose T w (map snd g)) as [st|] eqn:C; cbn [fst snd].
    - split; auto. split; auto.
      assert (CH : forall l, Forall (fun i => i < length (cells T w)) l -> choose T w l = Some st -> st < length (ducks T w)).
      { induction l as [|i l IH]; intros F E; cbn in E; [discriminate|]. inversion F; subst. destruct (l_cells _ _ L i H1) as [d [Cd Q]]. rewrite Cd in E.
        destruct d as [o c|o c|o s0 q0]; auto. injection E as <-. destruct (Q _ _ _ eq_refl); auto. }
      apply (CH (map snd g)); auto. rewrite Forall_map. exact SC.
    - assert (GD : forall k, get_duck T (World T (ducks T w ++ [empty_duck T]) (cells T w) (next T w)) k = get_duck T w k).
      { intros k. unfold get_duck. cbn. destruct (Nat.lt_ge_cases k (length (ducks T w))).
        - now rewrite app_nth1.
        - rewrite app_nth2 by lia. rewrite (nth_overflow (ducks T w)) by lia. now destruct (k - _) as [|[|]]. }
      split; [|split; [cbn; rewrite app_length; cbn; lia|reflexivity]]. constructor.
      + intros k. rewrite GD. apply L.
      + intros i Hi. destruct (l_cells _ _ L i Hi) as [d [Cd Q]]. exists d. split; auto. intros o st q0 E. destruct (Q _ _ _ E).
        rewrite GD. split; auto. cbn. rewrite app_length. lia. }
  destruct p as [st w0]. cbn [fst snd] in HP. destruct HP as (L0 & LT & CE).
  destruct (enter_all_live g U w0 st L0 LT ND FR) as (w1 & E1 & L1 & D1 & N1 & M1 & F1); [rewrite CE; auto|]. rewrite E1.
  assert (CV : covered (get_duck T w1 st) q). { intros r Hr. destruct (CT r Hr) as (n & Hn & Hf). specialize (F1 n Hn). unfold has in *. now rewrite Hf in F1. }
  pose proof (execute_live _ _ _ _ L1 CV) as X. destruct (execute T (get_duck T w1 st) q); [|congruence].
  split.
  - apply live_new; auto. intros o s0 q0 [= <- <- <-]. split; auto. lia.
  - cbn. rewrite app_length. cbn. rewrite N1, CE. lia.
Qed.

Lemma NoDup_parts : forall A (a b : list A), NoDup (a ++ b) -> NoDup a /\ NoDup b.
Proof.
  induction a as [|x a IH]; cbn; intros b H; [split; [constructor|auto]|]. inversion H; subst. destruct (IH _ H3). split; auto.
  constructor; auto. intros K. apply H2. apply in_or_app; auto.
Qed.
Lemma run_live : forall os U w obs w', live U w -> NoDup (map fold (flat_map (names T) os)) -> (forall n, In n (flat_map (names T) os) -> ~ In (fold n) U) ->
  well_scoped _ (length (cells _ w)) os -> Forall (self_contained T) os -> run _ w os = (obs, w') -> forall i r, In (i, r) obs -> r <> None.
Proof.
  induction os as [|o os IH]; intros U w obs w' L ND FR WS SC E; cbn [run] in E; [injection E as <- <-; intros ? ? []|].
  destruct (step T w o) as [x w1] eqn:S1. destruct (run T w1 os) as [y w2] eqn:R1. injection E as <- <-. inversion SC; subst.
  cbn [flat_map] in *. rewrite map_app in ND.
  assert (ND2 : NoDup (map fold (flat_map (names T) os))). { apply NoDup_parts in ND. tauto. }
  destruct o as [c|c|q g|i]; cbn [step well_scoped] in *.
  - injection S1 as <- <-. cbn [app] in *. eapply IH; [| | | | |exact R1]; eauto.
    + apply live_new; [exact L|intros; discriminate].
    + cbn. rewrite app_length, Nat.add_1_r. exact WS.
  - injection S1 as <- <-. cbn [app] in *. eapply IH; [| | | | |exact R1]; eauto.
    + apply live_new; [exact L|intros; discriminate].
    + cbn. rewrite app_length, Nat.add_1_r. exact WS.
  - injection S1 as <- <-. cbn [app names] in *. destruct WS as [WS1 WS2].
    destruct (run_sql_live U w q g L) as [L1 N1]; auto.
    + apply NoDup_parts in ND. tauto.
    + intros n Hn. apply FR. apply in_or_app; auto.
    + eapply IH; [exact L1| | | | |exact R1]; auto; [|rewrite N1; exact WS2].
      intros n Hn K. apply in_app_or in K. destruct K as [K|K]; [|apply (FR n); auto; apply in_or_app; auto].
      apply in_rev in K. clear - ND K Hn. induction (map fold (map fst g)) as [|a l IH]; [contradiction|]. cbn in ND. inversion ND; subst.
      destruct K as [->|K]; auto. apply H1. apply in_or_app. right. now apply in_map.
  - destruct WS as [LI WS]. destruct (materialise_live U w i L LI) as (c & w0 & MA & L0 & D0 & N0 & _). rewrite MA in S1. injection S1 as <- <-.
    cbn [app names] in *. intros j r [H|H]; [congruence|]. revert j r H. eapply IH; [exact L0| | | | |exact R1]; auto. rewrite N0. exact WS.
Qed.
Lemma live_start : live [] (start T).
Proof.
  constructor; [|cbn; intros; lia]. intros k. replace (get_duck T (start T) k) with (empty_duck T) by now destruct k. constructor; cbn; auto; try constructor. tauto.
Qed.

Lemma fresh_case_safe : forall os, fresh_names _ os -> case_safe T os.
Proof.
  intros os F a b Ha Hb E. unfold fresh_names in F. induction (flat_map (names T) os) as [|x l IH]; [contradiction|]. cbn in F. inversion F; subst.
  destruct Ha as [<-|Ha], Hb as [<-|Hb]; auto.
  - exfalso. apply H1. rewrite E. now apply in_map.
  - exfalso. apply H1. rewrite <- E. now apply in_map.
Qed.
Theorem live_all : forall os, fresh_names T os -> Forall (self_contained T) os -> well_scoped T 0 os ->
  forall i r, In (i, r) (observed T os) -> r = meaning T os i /\ r <> None.
Proof.
  intros os F SC WS i r H. assert (r <> None).
  { unfold observed in H. destruct (run T (start T) os) as [obs w'] eqn:R. apply (run_live os [] (start T) obs w' live_start F) with (i := i); auto. }
  split; auto. destruct r as [c|]; [|congruence]. symmetry. eapply safe; eauto using fresh_case_safe.
Qed.
End P.
