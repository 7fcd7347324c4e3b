(** Proofs about converge, the collective library and the driver's collection. *)
From Coq Require Import List Bool Arith Lia Sorted.
From Verif Require Import SimpModel SimpSpec SimpProofs.
Import ListNotations.
Local Open Scope nat_scope.

Lemma mapO_nth {A B : Type} (f : A -> option B) l ys : mapO f l = Some ys -> length ys = length l /\ forall i a, nth_error l i = Some a -> exists b, nth_error ys i = Some b /\ f a = Some b.
Proof.
  revert ys. induction l as [|x l IH]; intros ys H; cbn in H.
  - injection H as <-. split; [reflexivity|]. intros [|i] a E; discriminate E.
  - destruct (f x) as [b|] eqn:Ef; [|discriminate H]. destruct (mapO f l) as [bs|]; [|discriminate H]. injection H as <-. destruct (IH bs eq_refl) as [L K].
    split; [cbn; congruence|]. intros [|i] a E; [injection E as <-; exists b; auto|]. apply K, E.
Qed.
Lemma mapO_total {A B : Type} (f : A -> option B) l : (forall a, In a l -> exists b, f a = Some b) -> exists ys, mapO f l = Some ys.
Proof.
  induction l as [|x l IH]; intros H; [exists []; reflexivity|]. cbn. destruct (H x (or_introl eq_refl)) as (b & ->). destruct IH as (ys & ->); [intros a Ha; apply H; right; exact Ha|]. eauto.
Qed.

Lemma nth_error_ext_ {A : Type} (l l' : list A) : (forall i, nth_error l i = nth_error l' i) -> l = l'.
Proof.
  revert l'. induction l as [|a l IH]; intros [|b l'] H; [reflexivity|discriminate (H 0)|discriminate (H 0)|]. pose proof (H 0) as E. injection E as ->. f_equal. apply IH. intros i. apply (H (S i)).
Qed.

Lemma seq_sorted a k : StronglySorted lt (seq a k).
Proof.
  revert a. induction k as [|k IH]; intros a; cbn; constructor; [apply IH|]. apply Forall_forall. intros x Hx. apply in_seq in Hx. lia.
Qed.
Lemma filter_sorted f l : StronglySorted lt l -> StronglySorted lt (filter f l).
Proof.
  induction 1 as [|a l S IH F]; [constructor|]. cbn. destruct (f a); [|exact IH]. constructor; [exact IH|]. rewrite Forall_forall in *. intros x Hx. apply filter_In in Hx. apply F, Hx.
Qed.
Lemma norm_sorted l : StronglySorted lt (norm l).
Proof. apply filter_sorted, seq_sorted. Qed.
Lemma sorted_ext l l' : StronglySorted lt l -> StronglySorted lt l' -> (forall r, In r l <-> In r l') -> l = l'.
Proof.
  intros S. revert l'. induction S as [|a l S IH F]; intros l' S' H.
  - destruct l' as [|b l']; [reflexivity|]. exfalso. apply (H b). left. reflexivity.
  - destruct S' as [|b l' S' F']; [exfalso; apply (H a); left; reflexivity|]. rewrite Forall_forall in F, F'.
    assert (a = b) as ->. { destruct (proj1 (H a) (or_introl eq_refl)) as [E|E]; [congruence|]. destruct (proj2 (H b) (or_introl eq_refl)) as [E2|E2]; [congruence|]. specialize (F b E2). specialize (F' a E). lia. }
    f_equal. apply IH; [exact S'|]. intros r. specialize (H r). split; intros Hr.
    + destruct (proj1 H (or_intror Hr)) as [E|E]; [|exact E]. subst. specialize (F r Hr). lia.
    + destruct (proj2 H (or_intror Hr)) as [E|E]; [|exact E]. subst. specialize (F' r Hr). lia.
Qed.

Section P.
Context {VT V : Type}.
Variable vt_eqb : VT -> VT -> bool.
Variable n : nat.
Notation mptype := (mptype VT). Notation mpval := (mpval V). Notation object := (object VT V).

Lemma shuffle_sound (x y : object) rt : shuffle_static VT V n x rt = Some y ->
  rt <> [] /\ fst y = MP _ (vt _ (fst x)) (Some (norm (map fst rt))) /\ forall r, r < n -> snd y r = match dict_get rt r with Some s => snd x s | None => None end.
Proof.
  unfold shuffle_static, type_shuffle, run_shuffle. intros H. destruct rt as [|e rt0]; [discriminate H|]. remember (e :: rt0) as rt. split; [subst; discriminate|].
  destruct (match parties VT (fst x) with None => true | Some p => _ end); [|discriminate H].
  destruct (_ && _); [|discriminate H]. injection H as <-. split; reflexivity || (intros; reflexivity).
Qed.
Lemma shuffle_accepts (x : object) rt P : rt <> [] -> parties _ (fst x) = Some P -> (forall t s, In (t, s) rt -> In s P /\ s < n /\ t < n) -> 
  exists y, shuffle_static VT V n x rt = Some y /\ fst y = MP _ (vt _ (fst x)) (Some (norm (map fst rt))) /\ forall r, snd y r = match dict_get rt r with Some s => snd x s | None => None end.
Proof.
  intros Hn HP H. unfold shuffle_static, type_shuffle, run_shuffle. destruct rt as [|e rt0]; [congruence|]. remember (e :: rt0) as rt. rewrite HP.
  replace (forallb (fun ts => inb (snd ts) P) rt) with true; [|symmetry; apply forallb_forall; intros [t s] Hi; apply inb_In; apply (H t s Hi)].
  replace (forallb (fun r => match dict_get rt r with Some s => negb (all_act r) || all_act s && (s <? n) | None => true end) (ranks n)) with true.
  - replace (forallb _ rt) with true; [cbn [andb]; eexists; split; [reflexivity|split; [reflexivity|intros; reflexivity]]|].
    symmetry. apply forallb_forall. intros [t s] Hi. destruct (H t s Hi) as (_ & A & B). cbn [fst snd]. apply Nat.ltb_lt in B. rewrite B, orb_true_r. reflexivity.
  - symmetry. apply forallb_forall. intros r _. destruct (dict_get rt r) as [s|] eqn:D; [|reflexivity]. apply dict_get_Some in D. cbn. apply Nat.ltb_lt. apply (H r s D).
Qed.
Lemma dict_get_fromkeys ks v r : dict_get (fromkeys ks v) r = if inb r ks then Some v else None.
Proof.
  destruct (dict_get (fromkeys ks v) r) as [s|] eqn:D.
  - apply dict_get_Some in D. unfold fromkeys in D. apply in_map_iff in D. destruct D as (k & E & Hk). injection E as -> ->. apply inb_In in Hk. rewrite Hk. reflexivity.
  - apply dict_get_None in D. replace (map fst (fromkeys ks v)) with ks in D; [apply inb_false in D; rewrite D; reflexivity|].
    unfold fromkeys. rewrite map_map. cbn. symmetry. apply map_id.
Qed.
Lemma fst_fromkeys ks v : map fst (fromkeys ks v) = ks.
Proof. unfold fromkeys. rewrite map_map. cbn. apply map_id. Qed.

(** every target gets the source's value: transfer, replicate, collect and allreplicate *)
Lemma fromkeys_sound (x : object) ks s P : ks <> [] -> parties _ (fst x) = Some P -> In s P -> s < n -> (forall k, In k ks -> k < n) ->
  exists y, shuffle_static VT V n x (fromkeys ks s) = Some y /\ vt _ (fst y) = vt _ (fst x) /\ held_by y ks (fun _ => snd x s).
Proof.
  intros Hk HP Hs Hsn Hkn. destruct (shuffle_accepts x (fromkeys ks s) P) as (y & Ey & Ty & Vy).
  - intros E. apply Hk. rewrite <- (fst_fromkeys ks s), E. reflexivity.
  - exact HP.
  - intros t s' Hi. unfold fromkeys in Hi. apply in_map_iff in Hi. destruct Hi as (k & E & Hk'). injection E as <- <-. auto.
  - exists y. split; [exact Ey|]. rewrite Ty. split; [reflexivity|]. unfold held_by. rewrite Ty, fst_fromkeys. split; [|split].
    + eexists. split; [reflexivity|]. split; [apply norm_sorted|]. intros r. apply norm_In.
    + intros r Hr. rewrite Vy, dict_get_fromkeys. apply inb_In in Hr. rewrite Hr. reflexivity.
    + intros r Hr. rewrite Vy, dict_get_fromkeys. apply inb_false in Hr. rewrite Hr. reflexivity.
Qed.

Lemma first_held_spec (vs : list mpval) r : run_converge V vs r = first_held vs r.
Proof. induction vs as [|v vs IH]; [reflexivity|]. cbn. rewrite <- IH. reflexivity. Qed.

Lemma pairwise_disjoint_spec ps : pairwise_disjoint ps = true <-> ForallOrdPairs disjoint ps.
Proof.
  induction ps as [|p ps IH]; cbn; [split; [constructor|reflexivity]|]. rewrite andb_true_iff, IH, forallb_forall. split.
  - intros [H K]. constructor; [|exact K]. apply Forall_forall. intros q Hq r Hr Hrq. specialize (H q Hq). rewrite forallb_forall in H. specialize (H r Hr). apply inb_In in Hrq. rewrite Hrq in H. discriminate H.
  - intros H. inversion H; subst. split; [|assumption]. intros q Hq. apply forallb_forall. intros r Hr. rewrite Forall_forall in H2. specialize (H2 q Hq r Hr). apply inb_false in H2. rewrite H2. reflexivity.
Qed.

Hypothesis vt_eqb_spec : forall a b : VT, vt_eqb a b = true <-> a = b.

(** a converge of statically typed arguments *)
Lemma converge_iff ts (ps : list (list nat)) : map (parties VT) ts = map Some ps ->
  ((exists t, type_converge VT vt_eqb ts = Some t) <-> ts <> [] /\ (forall t u, In t ts -> In u ts -> vt _ t = vt _ u) /\ ForallOrdPairs disjoint ps).
Proof.
  intros E. destruct ts as [|t0 rest]; [cbn; split; [intros (t & H); discriminate H|intros [H _]; congruence]|].
  unfold type_converge. 
  assert (existsb (fun t : mptype => match parties _ t with None => true | _ => false end) (t0 :: rest) = false) as D.
  { destruct (existsb _ (t0 :: rest)) eqn:D; [|reflexivity]. exfalso. apply existsb_exists in D. destruct D as (u & Hu & Hd).
    assert (In (parties VT u) (map Some ps)) as Hi by (rewrite <- E; apply in_map, Hu). apply in_map_iff in Hi. destruct Hi as (p & Hp & _). rewrite <- Hp in Hd. discriminate Hd. }
  rewrite D.
  assert (map (fun t : mptype => match parties _ t with Some p => p | None => [] end) (t0 :: rest) = ps) as EP.
  { clear D. revert ps E. generalize (t0 :: rest) as l. induction l as [|u l IH]; intros [|p ps] E; try discriminate E; [reflexivity|]. cbn in E. injection E as E1 E2. cbn. rewrite E1. f_equal. apply IH, E2. }
  rewrite EP.
  assert (forallb (fun u : mptype => vt_eqb (vt _ u) (vt _ t0)) rest = true <-> forall t u, In t (t0 :: rest) -> In u (t0 :: rest) -> vt _ t = vt _ u) as EV.
  { rewrite forallb_forall. split.
    - intros H. assert (forall t, In t (t0 :: rest) -> vt _ t = vt _ t0) as G by (intros t [<-|Ht]; [reflexivity|apply vt_eqb_spec, H, Ht]). intros t u Ht Hu. rewrite (G t Ht), (G u Hu). reflexivity.
    - intros H u Hu. apply vt_eqb_spec. apply H; [right; exact Hu|left; reflexivity]. }
  rewrite <- EV, <- pairwise_disjoint_spec.
  destruct (forallb (fun u : mptype => vt_eqb (vt _ u) (vt _ t0)) rest); [|split; [intros (t & H); discriminate H|intros (_ & H & _); discriminate H]].
  destruct (pairwise_disjoint ps); [|split; [intros (t & H); discriminate H|intros (_ & _ & H); discriminate H]].
  split; [intros _; split; [discriminate|auto]|intros _; eauto].
Qed.
Lemma converge_type ts (ps : list (list nat)) t : map (parties VT) ts = map Some ps -> type_converge VT vt_eqb ts = Some t ->
  (forall u, In u ts -> vt _ t = vt _ u) /\
  ((concat ps = [] /\ parties _ t = None) \/ (concat ps <> [] /\ exists P, parties _ t = Some P /\ StronglySorted lt P /\ forall r, In r P <-> In r (concat ps))).
Proof.
  intros E H. pose proof (proj1 (converge_iff ts ps E) (ex_intro _ t H)) as (_ & HV & _).
  assert (map (fun t : mptype => match parties _ t with Some p => p | None => [] end) ts = ps) as EP.
  { clear H HV. revert ps E. induction ts as [|u l IH]; intros [|p ps] E; try discriminate E; [reflexivity|]. cbn in E. injection E as E1 E2. cbn. rewrite E1. f_equal. apply IH, E2. }
  unfold type_converge in H. destruct ts as [|t0 rest]; [discriminate H|]. destruct (forallb _ rest); [|discriminate H].
  destruct (existsb _ (t0 :: rest)) eqn:D.
  { exfalso. apply existsb_exists in D. destruct D as (u & Hu & Hd).
    assert (In (parties VT u) (map Some ps)) as Hi by (rewrite <- E; apply in_map, Hu). apply in_map_iff in Hi. destruct Hi as (p & Hp & _). rewrite <- Hp in Hd. discriminate Hd. }
  rewrite EP in H. destruct (pairwise_disjoint ps); [|discriminate H]. injection H as <-. cbn [vt parties]. split.
  - intros u Hu. apply HV; [left; reflexivity|exact Hu].
  - destruct (concat ps) as [|a l] eqn:Ec; [left; auto|right]. split; [discriminate|]. eexists. split; [reflexivity|]. split; [apply norm_sorted|]. intros r. apply norm_In.
Qed.

Lemma converge_values (xs : list object) (y : object) :
  (forall x r, In x xs -> exists P, parties _ (fst x) = Some P /\ (In r P <-> snd x r <> None)) ->
  converge VT V vt_eqb xs = Some y ->
  (forall x P r, In x xs -> parties _ (fst x) = Some P -> In r P -> snd y r = snd x r) /\
  (forall r, (forall x, In x xs -> snd x r = None) -> snd y r = None).
Proof.
  intros Hex H. unfold converge in H. destruct (type_converge VT vt_eqb (map fst xs)) as [t|] eqn:T; [|discriminate H]. injection H as <-. cbn [snd].
  assert (exists ps, map (parties VT) (map fst xs) = map Some ps) as (ps & Eps).
  { clear T. induction xs as [|x xs IH]; [exists []; reflexivity|]. destruct IH as (ps & E); [intros z r Hz; apply Hex; right; exact Hz|].
    destruct (Hex x 0 (or_introl eq_refl)) as (P & HP & _). exists (P :: ps). cbn. rewrite HP, E. reflexivity. }
  destruct (proj1 (converge_iff _ ps Eps) (ex_intro _ t T)) as (_ & _ & FO). clear T t.
  split.
  - intros x P r Hx HP Hr. rewrite first_held_spec. revert ps Eps FO. induction xs as [|z xs IH]; intros ps Eps FO; [destruct Hx|].
    destruct ps as [|q ps]; [discriminate Eps|]. cbn in Eps. injection Eps as Ez Eps. inversion FO as [|? ? F FO']; subst. cbn [map first_held].
    destruct (Hex z r (or_introl eq_refl)) as (Pz & HPz & EPz). destruct Hx as [->|Hx].
    + destruct (snd x r) eqn:Exr; [reflexivity|]. exfalso. rewrite HP in HPz. injection HPz as <-. apply EPz in Hr. congruence.
    + destruct (snd z r) eqn:Ezr.
      * exfalso. rewrite HPz in Ez. injection Ez as ->. rewrite Forall_forall in F. refine (F P _ r _ Hr); [|apply (EPz); congruence].
        assert (In (Some P) (map Some ps)) as Hi by (rewrite <- Eps, map_map; apply in_map_iff; exists x; auto). apply in_map_iff in Hi. destruct Hi as (p' & E & Hp'). injection E as ->. exact Hp'.
      * apply (IH (fun w r' Hw => Hex w r' (or_intror Hw)) Hx ps Eps FO').
  - intros r Hr. apply run_converge_None. apply Forall_forall. intros v Hv. apply in_map_iff in Hv. destruct Hv as (x & <- & Hx). apply Hr, Hx.
Qed.

Lemma norm_single i : norm [i] = [i].
Proof.
  unfold norm. cbn [list_max fold_right]. rewrite Nat.max_0_r.
  assert (forall a k, a <= i -> a + k = S i -> filter (fun r => existsb (Nat.eqb r) [i]) (seq a k) = [i]) as G.
  { intros a k. revert a. induction k as [|k IH]; intros a Ha Hk; [lia|]. cbn [seq filter existsb]. destruct (Nat.eqb_spec a i) as [->|Ne].
    - cbn [orb]. replace k with 0 by lia. reflexivity.
    - cbn [orb]. apply IH; lia. }
  apply G; lia.
Qed.

Lemma distribute_sound (xs : list object) frm : xs <> [] -> (forall x, In x xs -> parties _ (fst x) = Some [frm]) -> (forall x y, In x xs -> In y xs -> vt _ (fst x) = vt _ (fst y)) ->
  frm < n -> length xs <= n ->
  exists y, distribute VT V vt_eqb n xs frm = Some y /\ held_by y (seq 0 (length xs)) (fun i => match nth_error xs i with Some x => snd x frm | None => None end).
Proof.
  intros Hne Hp Hv Hf Hl. unfold distribute. destruct xs as [|x0 xs0] eqn:Exs; [congruence|]. rewrite <- Exs in *. clear Exs x0 xs0.
  replace (forallb _ xs) with true.
  2:{ symmetry. apply forallb_forall. intros x Hx. rewrite (Hp x Hx). apply Nat.eqb_refl. }
  set (f := fun ix : nat * object => shuffle_static VT V n (snd ix) [(fst ix, frm)]).
  assert (forall i x, nth_error (combine (seq 0 (length xs)) xs) i = Some x -> fst x = i /\ nth_error xs i = Some (snd x)) as NC.
  { intros i [j x]. assert (forall a k (l : list object), nth_error (combine (seq a (length l)) l) k = Some (j, x) -> j = a + k /\ nth_error l k = Some x) as G.
    { intros a k l. revert a k. induction l as [|y l IH]; intros a [|k] H; try discriminate H.
      - cbn in H. injection H as <- <-. split; [lia|reflexivity].
      - cbn in H. apply IH in H. destruct H as [-> H]. split; [lia|exact H]. }
    intros H. apply G in H. cbn. destruct H as [-> H]. auto. }
  assert (forall ix, In ix (combine (seq 0 (length xs)) xs) -> In (snd ix) xs /\ fst ix < length xs) as NI.
  { intros ix Hi. apply In_nth_error in Hi. destruct Hi as (i & Hi). destruct (NC i ix Hi) as [E1 E2]. split; [exact (nth_error_In _ _ E2)|]. rewrite E1. apply nth_error_Some. congruence. }
  assert (forall ix, In ix (combine (seq 0 (length xs)) xs) -> exists y, f ix = Some y /\ vt _ (fst y) = vt _ (fst (snd ix)) /\ parties _ (fst y) = Some [fst ix] /\ forall r, snd y r = if r =? fst ix then snd (snd ix) frm else None) as Hf1.
  { intros ix Hi. destruct (NI ix Hi) as [Hin Hlt]. destruct (shuffle_accepts (snd ix) [(fst ix, frm)] [frm]) as (y & Ey & Ty & Vy).
    - discriminate.
    - exact (Hp _ Hin).
    - intros t s [E|[]]. injection E as <- <-. split; [left; reflexivity|]. split; [exact Hf|lia].
    - exists y. split; [exact Ey|]. rewrite Ty. split; [reflexivity|]. split; [cbn; f_equal; apply norm_single|]. intros r. rewrite Vy. unfold dict_get. cbn [find fst snd]. rewrite (Nat.eqb_sym r). destruct (fst ix =? r); reflexivity. }
  destruct (mapO_total f (combine (seq 0 (length xs)) xs)) as (pieces & EM); [intros ix Hi; destruct (Hf1 ix Hi) as (y & E & _); eauto|].
  change (fun ix : nat * object => shuffle_static VT V n (snd ix) [(fst ix, frm)]) with f. rewrite EM. destruct (mapO_nth f _ pieces EM) as [LP NP].
  rewrite combine_length, seq_length, Nat.min_id in LP.
  assert (forall i y, nth_error pieces i = Some y -> exists x, nth_error xs i = Some x /\ vt _ (fst y) = vt _ (fst x) /\ parties _ (fst y) = Some [i] /\ forall r, snd y r = if r =? i then snd x frm else None) as PI.
  { intros i y Ey. assert (i < length xs) as Hi by (rewrite <- LP; apply nth_error_Some; congruence).
    destruct (nth_error (combine (seq 0 (length xs)) xs) i) as [ix|] eqn:Eix; [|exfalso; apply nth_error_None in Eix; rewrite combine_length, seq_length, Nat.min_id in Eix; lia].
    destruct (NP i ix Eix) as (y' & Ey' & Ef). rewrite Ey in Ey'. injection Ey' as <-. destruct (NC i ix Eix) as [E1 E2].
    destruct (Hf1 ix (nth_error_In _ _ Eix)) as (y2 & Ey2 & T1 & T2 & T3). rewrite Ef in Ey2. injection Ey2 as <-. rewrite E1 in *. exists (snd ix). auto. }
  assert (map (parties VT) (map fst pieces) = map Some (map (fun i => [i]) (seq 0 (length xs)))) as PP.
  { apply nth_error_ext_. intros i. rewrite !nth_error_map. destruct (nth_error pieces i) as [y|] eqn:Ey; cbn.
    - destruct (PI i y Ey) as (x & Ex & _ & Hpy & _). transitivity (Some (Some [i])); [transitivity (option_map (parties VT) (option_map fst (Some y))); [f_equal; f_equal; exact Ey|exact (f_equal Some Hpy)]|]. rewrite (nth_error_nth' _ 0), seq_nth by (try rewrite seq_length; apply nth_error_Some; congruence). reflexivity.
    - transitivity (@None (option (list nat))); [transitivity (option_map (parties VT) (option_map (@fst mptype mpval) None)); [f_equal; f_equal; exact Ey|reflexivity]|]. apply nth_error_None in Ey. replace (nth_error (seq 0 (length xs)) i) with (@None nat); [reflexivity|]. symmetry. apply nth_error_None. rewrite seq_length. lia. }
  assert (concat (map (fun i => [i]) (seq 0 (length xs))) = seq 0 (length xs)) as CC by (generalize (seq 0 (length xs)); intros l; induction l as [|a l IH]; [reflexivity|cbn; f_equal; exact IH]).
  unfold converge. destruct (type_converge VT vt_eqb (map fst pieces)) as [t|] eqn:ET.
  - exists (t, run_converge V (map snd pieces)). split; [reflexivity|]. destruct (converge_type _ _ t PP ET) as [_ D]. rewrite CC in D.
    assert (forall r, run_converge V (map snd pieces) r = match nth_error pieces r with Some y => snd y r | None => None end) as RV.
    { intros r. rewrite first_held_spec.
      assert (forall k (l : list object), (forall i y, nth_error l i = Some y -> forall r, r <> k + i -> snd y r = None) -> k <= r -> first_held (map snd l) r = match nth_error l (r - k) with Some y => snd y r | None => None end) as G.
      { intros k l. revert k. induction l as [|y l IH]; intros k Hk Hle; [cbn; destruct (r - k); reflexivity|]. cbn [map first_held]. destruct (Nat.eq_dec r k) as [->|Ne].
        - rewrite Nat.sub_diag. cbn [nth_error]. destruct (snd y k) eqn:Ey; [reflexivity|]. rewrite <- first_held_spec. apply run_converge_None. apply Forall_forall. intros v Hv'. apply in_map_iff in Hv'. destruct Hv' as (z & <- & Hz).
          apply In_nth_error in Hz. destruct Hz as (i & Hi). apply (Hk (S i) z Hi). lia.
        - rewrite (Hk 0 y eq_refl r) by lia. rewrite (IH (S k)); [|intros i z Hz r' Hr'; apply (Hk (S i) z Hz); lia|lia]. replace (r - k) with (S (r - S k)) by lia. reflexivity. }
      rewrite (G 0 pieces); [rewrite Nat.sub_0_r; reflexivity| |lia]. intros i y Hy r' Hr'. destruct (PI i y Hy) as (x & _ & _ & _ & ->). destruct (Nat.eqb_spec r' i); [lia|reflexivity]. }
    split; [|split].
    + destruct D as [[C _]|[_ (P & HP & HI)]]; [|exists P; auto]. exfalso. destruct xs; [congruence|discriminate C].
    + intros r Hr. cbn [snd]. rewrite RV. apply in_seq in Hr. destruct (nth_error pieces r) as [y|] eqn:Ey; [|apply nth_error_None in Ey; lia].
      destruct (PI r y Ey) as (x & -> & _ & _ & ->). rewrite Nat.eqb_refl. reflexivity.
    + intros r Hr. cbn [snd]. rewrite RV. destruct (nth_error pieces r) as [y|] eqn:Ey; [|reflexivity]. exfalso. apply Hr. apply in_seq. assert (r < length pieces) by (apply nth_error_Some; congruence). lia.
  - exfalso. assert (exists t, type_converge VT vt_eqb (map fst pieces) = Some t) as (t & Ht); [|congruence]. apply (converge_iff _ _ PP). split; [|split].
    + intros C. apply Hne. destruct pieces; [destruct xs; [reflexivity|discriminate LP]|discriminate C].
    + intros a b Ha Hb. apply in_map_iff in Ha. destruct Ha as (ya & <- & Ia). apply in_map_iff in Hb. destruct Hb as (yb & <- & Ib).
      apply In_nth_error in Ia. destruct Ia as (i & Ia). apply In_nth_error in Ib. destruct Ib as (j & Ib).
      destruct (PI i ya Ia) as (xa & Exa & -> & _). destruct (PI j yb Ib) as (xb & Exb & -> & _). apply Hv; eapply nth_error_In; eassumption.
    + generalize (seq_NoDup (length xs) 0). generalize (seq 0 (length xs)). intros l ND. induction ND as [|a l Ha ND IH]; cbn; constructor; [|exact IH].
      apply Forall_forall. intros q Hq. apply in_map_iff in Hq. destruct Hq as (b & <- & Hb). intros r [<-|[]] [<-|[]]. contradiction.
Qed.
End P.

Lemma seq_nth_error a k i : i < k -> nth_error (seq a k) i = Some (a + i).
Proof. intros H. rewrite (nth_error_nth' _ 0) by (rewrite seq_length; exact H). rewrite seq_nth by exact H. reflexivity. Qed.

(* ---------------------------------------------------------------- driver *)
Lemma collect_hostvars_spec {A : Type} (results : list (option (list (option A)))) k ys : collect_to_hostvars results k = Some ys ->
  length ys = k /\ forall j y, nth_error ys j = Some y -> length y = length results /\
    forall i, nth_error y i = match nth_error results i with Some (Some l) => nth_error l j | Some None => Some None | None => None end.
Proof.
  unfold collect_to_hostvars. intros H. destruct (mapO_nth _ _ _ H) as [L K]. rewrite seq_length in L. split; [exact L|]. intros j y Ey.
  assert (j < k) as Hj by (rewrite <- L; apply nth_error_Some; congruence).
  destruct (K j j) as (y' & Ey' & E); [rewrite (nth_error_nth' _ 0), seq_nth by (try rewrite seq_length; exact Hj); reflexivity|]. rewrite Ey in Ey'. injection Ey' as <-.
  destruct (mapO_nth _ _ _ E) as [L2 K2]. split; [exact L2|]. intros i. destruct (nth_error results i) as [res|] eqn:Er.
  - destruct (K2 i res Er) as (b & Eb & F). rewrite Eb. destruct res as [l|]; [symmetry; exact F|symmetry; exact F].
  - apply nth_error_None in Er. apply nth_error_None. lia.
Qed.
Lemma collect_hostvars_total {A : Type} (results : list (option (list (option A)))) k :
  (forall l, In (Some l) results -> k <= length l) -> exists ys, collect_to_hostvars results k = Some ys.
Proof.
  intros H. unfold collect_to_hostvars. apply mapO_total. intros j Hj. apply in_seq in Hj. apply mapO_total. intros [l|] Hl; [|eauto].
  specialize (H l Hl). destruct (nth_error l j) eqn:E; [eauto|]. apply nth_error_None in E. lia.
Qed.

Lemma dispatch_spec {A : Type} world (worker : nat -> list (option A) -> option (list (option A))) args k ys :
  dispatch world worker args k = Some ys ->
  length ys = k /\ forall j y, nth_error ys j = Some y -> length y = world /\ forall i, i < world ->
    exists inputs outs, length inputs = length args /\ (forall a arg, nth_error args a = Some arg -> nth_error inputs a = party_input i arg) /\
      worker i inputs = Some outs /\ nth_error y i = nth_error outs j.
Proof.
  unfold dispatch. destruct (mapO _ (seq 0 world)) as [results|] eqn:M; [|discriminate]. intros H. destruct (mapO_nth _ _ _ M) as [LM KM]. rewrite seq_length in LM.
  destruct (collect_hostvars_spec results k ys H) as [L K]. split; [exact L|]. intros j y Ey. destruct (K j y Ey) as [Ly Vy]. split; [congruence|]. intros i Hi.
  assert (j < k) as Hj by (rewrite <- L; apply nth_error_Some; congruence).
  destruct (KM i i (seq_nth_error 0 world i Hi)) as (res & Er & F).
  destruct (mapO (party_input i) args) as [inputs|] eqn:MI; [|discriminate F]. destruct (worker i inputs) as [outs|] eqn:W; [|discriminate F]. injection F as <-.
  destruct (mapO_nth _ _ _ MI) as [LI KI]. exists inputs, outs. split; [exact LI|]. split; [|split; [exact W|]].
  - intros a arg Ea. destruct (KI a arg Ea) as (b & Eb & Ef). rewrite Eb, Ef. reflexivity.
  - rewrite Vy, Er. destruct (k =? 0) eqn:Ek; [apply Nat.eqb_eq in Ek; lia|]. reflexivity.
Qed.
Lemma dispatch_total {A : Type} world (worker : nat -> list (option A) -> option (list (option A))) args k :
  (forall l, In (DVar l) args -> length l = world) ->
  (forall i inputs, i < world -> length inputs = length args -> exists outs, worker i inputs = Some outs /\ length outs = k) ->
  exists ys, dispatch world worker args k = Some ys.
Proof.
  intros HA HW. unfold dispatch.
  assert (forall i, i < world -> exists inputs, mapO (party_input i) args = Some inputs /\ length inputs = length args) as HI.
  { intros i Hi. destruct (mapO_total (party_input i) args) as (inputs & E).
    - intros [l|a] Ha; cbn; [|eauto]. specialize (HA l Ha). destruct (nth_error l i) eqn:E; [eauto|]. apply nth_error_None in E. lia.
    - exists inputs. split; [exact E|]. exact (proj1 (mapO_nth _ _ _ E)). }
  match goal with |- context [mapO ?f (seq 0 world)] => destruct (mapO_total f (seq 0 world)) as (results & M) end.
  - intros i Hi. apply in_seq in Hi. destruct (HI i ltac:(lia)) as (inputs & -> & L). destruct (HW i inputs ltac:(lia) L) as (outs & -> & _). eauto.
  - rewrite M. apply collect_hostvars_total. intros l Hl. apply In_nth_error in Hl. destruct Hl as (i & Hl). destruct (mapO_nth _ _ _ M) as [LM KM]. rewrite seq_length in LM.
    assert (i < world) as Hi by (rewrite <- LM; apply nth_error_Some; congruence). destruct (KM i i (seq_nth_error 0 world i Hi)) as (res & Er & F). rewrite Hl in Er. injection Er as <-.
    destruct (HI i Hi) as (inputs & E & L). rewrite E in F. destruct (HW i inputs Hi L) as (outs & Eo & Lo). rewrite Eo in F. destruct (k =? 0); [discriminate F|]. injection F as <-. lia.
Qed.
