(** Message keys of one party are never reused. *)
From Coq Require Import List Arith String Ascii Lia Bool.
From Coq Require Import DecimalString DecimalNat Decimal.
From Verif Require Import CtxModel.
Import ListNotations.
Local Open Scope string_scope.
Local Open Scope list_scope.

Definition digit (c : ascii) : bool := (Nat.leb 48 (nat_of_ascii c) && Nat.leb (nat_of_ascii c) 57)%nat.
Fixpoint all_digits (s : string) : bool := match s with EmptyString => true | String c s' => digit c && all_digits s' end.
Lemma show_digits n : all_digits (show n) = true.
Proof. unfold show. induction (Nat.to_uint n); cbn; auto. Qed.
Lemma show_inj n m : show n = show m -> n = m.
Proof.
  unfold show. intros H. apply (f_equal NilEmpty.uint_of_string) in H. rewrite !NilEmpty.usu in H. injection H as H.
  apply Unsigned.to_uint_inj, H.
Qed.
Lemma app_inv_l s a b : s +++ a = s +++ b -> a = b.
Proof. induction s as [|c s IH]; cbn; [auto|]. intros H. injection H as H. auto. Qed.
Lemma app_assoc_s a b c : (a +++ b) +++ c = a +++ (b +++ c).
Proof. induction a as [|x a IH]; cbn; [reflexivity|]. now rewrite IH. Qed.

(** A digit run is determined by the string it starts, if a non-digit follows. *)
Lemma digits_split d1 : forall d2 c1 c2 s1 s2, all_digits d1 = true -> all_digits d2 = true -> digit c1 = false -> digit c2 = false ->
  d1 +++ String c1 s1 = d2 +++ String c2 s2 -> d1 = d2 /\ String c1 s1 = String c2 s2.
Proof.
  induction d1 as [|a d1 IH]; intros [|b d2] c1 c2 s1 s2 H1 H2 N1 N2 E; cbn [append] in E.
  - auto.
  - cbn in H2. apply andb_true_iff in H2. injection E as E1 E2. subst. destruct H2. congruence.
  - cbn in H1. apply andb_true_iff in H1. injection E as E1 E2. subst. destruct H1. congruence.
  - cbn in H1, H2. apply andb_true_iff in H1, H2. destruct H1, H2. injection E as <- E2.
    destruct (IH d2 c1 c2 s1 s2) as [-> G]; auto.
Qed.

(** Contexts by address: the list of spawn numbers from the root; sfx gives the suffixes. *)
Section Tree.
  Variable sfx : list nat -> option string.
  (** the part of a child id after its parent's id, for the child at address [rev] (reversed) *)
  Definition ext (path : list nat) (n : nat) : string :=
    match sfx (path ++ [n]) with None => "." +++ show n | Some s => "." +++ show n +++ "." +++ s end.
  Fixpoint below (path rest : list nat) : string :=
    match rest with [] => "" | n :: rest' => ext path n +++ below (path ++ [n]) rest' end.
  Definition key_of (path rest : list nat) (q : nat) : string := below path rest +++ ":" +++ show q.


  Definition delim (s : string) : Prop := exists c r, s = String c r /\ digit c = false.
  Lemma delim_key path rest q : delim (key_of path rest q).
  Proof.
    unfold key_of. destruct rest as [|n rest]; cbn [below].
    - exists ":"%char, (show q). split; reflexivity.
    - unfold ext. destruct (sfx (path ++ [n])); eexists _, _; (split; [cbn [append]; reflexivity|reflexivity]).
  Qed.
  Lemma key_cons path n rest q : exists s, delim s /\ key_of path (n :: rest) q = "." +++ (show n +++ s) /\
    match sfx (path ++ [n]) with None => s = key_of (path ++ [n]) rest q | Some x => s = "." +++ (x +++ key_of (path ++ [n]) rest q) end.
  Proof.
    unfold key_of at 1. cbn [below]. unfold ext. destruct (sfx (path ++ [n])) as [x|].
    - exists ("." +++ (x +++ key_of (path ++ [n]) rest q)). split; [eexists _, _; split; reflexivity|]. split; [|reflexivity].
      unfold key_of. now rewrite !app_assoc_s.
    - exists (key_of (path ++ [n]) rest q). split; [apply delim_key|]. split; [|reflexivity]. unfold key_of. now rewrite !app_assoc_s.
  Qed.

  Lemma key_inj r1 : forall path r2 q1 q2, key_of path r1 q1 = key_of path r2 q2 -> r1 = r2 /\ q1 = q2.
  Proof.
    induction r1 as [|n1 r1 IH]; intros path [|n2 r2] q1 q2 E.
    - unfold key_of in E. cbn in E. injection E as E. apply show_inj in E. auto.
    - exfalso. destruct (key_cons path n2 r2 q2) as [s [_ [K _]]]. rewrite K in E. unfold key_of in E. cbn in E. discriminate.
    - exfalso. destruct (key_cons path n1 r1 q1) as [s [_ [K _]]]. rewrite K in E. unfold key_of in E. cbn in E. discriminate.
    - destruct (key_cons path n1 r1 q1) as [s1 [[c1 [t1 [-> D1]]] [K1 S1]]].
      destruct (key_cons path n2 r2 q2) as [s2 [[c2 [t2 [-> D2]]] [K2 S2]]].
      rewrite K1, K2 in E. apply app_inv_l in E. apply digits_split in E; auto using show_digits.
      destruct E as [E1 E2]. apply show_inj in E1. subst n2. rewrite E2 in S1.
      assert (G : key_of (path ++ [n1]) r1 q1 = key_of (path ++ [n1]) r2 q2).
      { destruct (sfx (path ++ [n1])) as [x|]; [|congruence]. rewrite S1 in S2. apply app_inv_l, app_inv_l in S2. exact S2. }
      apply IH in G. destruct G. subst. auto.
  Qed.
End Tree.

Lemma upd_length {A} (l : list A) i x : List.length (upd l i x) = List.length l.
Proof. revert i; induction l as [|a l IH]; intros [|i]; cbn; auto. Qed.
Lemma upd_nth {A} (l : list A) i j x : i < List.length l -> nth_error (upd l i x) j = if Nat.eqb j i then Some x else nth_error l j.
Proof.
  revert i j; induction l as [|a l IH]; intros [|i] [|j] H; cbn in *; try lia; auto. apply IH. lia.
Qed.
Lemma nth_snoc {A} (l : list A) x j : nth_error (l ++ [x]) j = if Nat.eqb j (List.length l) then Some x else nth_error l j.
Proof.
  destruct (Nat.eqb_spec j (List.length l)) as [->|N].
  - rewrite nth_error_app2 by lia. now rewrite Nat.sub_diag.
  - destruct (Nat.lt_ge_cases j (List.length l)).
    + apply nth_error_app1. lia.
    + rewrite nth_error_app2 by lia. replace (nth_error l j) with (@None A) by (symmetry; apply nth_error_None; lia).
      apply nth_error_None. cbn. lia.
Qed.

(** The address of each context created by a history, and the suffix table. *)
Record cinv (root : string) (h : list ctx) (log : list use) (addr : nat -> list nat) (sfx : list nat -> option string) : Prop := {
  ci_id : forall i c, nth_error h i = Some c -> cid c = root +++ below sfx [] (addr i);
  ci_inj : forall i j, i < List.length h -> j < List.length h -> addr i = addr j -> i = j;
  ci_child : forall i j n, i < List.length h -> j < List.length h -> addr j = addr i ++ [n] ->
     exists c, nth_error h i = Some c /\ n < cspawn c;
  ci_log : forall i p k, In (i, p, k) log -> exists c q, nth_error h i = Some c /\ q < cseq c p /\ k = root +++ key_of sfx [] (addr i) q;
  ci_nd : NoDup (map (fun u => (snd (fst u), snd u)) log)
}.

Lemma below_snoc sfx rest : forall path n, below sfx path (rest ++ [n]) = below sfx path rest +++ ext sfx (path ++ rest) n.
Proof.
  induction rest as [|a rest IH]; intros path n; cbn [below List.app].
  - rewrite app_nil_r. cbn. induction (ext sfx path n); cbn; congruence.
  - rewrite IH, app_assoc_s. rewrite <- app_assoc. reflexivity.
Qed.
Lemma below_ext sfx sfx' rest : forall path, (forall k, k <= List.length rest -> 0 < k -> sfx (path ++ firstn k rest) = sfx' (path ++ firstn k rest)) ->
  below sfx path rest = below sfx' path rest.
Proof.
  induction rest as [|a rest IH]; intros path H; [reflexivity|]. cbn [below]. f_equal.
  - unfold ext. specialize (H 1 ltac:(cbn; lia) ltac:(lia)). cbn [firstn] in H. rewrite H. reflexivity.
  - apply IH. intros k H1 H2. specialize (H (S k)). cbn [firstn] in H. rewrite <- app_assoc. cbn [List.app]. apply H; cbn; lia.
Qed.

Lemma crun_inv root ops : exists addr sfx, cinv root (fst (crun root ops)) (snd (crun root ops)) addr sfx /\
  (forall i, i < List.length (fst (crun root ops)) -> forall k, k <= List.length (addr i) -> exists j, j < List.length (fst (crun root ops)) /\ addr j = firstn k (addr i)).
Proof.
  induction ops as [|o ops IH] using rev_ind.
  - exists (fun _ => []), (fun _ => None). cbn. split; [constructor|].
    + intros [|i] c H; [|destruct i; discriminate]. injection H as <-. cbn. induction root; cbn; congruence.
    + cbn. lia.
    + intros i j n _ _ H. discriminate H.
    + intros i p k [].
    + constructor.
    + intros i Hi k Hk. exists 0. split; [lia|]. now rewrite firstn_nil.
  - destruct IH as [addr [sfx [HI HC]]]. unfold crun in *. rewrite fold_left_app. cbn [fold_left].
    destruct (fold_left cexec ops ([new_ctx root], [])) as [h log]. cbn [fst snd] in *.
    destruct HI as [H1 H2 H3 H4 H5]. destruct o as [i s|i p]; cbn [cexec].
    + destruct (nth_error h i) as [c|] eqn:Ei; [|exists addr, sfx; split; [constructor; assumption|assumption]].
      cbn [fst snd]. assert (Hi : i < List.length h) by (apply nth_error_Some; congruence).
      set (a := addr i ++ [cspawn c]).
      assert (Fr : forall j, j < List.length h -> forall k, firstn k (addr j) <> a).
      { intros j Hj k E. assert (K : k <= List.length (addr j) \/ List.length (addr j) < k) by lia.
        assert (exists j', j' < List.length h /\ addr j' = a) as [j' [J1 J2]].
        { destruct K as [K|K]; [|rewrite firstn_all2 in E by lia; eauto]. destruct (HC j Hj k K) as [j' [J1 J2]]. exists j'. split; [exact J1|congruence]. }
        destruct (H3 i j' (cspawn c) Hi J1 J2) as [c' [C1 C2]]. assert (c' = c) by congruence. subst. lia. }
      set (addr' := fun j => if Nat.eqb j (List.length h) then a else addr j).
      set (sfx' := fun l => if list_eq_dec Nat.eq_dec l a then s else sfx l).
      assert (Old : forall j, j < List.length h -> addr' j = addr j).
      { intros j Hj. unfold addr'. destruct (Nat.eqb_spec j (List.length h)); [lia|reflexivity]. }
      assert (New : addr' (List.length h) = a) by (unfold addr'; now rewrite Nat.eqb_refl).
      assert (SE : forall j, j < List.length h -> below sfx' [] (addr j) = below sfx [] (addr j)).
      { intros j Hj. apply below_ext. intros k _ _. unfold sfx'. destruct (list_eq_dec Nat.eq_dec ([] ++ firstn k (addr j)) a) as [E|E]; [|reflexivity].
        destruct (Fr j Hj k E). }
      assert (Hlen : List.length (upd h i (Ctx (cid c) (S (cspawn c)) (cseq c)) ++ [new_ctx (child_id (cid c) (cspawn c) s)]) = S (List.length h)).
      { rewrite app_length, upd_length. cbn. lia. }
      assert (Nth : forall j, nth_error (upd h i (Ctx (cid c) (S (cspawn c)) (cseq c)) ++ [new_ctx (child_id (cid c) (cspawn c) s)]) j =
        if Nat.eqb j (List.length h) then Some (new_ctx (child_id (cid c) (cspawn c) s)) else
        if Nat.eqb j i then Some (Ctx (cid c) (S (cspawn c)) (cseq c)) else nth_error h j).
      { intros j. rewrite nth_snoc, upd_length, upd_nth by exact Hi. reflexivity. }
      exists addr', sfx'. split; [constructor|].
      * intros j cj Hj. rewrite Nth in Hj. destruct (Nat.eqb_spec j (List.length h)) as [->|Nj].
        -- injection Hj as <-. rewrite New. unfold a. cbn [new_ctx cid]. rewrite below_snoc, SE by exact Hi.
           rewrite (H1 i c Ei). unfold ext, sfx', child_id. cbn [List.app].
           destruct (list_eq_dec Nat.eq_dec (addr i ++ [cspawn c]) a) as [_|E]; [|destruct E; reflexivity].
           destruct s; rewrite !app_assoc_s; reflexivity.
        -- assert (Hl : j < List.length h).
           { destruct (Nat.eqb_spec j i) as [->|]; [exact Hi|]. apply nth_error_Some. congruence. }
           rewrite Old, SE by exact Hl. destruct (Nat.eqb_spec j i) as [->|]; [injection Hj as <-; cbn; auto|auto].
      * intros x y Hx Hy E. rewrite Hlen in Hx, Hy. destruct (Nat.eq_dec x (List.length h)) as [->|Nx]; destruct (Nat.eq_dec y (List.length h)) as [->|Ny].
        -- reflexivity.
        -- exfalso. rewrite New, Old in E by lia. apply (Fr y ltac:(lia) (List.length (addr y))). now rewrite firstn_all.
        -- exfalso. rewrite New, Old in E by lia. apply (Fr x ltac:(lia) (List.length (addr x))). now rewrite firstn_all.
        -- rewrite !Old in E by lia. apply H2; [lia|lia|exact E].
      * intros x y n Hx Hy E. rewrite Hlen in Hx, Hy. rewrite Nth. destruct (Nat.eq_dec y (List.length h)) as [->|Ny].
        -- rewrite New in E. unfold a in E. destruct (Nat.eq_dec x (List.length h)) as [->|Nx].
           ++ exfalso. rewrite New in E. unfold a in E. apply (f_equal (@List.length nat)) in E. rewrite !app_length in E. cbn in E. lia.
           ++ rewrite Old in E by lia. apply app_inj_tail in E. destruct E as [E1 E2]. subst n.
              assert (x = i) by (apply H2; [lia|lia|congruence]). subst x. destruct (Nat.eqb_spec i (List.length h)); [lia|].
              rewrite Nat.eqb_refl. eexists. split; [reflexivity|]. cbn. lia.
        -- rewrite (Old y) in E by lia. destruct (Nat.eq_dec x (List.length h)) as [->|Nx].
           ++ exfalso. rewrite New in E. apply (Fr y ltac:(lia) (List.length a)). rewrite E. rewrite firstn_app, Nat.sub_diag, firstn_all. cbn. now rewrite app_nil_r.
           ++ rewrite Old in E by lia. destruct (H3 x y n ltac:(lia) ltac:(lia) E) as [cx [C1 C2]].
              destruct (Nat.eqb_spec x (List.length h)); [lia|]. destruct (Nat.eqb_spec x i) as [->|].
              ** eexists. split; [reflexivity|]. cbn. assert (cx = c) by congruence. subst. lia.
              ** eauto.
      * intros x p k Hk. destruct (H4 x p k Hk) as [cx [q [C1 [C2 C3]]]].
        assert (Hx : x < List.length h) by (apply nth_error_Some; congruence).
        rewrite Nth. destruct (Nat.eqb_spec x (List.length h)); [lia|].
        assert (K : k = root +++ key_of sfx' [] (addr' x) q).
        { rewrite C3. unfold key_of. rewrite Old, SE by exact Hx. reflexivity. }
        destruct (Nat.eqb_spec x i) as [->|]; [eexists _, q; split; [reflexivity|]; cbn; assert (cx = c) by congruence; subst; auto|eauto].
      * exact H5.
      * intros x Hx k Hk. rewrite Hlen in *. destruct (Nat.eq_dec x (List.length h)) as [->|Nx].
        -- rewrite New in *. unfold a in *. rewrite app_length in Hk. cbn in Hk.
           destruct (Nat.eq_dec k (S (List.length (addr i)))) as [->|Nk].
           ++ exists (List.length h). split; [lia|]. rewrite New. unfold a. rewrite firstn_all2; [reflexivity|]. rewrite app_length. cbn. lia.
           ++ destruct (HC i Hi k ltac:(lia)) as [j [J1 J2]]. exists j. split; [lia|]. rewrite Old by exact J1. rewrite J2.
              rewrite firstn_app. replace (k - List.length (addr i)) with 0 by lia. cbn. now rewrite app_nil_r.
        -- rewrite Old in * by lia. destruct (HC x ltac:(lia) k Hk) as [j [J1 J2]]. exists j. split; [lia|]. rewrite Old by exact J1. exact J2.
    + destruct (nth_error h i) as [c|] eqn:Ei; [|exists addr, sfx; split; [constructor; assumption|assumption]].
      cbn [fst snd]. assert (Hi : i < List.length h) by (apply nth_error_Some; congruence).
      set (c' := Ctx (cid c) (cspawn c) (fun j => if Nat.eqb j p then S (cseq c p) else cseq c j)).
      exists addr, sfx. split; [constructor|].
      * intros j cj Hj. rewrite upd_nth in Hj by exact Hi. destruct (Nat.eqb_spec j i) as [->|]; [injection Hj as <-; cbn; auto|auto].
      * rewrite upd_length. exact H2.
      * rewrite upd_length. intros x y n Hx Hy E. destruct (H3 x y n Hx Hy E) as [cx [C1 C2]]. rewrite upd_nth by exact Hi.
        destruct (Nat.eqb_spec x i) as [->|]; [eexists; split; [reflexivity|]; cbn; congruence|eauto].
      * intros x p' k Hk. apply in_app_or in Hk. destruct Hk as [Hk|[Hk|[]]].
        -- destruct (H4 x p' k Hk) as [cx [q [C1 [C2 C3]]]]. rewrite upd_nth by exact Hi. destruct (Nat.eqb_spec x i) as [->|]; [|eauto].
           eexists _, q. split; [reflexivity|]. split; [|exact C3]. cbn. assert (cx = c) by congruence. subst cx.
           destruct (Nat.eqb_spec p' p); subst; lia.
        -- injection Hk as <- <- <-. rewrite upd_nth by exact Hi. rewrite Nat.eqb_refl. exists c', (cseq c p). split; [reflexivity|].
           split; [cbn; rewrite Nat.eqb_refl; lia|]. unfold msg_key, key_of. rewrite (H1 i c Ei), !app_assoc_s. reflexivity.
      * rewrite map_app. cbn [map fst snd]. apply NoDup_rev in H5. rewrite <- (rev_involutive (map _ log ++ _)). apply NoDup_rev.
        rewrite rev_app_distr. cbn [rev List.app]. constructor; [|exact H5]. rewrite <- in_rev. intros G. apply in_map_iff in G.
        destruct G as [[[x p'] k] [G1 G2]]. cbn in G1. injection G1 as -> ->.
        destruct (H4 x p _ G2) as [cx [q [C1 [C2 C3]]]]. unfold msg_key in C3. rewrite (H1 i c Ei), app_assoc_s in C3.
        apply app_inv_l in C3. change (below sfx [] (addr i) +++ ":" +++ show (cseq c p)) with (key_of sfx [] (addr i) (cseq c p)) in C3.
        apply key_inj in C3. destruct C3 as [C3 C4]. assert (x = i).
        { apply H2; [apply nth_error_Some; congruence|exact Hi|congruence]. }
        subst x. assert (cx = c) by congruence. subst cx. lia.
      * rewrite upd_length. exact HC.
Qed.

Theorem keys_never_reused root ops : NoDup (map (fun u => (snd (fst u), snd u)) (snd (crun root ops))).
Proof. destruct (crun_inv root ops) as [addr [sfx [HI _]]]. apply (ci_nd _ _ _ _ _ HI). Qed.

(** ** Agreement: keys depend only on the spawn history, the context and the count. *)
Definition spawns (ops : list cop) : list cop := filter (fun o => match o with OSpawn _ _ => true | _ => false end) ops.
Definition uses_of (i p : nat) (log : list use) : list string :=
  map snd (filter (fun u => Nat.eqb (fst (fst u)) i && Nat.eqb (snd (fst u)) p) log).

Lemma crun_ids root ops : map (fun c => (cid c, cspawn c)) (fst (crun root ops)) = map (fun c => (cid c, cspawn c)) (fst (crun root (spawns ops))).
Proof.
  induction ops as [|o ops IH] using rev_ind; [reflexivity|]. unfold spawns in *. rewrite filter_app. unfold crun in *. rewrite !fold_left_app.
  cbn [fold_left filter].
  destruct (fold_left cexec ops ([new_ctx root], [])) as [h log].
  destruct (fold_left cexec (filter _ ops) ([new_ctx root], [])) as [h' log']. cbn [fst] in IH.
  assert (NE : forall i, option_map (fun c => (cid c, cspawn c)) (nth_error h i) = option_map (fun c => (cid c, cspawn c)) (nth_error h' i)).
  { intros i. rewrite <- !nth_error_map. now rewrite IH. }
  assert (UM : forall (l : list ctx) i x, map (fun c => (cid c, cspawn c)) (upd l i x) = upd (map (fun c => (cid c, cspawn c)) l) i (cid x, cspawn x)).
  { induction l as [|a l IHl]; intros [|i] x; cbn; try reflexivity. now rewrite IHl. }
  destruct o as [i s|i p]; cbn [fold_left cexec].
  - specialize (NE i). destruct (nth_error h i) as [c|], (nth_error h' i) as [c'|]; cbn in NE; try discriminate; cbn [fst]; [|exact IH].
    injection NE as E1 E2. rewrite !map_app, !UM. cbn [map cid cspawn new_ctx]. rewrite E1, E2, IH. reflexivity.
  - destruct (nth_error h i) as [c|] eqn:Ei; [|exact IH]. cbn [fst]. rewrite UM. cbn [cid cspawn]. rewrite <- IH.
    clear - Ei. revert i Ei. induction h as [|a h IHh]; intros [|i] Ei; cbn in *; try discriminate.
    + injection Ei as ->. reflexivity.
    + now rewrite (IHh i Ei).
Qed.

Lemma ids_prefix root ops : forall o i c, nth_error (fst (crun root ops)) i = Some c ->
  exists c', nth_error (fst (crun root (ops ++ [o]))) i = Some c' /\ cid c' = cid c.
Proof.
  intros o i c H. unfold crun in *. rewrite fold_left_app. cbn [fold_left].
  destruct (fold_left cexec ops ([new_ctx root], [])) as [h log]. cbn [fst] in H.
  destruct o as [j s|j p]; cbn [cexec]; destruct (nth_error h j) as [cj|] eqn:Ej; cbn [fst]; try (exists c; auto; fail).
  - assert (Hj : j < List.length h) by (apply nth_error_Some; congruence). assert (Hi : i < List.length h) by (apply nth_error_Some; congruence).
    rewrite nth_snoc, upd_length, upd_nth by exact Hj. destruct (Nat.eqb_spec i (List.length h)); [lia|].
    destruct (Nat.eqb_spec i j) as [->|]; [|eauto]. eexists. split; [reflexivity|]. cbn. congruence.
  - assert (Hj : j < List.length h) by (apply nth_error_Some; congruence).
    rewrite upd_nth by exact Hj. destruct (Nat.eqb_spec i j) as [->|]; [|eauto]. eexists. split; [reflexivity|]. cbn. congruence.
Qed.

(** closed form of the keys used on context i with peer p *)
Lemma uses_closed root ops i p : 
  match nth_error (fst (crun root ops)) i with
  | None => uses_of i p (snd (crun root ops)) = []
  | Some c => uses_of i p (snd (crun root ops)) = map (msg_key (cid c)) (seq 0 (cseq c p))
  end.
Proof.
  induction ops as [|o ops IH] using rev_ind.
  - cbn. destruct i as [|i]; [reflexivity|]. destruct i; reflexivity.
  - unfold crun in *. rewrite fold_left_app. cbn [fold_left].
    destruct (fold_left cexec ops ([new_ctx root], [])) as [h log]. cbn [fst snd] in IH.
    destruct o as [j s|j q]; cbn [cexec]; destruct (nth_error h j) as [cj|] eqn:Ej; cbn [fst snd]; try exact IH.
    + assert (Hj : j < List.length h) by (apply nth_error_Some; congruence).
      rewrite nth_snoc, upd_length, upd_nth by exact Hj. destruct (Nat.eqb_spec i (List.length h)) as [->|].
      * replace (nth_error h (List.length h)) with (@None ctx) in IH by (symmetry; apply nth_error_None; lia). cbn. exact IH.
      * destruct (Nat.eqb_spec i j) as [->|]; [|exact IH]. rewrite Ej in IH. cbn. exact IH.
    + assert (Hj : j < List.length h) by (apply nth_error_Some; congruence).
      unfold uses_of in *. rewrite filter_app, map_app. cbn [filter map fst snd]. rewrite upd_nth by exact Hj.
      destruct (Nat.eqb_spec i j) as [->|Ni].
      * rewrite Nat.eqb_refl. cbn [andb cid cseq]. rewrite Ej in IH. rewrite (Nat.eqb_sym p q). destruct (Nat.eqb_spec q p) as [->|Nq].
        -- cbn [map snd]. rewrite seq_S, map_app. cbn [map]. exact (f_equal (fun l => l ++ [msg_key (cid cj) (cseq cj p)]) IH).
        -- cbn [map]. rewrite app_nil_r. exact IH.
      * destruct (Nat.eqb_spec j i); [congruence|]. cbn [andb map]. rewrite app_nil_r. exact IH.
Qed.

Theorem same_spawns_same_keys root opsA opsB i a b n kA kB :
  spawns opsA = spawns opsB ->
  nth_error (uses_of i b (snd (crun root opsA))) n = Some kA ->
  nth_error (uses_of i a (snd (crun root opsB))) n = Some kB -> kA = kB.
Proof.
  intros Hs HA HB. pose proof (uses_closed root opsA i b) as UA. pose proof (uses_closed root opsB i a) as UB.
  assert (E : option_map cid (nth_error (fst (crun root opsA)) i) = option_map cid (nth_error (fst (crun root opsB)) i)).
  { pose proof (crun_ids root opsA) as IA. pose proof (crun_ids root opsB) as IB. rewrite Hs in IA. rewrite <- IB in IA.
    apply (f_equal (fun l => nth_error l i)) in IA. rewrite !nth_error_map in IA.
    destruct (nth_error (fst (crun root opsA)) i), (nth_error (fst (crun root opsB)) i); cbn in *; congruence. }
  destruct (nth_error (fst (crun root opsA)) i) as [cA|]; [|rewrite UA in HA; destruct n; discriminate].
  destruct (nth_error (fst (crun root opsB)) i) as [cB|]; [|rewrite UB in HB; destruct n; discriminate].
  rewrite UA in HA. rewrite UB in HB. cbn in E. injection E as E. rewrite nth_error_map in HA, HB.
  assert (G : forall m x, nth_error (seq 0 m) n = Some x -> x = n).
  { intros m x Hx. assert (n < m) by (rewrite <- (seq_length m 0); apply nth_error_Some; congruence).
    pose proof (@seq_nth m 0 n 0 ltac:(lia)) as S. apply (nth_error_nth _ _ 0) in Hx. lia. }
  destruct (nth_error (seq 0 (cseq cA b)) n) as [x|] eqn:Ex; [|discriminate]. destruct (nth_error (seq 0 (cseq cB a)) n) as [y|] eqn:Ey; [|discriminate].
  apply G in Ex, Ey. cbn in HA, HB. congruence.
Qed.
