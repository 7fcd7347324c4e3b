From Coq Require Import List Arith ZArith Bool Lia.
From Verif Require Import TableModel TableSpec.
Import ListNotations.

Section Proofs.
  Context {A : Type}.
  Notation reader := (reader A).
  Implicit Types (st : reader) (src acc g : list (list A)).

  Definition rows st : list A := match r_remain st with Some r => r | None => [] end ++ concat (r_src st).
  Definition inv st : Prop := (match r_remain st with Some r => r <> [] | None => True end) /\ (r_eof st = true -> rows st = []).


  Lemma len0 (l : list A) : length l = 0 -> l = [].
  Proof. destruct l; auto; discriminate. Qed.
  Lemma fill_spec b : forall src n acc acc' n' src' eof, fill b n acc src = (acc', n', src', eof) ->
    exists add, acc' = acc ++ add /\ Forall filled add /\ concat src = concat add ++ concat src' /\ n' = n + length (concat add) /\ length src' <= length src /\
      (eof = true -> src' = [] /\ n' < b) /\ (eof = false -> b <= n') /\
      (forall u x, add = u ++ [x] -> n + length (concat u) < b).
  Proof.
    induction src as [|x src IH]; intros n acc acc' n' src' eof; cbn [fill]; destruct (Nat.ltb_spec n b) as [L|L]; intros E.
    - injection E as <- <- <- <-. exists []. rewrite app_nil_r. cbn. repeat split; auto; try lia; try discriminate. intros u x X. destruct u; discriminate.
    - injection E as <- <- <- <-. exists []. rewrite app_nil_r. cbn. repeat split; auto; try lia; try discriminate. intros u x X. destruct u; discriminate.
    - destruct (IH _ _ _ _ _ _ E) as (add & E1 & E2 & E3 & E4 & E5 & E6 & E7 & E8).
      destruct (Nat.ltb_spec 0 (length x)) as [P|P].
      + exists (x :: add). split; [rewrite E1, <- app_assoc; reflexivity|]. split; [constructor; auto; unfold filled; destruct x; [cbn in P; lia|discriminate]|].
        split; [cbn; rewrite E3, <- app_assoc; reflexivity|]. split; [cbn; rewrite app_length; lia|]. split; [cbn; lia|]. split; [auto|]. split; [auto|].
        intros u y X. destruct u as [|z u]; [cbn; lia|]. injection X as -> X. specialize (E8 _ _ X). cbn. rewrite app_length. lia.
      + assert (x = []) as -> by (apply len0; lia). cbn [length] in *. rewrite Nat.add_0_r in *. exists add. cbn. split; [auto|]. split; [auto|]. split; [auto|]. split; [lia|]. split; [lia|]. split; [auto|]. split; [auto|]. exact E8.
    - injection E as <- <- <- <-. exists []. rewrite app_nil_r. cbn. repeat split; auto; try lia; try discriminate. intros u y X. destruct u; discriminate.
  Qed.

  Lemma last_split (l : list (list A)) : l <> [] -> l = removelast l ++ [last l []].
  Proof. intros H. now apply app_removelast_last. Qed.
  Lemma concat_last u (x : list A) : concat (u ++ [x]) = concat u ++ x.
  Proof. rewrite concat_app. cbn. now rewrite app_nil_r. Qed.
  Lemma Forall_filled_app u (x : list A) : Forall filled (u ++ [x]) -> Forall filled u /\ filled x.
  Proof. intros H. apply Forall_app in H. destruct H as [H1 H2]. inversion H2; subst. auto. Qed.

  Lemma next_group_spec st o st' : (0 < r_bs st)%Z -> inv st -> r_eof st = false -> next_group st = (o, st') ->
    r_bs st' = r_bs st /\ inv st' /\
    match o with
    | None => rows st = []
    | Some g => rows st = concat g ++ rows st' /\ g <> [] /\ Forall filled g /\ length (concat g) <= Z.to_nat (r_bs st) /\
                (length (concat g) < Z.to_nat (r_bs st) -> r_eof st' = true) /\ length (r_src st') <= length (r_src st)
    end.
  Proof.
    intros B [I1 I2] Hf. unfold next_group. set (b := Z.to_nat (r_bs st)). assert (Hb : 0 < b) by (unfold b; lia).
    destruct (match r_remain st with Some r => ([r], length r) | None => ([], 0) end) as [acc0 n0] eqn:E0.
    assert (A0 : n0 = length (concat acc0) /\ concat acc0 = match r_remain st with Some r => r | None => [] end /\ Forall filled acc0 /\ (length acc0 <= 1)).
    { destruct (r_remain st) as [r|]; injection E0 as <- <-; cbn; rewrite ?app_nil_r; auto. }
    destruct A0 as (N0 & R0 & F0 & L0).
    destruct (fill b n0 acc0 (r_src st)) as [[[acc n] src] eof] eqn:Ef. destruct (fill_spec _ _ _ _ _ _ _ _ Ef) as (add & E1 & E2 & E3 & E4 & E5 & E6 & E7 & E8).
    assert (Fa : Forall filled acc) by (rewrite E1; apply Forall_app; auto).
    assert (Cn : n = length (concat acc)) by (rewrite E1, concat_app, app_length; lia).
    assert (Rs : rows st = concat acc ++ concat src) by (unfold rows; rewrite <- R0, E3, E1, concat_app, app_assoc; reflexivity).
    destruct (Nat.eqb_spec n 0) as [Z|Z].
    { intros X. injection X as <- <-. cbn [r_bs]. split; [auto|].
      assert (E : eof = true) by (destruct eof; auto; specialize (E7 eq_refl); lia). destruct (E6 E) as [-> _].
      split; [split; cbn; auto|]. rewrite Rs. rewrite app_nil_r. apply len0. lia. }
    assert (Na : acc <> []) by (intros ->; cbn in Cn; lia).
    destruct (Nat.ltb_spec b n) as [G|G].
    - intros X. injection X as <- <-. cbn [r_bs r_src r_eof]. split; [auto|].
      assert (Ee : eof = false) by (destruct eof; auto; destruct (E6 eq_refl); lia). subst eof.
      pose proof (last_split acc Na) as La. set (l := last acc []) in *. set (u := removelast acc) in *.
      assert (Lu : length (concat u) < b \/ (u = [] /\ length (concat acc0) > b)).
      { destruct add as [|a0 add0].
        - rewrite app_nil_r in E1. subst acc0. right. split; [|lia]. destruct acc as [|p [|q acc]]; try (cbn in L0; lia); try congruence; reflexivity.
        - left. destruct (@exists_last _ (a0 :: add0)) as (add1 & y & Y); [discriminate|]. rewrite Y in E1. unfold u. rewrite E1, app_assoc, removelast_last.
          specialize (E8 _ _ Y). rewrite concat_app, app_length. lia. }
      assert (Ln : n = length (concat u) + length l) by (rewrite Cn, La, concat_last, app_length; reflexivity).
      assert (Lu' : length (concat u) < b) by (destruct Lu as [|[-> _]]; [auto|cbn; lia]).
      set (k := length l - (n - b)). assert (Hk : 0 < k /\ k < length l) by (unfold k; lia).
      assert (Fu : Forall filled u /\ filled l) by (apply Forall_filled_app; rewrite <- La; auto).
      split; [split; cbn; [intros X; apply (f_equal (@length A)) in X; rewrite skipn_length in X; cbn in X; lia|discriminate]|].
      split; [rewrite Rs, La, !concat_last; unfold rows; cbn [r_remain r_src]; rewrite <- !app_assoc; f_equal; rewrite app_assoc; now rewrite firstn_skipn|].
      split; [intros X; apply app_eq_nil in X; destruct X; discriminate|].
      split; [apply Forall_app; split; [tauto|constructor; [|auto]; intros X; apply (f_equal (@length A)) in X; rewrite firstn_length in X; cbn in X; lia]|].
      rewrite concat_last, app_length, firstn_length. split; [unfold k; lia|]. split; [unfold k; lia|]. lia.
    - intros X. injection X as <- <-. cbn [r_bs r_src r_eof]. split; [auto|].
      assert (Q : rows (Reader src None eof (r_bs st)) = concat src) by reflexivity.
      split; [split; cbn; [auto|intros ->; destruct (E6 eq_refl) as [-> _]; reflexivity]|].
      split; [rewrite Rs, Q; reflexivity|]. split; [auto|]. split; [auto|]. split; [lia|]. split; [|auto].
      intros L. destruct eof; auto. specialize (E7 eq_refl). lia.
  Qed.

  Lemma combine_hd g : combine g = hd [] g.
  Proof. destruct g as [|x [|y g]]; reflexivity. Qed.

  Theorem reads_groups st outs : reads st outs -> (0 < r_bs st)%Z -> inv st ->
    exists gs, outs = map (hd []) gs /\ rows st = concat (map (@concat A) gs) /\ Forall (fun g => g <> [] /\ Forall filled g) gs /\ full_but_last (Z.to_nat (r_bs st)) gs.
  Proof.
    induction 1 as [st st' E|st st' b bs E R IH]; intros B I.
    - exists []. split; [auto|]. split; [|split; [auto|intros us g vs X; destruct us; discriminate]]. cbn. unfold read_next in E. destruct (r_eof st) eqn:Ef; [apply I; auto|].
      destruct (Z.leb_spec (r_bs st) 0); [lia|]. destruct (next_group st) as [[g|] s1] eqn:Eg; [discriminate|]. now destruct (next_group_spec _ _ _ B I Ef Eg) as (_ & _ & X).
    - unfold read_next in E. destruct (r_eof st) eqn:Ef; [discriminate|]. destruct (Z.leb_spec (r_bs st) 0); [lia|].
      destruct (next_group st) as [[g|] s1] eqn:Eg; [|discriminate]. injection E as <- <-. destruct (next_group_spec _ _ _ B I Ef Eg) as (B1 & I1 & X1 & X2 & X3 & X4 & X5 & X6).
      destruct IH as (gs & G1 & G2 & G3 & G4); [lia|auto|]. exists (g :: gs). split; [cbn; rewrite combine_hd, G1; reflexivity|]. split; [cbn; rewrite X1, G2; reflexivity|].
      split; [constructor; auto|]. intros us g' vs X. destruct us as [|u us]; injection X as -> X.
      + split; [auto|]. subst vs. intros N. destruct (Nat.lt_ge_cases (length (concat g')) (Z.to_nat (r_bs st))) as [L|L]; [|lia].
        exfalso. apply X5 in L. apply I1 in L. destruct gs as [|h gs]; [congruence|]. rewrite G2 in L. cbn in L. apply app_eq_nil in L. destruct L as [L _].
        inversion G3 as [|? ? [H1 H2] ?]; subst. destruct h as [|y h]; [congruence|]. inversion H2; subst. cbn in L. apply app_eq_nil in L. now destruct L.
      + rewrite B1 in G4. eapply G4; eauto.
  Qed.

  (** reading always ends *)
  Theorem reads_total st : inv st -> exists outs, reads st outs.
  Proof.
    intros I. remember (length (rows st) + length (r_src st)) as n eqn:Hn. revert st I Hn. induction n as [n IH] using lt_wf_ind. intros st I Hn.
    destruct (read_next st) as [[b|] st'] eqn:E; [|eexists; eapply R_end; eauto].
    assert (X : inv st' /\ length (rows st') + length (r_src st') < n).
    { unfold read_next in E. destruct (r_eof st) eqn:Ef; [discriminate|]. destruct (Z.leb_spec (r_bs st) 0) as [B|B].
      - destruct (r_src st) as [|x src] eqn:Es; [discriminate|]. injection E as <- <-. split; [split; [apply I|discriminate]|].
        unfold rows in *. cbn [r_remain r_src] in *. rewrite Es in Hn. cbn in Hn. rewrite !app_length in *. lia.
      - destruct (next_group st) as [[g|] s1] eqn:Eg; [|discriminate]. injection E as <- <-. destruct (next_group_spec _ _ _ B I Ef Eg) as (B1 & I1 & X1 & X2 & X3 & X4 & X5 & X6).
        split; [auto|]. rewrite X1, app_length in Hn. destruct g as [|x g]; [congruence|]. assert (F : filled x) by (inversion X3; auto). unfold filled in F. destruct x; [congruence|]. cbn in Hn. lia. }
    destruct X as [I' L]. destruct (IH _ L st' I' eq_refl) as [outs R]. exists (b :: outs). econstructor; eauto.
  Qed.
  Theorem reads_det st outs : reads st outs -> forall outs', reads st outs' -> outs = outs'.
  Proof.
    induction 1 as [st st' E|st st' b bs E R IH]; intros outs' R'; inversion R'; subst; try congruence.
    rewrite E in H. injection H as <- <-. f_equal. auto.
  Qed.
  Lemma open_inv src bs : inv (open_reader src bs).
  Proof. split; cbn; [auto|discriminate]. Qed.
  Lemma open_rows src bs : rows (open_reader src bs) = concat src.
  Proof. reflexivity. Qed.

  (** native batches *)
  Theorem reads_native src bs : (bs <= 0)%Z -> forall rem, reads (Reader src rem false bs) src.
  Proof.
    intros B rem. induction src as [|x src IH].
    - eapply R_end. unfold read_next. cbn. destruct (Z.leb_spec bs 0); [reflexivity|lia].
    - eapply R_batch; [|exact IH]. unfold read_next. cbn. destruct (Z.leb_spec bs 0); [reflexivity|lia].
  Qed.

  Lemma aligned_tl b x src : aligned b (x :: src) -> aligned b src.
  Proof. intros H u y v -> N. apply (H (x :: u) y v); auto. Qed.
  Lemma fill_aligned b : 0 < b -> forall src, aligned b src -> forall acc n src' eof, fill b 0 [] src = (acc, n, src', eof) ->
    (acc = [] /\ src' = [] /\ n = 0) \/ exists x, acc = [x] /\ n = length x /\ (src' = [] \/ Nat.divide b (length x)) /\ aligned b src' .
  Proof.
    intros Hb. induction src as [|x src IH]; intros Al acc n src' eof; cbn [fill]; (destruct (Nat.ltb_spec 0 b); [|lia]).
    - intros X. injection X as <- <- <- <-. auto.
    - cbn [Nat.add]. destruct (Nat.ltb_spec 0 (length x)) as [P|P].
      + cbn [app]. intros X. destruct src as [|y src].
        * cbn [fill] in X. destruct (length x <? b); injection X as <- <- <- <-; right; exists x; repeat split; auto; intros u z v Y; destruct u; discriminate.
        * assert (D : Nat.divide b (length x)) by (apply (Al [] x (y :: src)); [reflexivity|discriminate]).
          assert (b <= length x) by (apply Nat.divide_pos_le; auto). cbn [fill] in X. destruct (Nat.ltb_spec (length x) b); [lia|]. injection X as <- <- <- <-.
          right. exists x. repeat split; auto. eapply aligned_tl; eauto.
      + assert (length x = 0) as -> by lia. intros X. apply (IH (aligned_tl _ _ _ Al) _ _ _ _ X).
  Qed.
  Definition al st : Prop := aligned (Z.to_nat (r_bs st)) (r_src st) /\
    match r_remain st with Some r => r_src st = [] \/ Nat.divide (Z.to_nat (r_bs st)) (length r) | None => True end.
  Lemma group_aligned st g st' : (0 < r_bs st)%Z -> inv st -> al st -> next_group st = (Some g, st') -> exists x, g = [x] /\ al st'.
  Proof.
    intros B [I1 I2] [A1 A2]. unfold next_group. set (b := Z.to_nat (r_bs st)) in *. assert (Hb : 0 < b) by (unfold b; lia).
    destruct (r_remain st) as [r|] eqn:Er.
    - assert (Lr : 0 < length r) by (destruct r; [congruence|cbn; lia]).
      destruct (fill b (length r) [r] (r_src st)) as [[[acc n] src] eof] eqn:Ef.
      assert (X : acc = [r] /\ n = length r /\ src = r_src st).
      { destruct A2 as [E|D].
        - rewrite E in *. cbn [fill] in Ef. destruct (length r <? b); injection Ef as <- <- <- <-; auto.
        - assert (b <= length r) by (apply Nat.divide_pos_le; auto). destruct (r_src st); cbn [fill] in Ef; (destruct (Nat.ltb_spec (length r) b); [lia|]); injection Ef as <- <- <- <-; auto. }
      destruct X as (-> & -> & ->). destruct (Nat.eqb_spec (length r) 0); [lia|]. destruct (Nat.ltb_spec b (length r)); intros X; injection X as <- <-; eexists; (split; [cbn; reflexivity|]).
      + split; [exact A1|]. cbn. destruct A2 as [E|[k D]]; [auto|]. right. rewrite skipn_length. fold b. exists (k - 1). rewrite Nat.mul_sub_distr_r. lia.
      + split; [exact A1|]. exact I.
    - destruct (fill b 0 [] (r_src st)) as [[[acc n] src] eof] eqn:Ef. destruct (fill_aligned b Hb _ A1 _ _ _ _ Ef) as [(-> & -> & ->)|(x & -> & -> & C & A')]; [discriminate|].
      destruct (Nat.eqb_spec (length x) 0); [discriminate|]. destruct (Nat.ltb_spec b (length x)); intros X; injection X as <- <-; eexists; (split; [cbn; reflexivity|]).
      + split; [exact A'|]. cbn. destruct C as [E|[k D]]; [auto|]. right. rewrite skipn_length. fold b. exists (k - 1). rewrite Nat.mul_sub_distr_r. lia.
      + split; [exact A'|]. exact I.
  Qed.
  Theorem reads_aligned st outs : reads st outs -> (0 < r_bs st)%Z -> inv st -> al st ->
    concat outs = rows st /\ full_but_last_batch (Z.to_nat (r_bs st)) outs.
  Proof.
    induction 1 as [st st' E|st st' b bs E R IH]; intros B I Al.
    - split; [|intros us g vs X; destruct us; discriminate]. unfold read_next in E. destruct (r_eof st) eqn:Ef; [symmetry; apply I; auto|].
      destruct (Z.leb_spec (r_bs st) 0); [lia|]. destruct (next_group st) as [[g|] s1] eqn:Eg; [discriminate|]. now destruct (next_group_spec _ _ _ B I Ef Eg) as (_ & _ & X).
    - unfold read_next in E. destruct (r_eof st) eqn:Ef; [discriminate|]. destruct (Z.leb_spec (r_bs st) 0); [lia|].
      destruct (next_group st) as [[g|] s1] eqn:Eg; [|discriminate]. injection E as <- <-. destruct (next_group_spec _ _ _ B I Ef Eg) as (B1 & I1 & X1 & X2 & X3 & X4 & X5 & X6).
      destruct (group_aligned _ _ _ B I Al Eg) as (x & -> & Al'). rewrite B1 in IH. cbn in X1, X4, X5. rewrite app_nil_r in *. inversion X3; subst.
      destruct IH as [G1 G2]; [auto|auto|auto|]. cbn [combine]. split; [cbn; rewrite X1, G1; reflexivity|].
      intros us y vs X. destruct us as [|u us]; injection X as -> X.
      + split; [unfold filled in *; destruct y; [congruence|cbn in *; lia]|]. intros N. destruct (Nat.lt_ge_cases (length y) (Z.to_nat (r_bs st))) as [L|L]; [|lia].
        exfalso. apply X5 in L. apply I1 in L. rewrite <- G1, X in L. destruct vs as [|v vs]; [congruence|]. subst bs. destruct (G2 [] v vs eq_refl) as [P _].
        cbn in L. apply app_eq_nil in L. destruct L as [-> _]. cbn in P. lia.
      + eapply G2; eauto.
  Qed.

  (** several small batches in one group: only the first is delivered *)
  Lemma fill_small b : forall src n acc, n + length (concat src) < b -> Forall filled src -> fill b n acc src = (acc ++ src, n + length (concat src), [], true).
  Proof.
    induction src as [|x src IH]; intros n acc L F; cbn [fill concat] in *; (destruct (Nat.ltb_spec n b); [|cbn in L; lia]).
    - cbn. rewrite app_nil_r, Nat.add_0_r. reflexivity.
    - inversion F; subst. rewrite app_length in L. destruct (Nat.ltb_spec 0 (length x)) as [P|P]; [|exfalso; apply H2; apply len0; lia].
      rewrite IH by (auto; lia). rewrite <- app_assoc. cbn. rewrite app_length. do 2 f_equal. f_equal. lia.
  Qed.
  Theorem reads_lossy x y (rest : list (list A)) bs : (Z.of_nat (length (concat (x :: y :: rest))) < bs)%Z -> Forall filled (x :: y :: rest) ->
    reads (open_reader (x :: y :: rest) bs) [x].
  Proof.
    intros L F. set (src := x :: y :: rest) in *.
    assert (E : next_group (open_reader src bs) = (Some src, Reader [] None true bs)).
    { unfold next_group, open_reader. cbn [r_remain r_src r_bs]. rewrite fill_small by (auto; lia). cbn [app]. cbn [Nat.add].
      assert (0 < length (concat src)) by (unfold src; inversion F; subst; destruct x; [congruence|cbn; lia]).
      destruct (Nat.eqb_spec (length (concat src)) 0); [lia|]. destruct (Nat.ltb_spec (Z.to_nat bs) (length (concat src))); [lia|]. reflexivity. }
    eapply R_batch.
    - unfold read_next. cbn [r_eof r_bs open_reader]. destruct (Z.leb_spec bs 0); [lia|]. fold (open_reader src bs). rewrite E. reflexivity.
    - eapply R_end. reflexivity.
  Qed.

  (** ** several tables *)
  Notation dr := (open_reader (@nil (list A)) 0).
  Lemma multi_batch : forall rs num ps rs', multi_from num rs = (MBatch ps, rs') ->
    length ps = length rs /\ length rs' = length rs /\ (forall i, i < length rs -> read_next (nth i rs dr) = (Some (nth i ps []), nth i rs' dr)) /\
    exists n, Forall (fun p => length p = n) ps /\ (forall k, num = Some k -> n = k).
  Proof.
    induction rs as [|r rs IH]; intros num ps rs' E; cbn [multi_from] in E.
    - injection E as <- <-. split; [auto|]. split; [auto|]. split; [cbn; lia|]. exists (match num with Some k => k | None => 0 end). split; [auto|]. now intros k ->.
    - destruct (read_next r) as [[b|] r'] eqn:Er; [|discriminate].
      destruct (match num with Some n => negb (n =? length b) | None => false end) eqn:En; [discriminate|].
      destruct (multi_from _ rs) as [[qs| |] rs2] eqn:Em; try discriminate. injection E as <- <-. destruct (IH _ _ _ Em) as (L1 & L2 & R & n & F & K).
      split; [cbn; lia|]. split; [cbn; lia|]. split; [intros [|i] Hi; cbn in *; [auto|apply R; lia]|].
      specialize (K _ eq_refl). exists n. split.
      + constructor; auto. destruct num as [k|]; [|auto]. apply negb_false_iff, Nat.eqb_eq in En. congruence.
      + intros k ->. auto.
  Qed.
  Lemma multi_stop : forall rs num rs', multi_from num rs = (MStop, rs') -> exists i st', i < length rs /\ read_next (nth i rs dr) = (None, st').
  Proof.
    induction rs as [|r rs IH]; intros num rs' E; cbn [multi_from] in E; [discriminate|].
    destruct (read_next r) as [[b|] r'] eqn:Er; [|exists 0, r'; cbn; split; [lia|auto]].
    destruct (match num with Some n => negb (n =? length b) | None => false end); [discriminate|].
    destruct (multi_from _ rs) as [[qs| |] rs2] eqn:Em; try discriminate. destruct (IH _ _ Em) as (i & st' & H1 & H2). exists (S i), st'. cbn. split; [lia|auto].
  Qed.
  Lemma next_batch_batch rs ps rs' : next_batch rs = (MBatch ps, rs') ->
    length ps = length rs /\ length rs' = length rs /\ (forall i, i < length rs -> read_next (nth i rs dr) = (Some (nth i ps []), nth i rs' dr)) /\ exists n, Forall (fun p => length p = n) ps.
  Proof.
    unfold next_batch. destruct rs as [|r [|r2 rs]].
    - intros E. apply multi_batch in E. destruct E as (? & ? & ? & n & ? & ?). eauto.
    - destruct (read_next r) as [[b|] r'] eqn:Er; [|discriminate]. intros E. injection E as <- <-. repeat split; auto; [|eauto].
      intros i Hi. cbn in Hi. assert (i = 0) as -> by lia. auto.
    - intros E. apply multi_batch in E. destruct E as (? & ? & ? & n & ? & ?). eauto.
  Qed.
  Lemma next_batch_stop rs rs' : next_batch rs = (MStop, rs') -> exists i st', i < length rs /\ read_next (nth i rs dr) = (None, st').
  Proof.
    unfold next_batch. destruct rs as [|r [|r2 rs]]; [intros E; now apply multi_stop in E| |intros E; now apply multi_stop in E].
    destruct (read_next r) as [[b|] r'] eqn:Er; [discriminate|]. intros _. exists 0, r'. cbn. auto.
  Qed.

  (** what is written of table i is a prefix of what its reader delivers; batches are aligned *)
  Theorem drains_prefix rs bs e : drains rs bs e ->
    (forall b, In b bs -> length b = length rs /\ exists n, Forall (fun p => length p = n) b) /\
    (forall outs, length outs = length rs -> (forall i, i < length rs -> reads (nth i rs dr) (nth i outs [])) ->
      (forall i, i < length rs -> exists rest, nth i outs [] = map (fun b => nth i b []) bs ++ rest) /\
      (e = false -> exists i, i < length rs /\ nth i outs [] = map (fun b => nth i b []) bs)).
  Proof.
    induction 1 as [rs rs' E|rs rs' E|rs rs' b bs e E D IH].
    - split; [intros b []|]. intros outs L R. split; [intros i Hi; eexists; reflexivity|]. intros _. destruct (next_batch_stop _ _ E) as (i & st' & Hi & Ei).
      exists i. split; auto. specialize (R i Hi). inversion R; subst; [reflexivity|congruence].
    - split; [intros b []|]. intros outs L R. split; [intros i Hi; eexists; reflexivity|discriminate].
    - destruct (next_batch_batch _ _ _ E) as (L1 & L2 & Rn & n & F). destruct IH as [IH1 IH2]. split.
      + intros c [<-|Hc]; [eauto|]. rewrite <- L2. auto.
      + intros outs L R. rewrite L2 in IH2. set (outs' := map (@tl (list A)) outs).
        assert (T : forall i, nth i outs' [] = tl (nth i outs [])) by (intros i; unfold outs'; change (@nil (list A)) with (tl (@nil (list A))) at 1; apply map_nth).
        assert (H : forall i, i < length rs -> nth i outs [] = nth i b [] :: nth i outs' [] /\ reads (nth i rs' dr) (nth i outs' [])).
        { intros i Hi. specialize (R i Hi). specialize (Rn i Hi). rewrite T. inversion R as [s1 s2 X E1 E2|s1 s2 c cs X Y E1 E2]; rewrite Rn in X; [discriminate|]. injection X as <- <-. auto. }
        destruct (IH2 outs') as [P1 P2]; [unfold outs'; rewrite map_length; auto|intros i Hi; apply H; auto|]. split.
        * intros i Hi. destruct (P1 i Hi) as [rest X]. exists rest. rewrite (proj1 (H i Hi)), X. reflexivity.
        * intros He. destruct (P2 He) as (i & Hi & X). exists i. split; auto. rewrite (proj1 (H i Hi)), X. reflexivity.
  Qed.

  (** equal batch lengths everywhere: everything is written *)
  Lemma multi_equal n : forall rs num ps rs', length ps = length rs -> length rs' = length rs -> (forall i, i < length rs -> read_next (nth i rs dr) = (Some (nth i ps []), nth i rs' dr)) ->
    Forall (fun p => length p = n) ps -> (num = None \/ num = Some n) -> multi_from num rs = (MBatch ps, rs').
  Proof.
    induction rs as [|r rs IH]; intros num [|p ps] [|r' rs'] L1 L2 R F N; try discriminate; [reflexivity|].
    cbn [multi_from]. pose proof (R 0 ltac:(cbn; lia)) as R0. cbn in R0. rewrite R0. inversion F; subst.
    assert (E : match num with Some n => negb (n =? length p) | None => false end = false) by (destruct N as [->| ->]; auto; now rewrite Nat.eqb_refl).
    rewrite E. rewrite (IH _ ps rs'); auto; [intros i Hi; apply (R (S i)); cbn; lia|]. right. destruct N as [->| ->]; auto.
  Qed.
  Lemma next_batch_equal n rs ps rs' : length ps = length rs -> length rs' = length rs -> (forall i, i < length rs -> read_next (nth i rs dr) = (Some (nth i ps []), nth i rs' dr)) ->
    Forall (fun p => length p = n) ps -> next_batch rs = (MBatch ps, rs').
  Proof.
    intros L1 L2 R F. unfold next_batch. destruct rs as [|r [|r2 rs]].
    - eapply multi_equal; eauto.
    - specialize (R 0 ltac:(cbn; lia)). cbn in R. rewrite R. destruct ps as [|p [|? ?]]; try discriminate. destruct rs' as [|q [|? ?]]; try discriminate. reflexivity.
    - eapply multi_equal; eauto.
  Qed.
  Lemma choose_states : forall rs (outs : list (list (list A))), length outs = length rs -> (forall i, i < length rs -> reads (nth i rs dr) (nth i outs [])) ->
    (forall i, i < length rs -> nth i outs [] <> []) ->
    exists rs', length rs' = length rs /\ (forall i, i < length rs -> read_next (nth i rs dr) = (Some (hd [] (nth i outs [])), nth i rs' dr) /\ reads (nth i rs' dr) (tl (nth i outs []))).
  Proof.
    induction rs as [|r rs IH]; intros [|o outs] L R N; try discriminate; [exists []; split; [auto|cbn; lia]|].
    destruct (IH outs) as (rs' & L' & H); [cbn in L; lia|intros i Hi; apply (R (S i)); cbn; lia|intros i Hi; apply (N (S i)); cbn; lia|].
    pose proof (R 0 ltac:(cbn; lia)) as R0. cbn in R0. inversion R0 as [? st' E|? st' b bs E X]; subst; [exfalso; apply (N 0); cbn; [lia|auto]|].
    exists (st' :: rs'). split; [cbn; lia|]. intros [|i] Hi; cbn in *; [auto|apply H; lia].
  Qed.
  Lemma multi_all_stop : forall rs num, rs <> [] -> (exists st', read_next (nth 0 rs dr) = (None, st')) -> exists rs', multi_from num rs = (MStop, rs').
  Proof. intros [|r rs] num N [st' E]; [congruence|]. cbn in E. cbn [multi_from]. rewrite E. eauto. Qed.
  Theorem drains_equal : forall (lens : list nat) rs outs, rs <> [] -> length outs = length rs -> (forall i, i < length rs -> reads (nth i rs dr) (nth i outs [])) ->
    (forall i, i < length rs -> map (@length A) (nth i outs []) = lens) ->
    exists bs, drains rs bs false /\ forall i, i < length rs -> map (fun b => nth i b []) bs = nth i outs [].
  Proof.
    induction lens as [|n lens IH]; intros rs outs N L R Le.
    - exists []. assert (P : 0 < length rs) by (destruct rs; [congruence|cbn; lia]).
      assert (O : forall i, i < length rs -> nth i outs [] = []) by (intros i Hi; specialize (Le i Hi); destruct (nth i outs []); [auto|discriminate]).
      split; [|intros i Hi; rewrite O; auto]. assert (S0 : exists st', read_next (nth 0 rs dr) = (None, st')) by (specialize (R 0 P); rewrite O in R by auto; inversion R; eauto).
      destruct (multi_all_stop rs None N S0) as [rs' E].
      destruct S0 as [st' S0]. destruct rs as [|r [|r2 rs]]; [congruence| |]; eapply D_stop; cbn [next_batch]; eauto. cbn in S0. rewrite S0. reflexivity.
    - assert (C : forall i, i < length rs -> nth i outs [] = hd [] (nth i outs []) :: tl (nth i outs []) /\ length (hd [] (nth i outs [])) = n /\ map (@length A) (tl (nth i outs [])) = lens).
      { intros i Hi. specialize (Le i Hi). destruct (nth i outs []); [discriminate|]. injection Le as E1 E2. auto. }
      destruct (choose_states rs outs L R) as (rs' & L' & H). { intros i Hi. destruct (C i Hi) as [E _]. rewrite E. discriminate. }
      set (outs' := map (@tl (list A)) outs). set (ps := map (hd []) outs).
      assert (T : forall i, nth i outs' [] = tl (nth i outs [])) by (intros i; unfold outs'; change (@nil (list A)) with (tl (@nil (list A))) at 1; apply map_nth).
      assert (Hp : forall i, nth i ps [] = hd [] (nth i outs [])) by (intros i; exact (map_nth (hd []) outs [] i)).
      destruct (IH rs' outs') as (bs & D & Q).
      + intros ->. destruct rs; [congruence|discriminate].
      + unfold outs'. rewrite map_length. congruence.
      + intros i Hi. rewrite T. apply H. lia.
      + intros i Hi. rewrite T. apply C. lia.
      + exists (ps :: bs). split.
        * econstructor; eauto. apply next_batch_equal with (n := n); auto.
          -- unfold ps. now rewrite map_length.
          -- intros i Hi. rewrite Hp. apply H; auto.
          -- unfold ps. apply Forall_forall. intros p Hi. apply in_map_iff in Hi. destruct Hi as (o & <- & Ho). apply In_nth with (d := []) in Ho. destruct Ho as (i & Hi & <-). apply C. lia.
        * intros i Hi. cbn [map]. rewrite Q by lia. rewrite Hp, T. symmetry. apply C; auto.
  Qed.
  Theorem drains_det (rs : list reader) bs e : drains rs bs e -> forall bs' e', drains rs bs' e' -> bs = bs' /\ e = e'.
  Proof.
    induction 1 as [rs rs' E|rs rs' E|rs rs' b bs e E D IH]; intros bs' e' D'; inversion D'; subst; try congruence; auto.
    rewrite E in H. injection H as <- <-. destruct (IH _ _ H0) as [-> ->]. auto.
  Qed.
End Proofs.
