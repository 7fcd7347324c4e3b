(** Correctness of OKVS peeling. *)
From Coq Require Import NArith ZArith List Arith Bool Lia.
From Verif Require Import OKVSSpec OKVSModel.
Import ListNotations.

(** ** arrays *)
Lemma length_upd {A} (l : list A) i v : length (upd l i v) = length l.
Proof. revert i; induction l as [|x l IH]; intros [|i]; cbn; auto. Qed.
Lemma nth_upd_same {A} (l : list A) i v d : i < length l -> nth i (upd l i v) d = v.
Proof. revert i; induction l as [|x l IH]; intros [|i] H; cbn in *; try lia; auto. apply IH; lia. Qed.
Lemma nth_upd_other {A} (l : list A) i k v d : i <> k -> nth k (upd l i v) d = nth k l d.
Proof.
  revert i k; induction l as [|x l IH]; intros [|i] [|k] H; cbn; auto; try lia.
Qed.
Lemma map_upd {A B} (f : A -> B) l i v : map f (upd l i v) = upd (map f l) i (f v).
Proof. revert i; induction l as [|x l IH]; intros [|i]; cbn; auto. rewrite IH; auto. Qed.

Lemma nth_negb l i : nth i (map negb l) false = negb (nth i l true).
Proof. apply (map_nth negb l true i). Qed.

(** ** occurrences *)
Lemma count_occ_row_cols j r : count_occ Nat.eq_dec (row_cols r) j = occ j r.
Proof.
  destruct r as [[h1 h2] h3]. cbn [row_cols occ count_occ].
  destruct (Nat.eq_dec h1 j), (Nat.eq_dec h2 j), (Nat.eq_dec h3 j);
    destruct (Nat.eqb_spec h1 j), (Nat.eqb_spec h2 j), (Nat.eqb_spec h3 j); try contradiction; lia.
Qed.

Lemma occ_sel_upd (rows : list row) : forall S i j, length S = length rows -> i < length rows ->
  nth i S false = true ->
  occ_sel rows (upd S i false) j + occ j (nth i rows (0, 0, 0)) = occ_sel rows S j.
Proof.
  induction rows as [|r rows IH]; intros [|b S] [|i] j HL Hi Hn; cbn in *; try lia.
  - subst b. lia.
  - rewrite <- (IH S i j); [lia|lia|lia|exact Hn].
Qed.

Lemma occ_sel_ge (rows : list row) : forall S i j, length S = length rows -> nth i S false = true ->
  occ j (nth i rows (0, 0, 0)) <= occ_sel rows S j.
Proof.
  induction rows as [|r rows IH]; intros [|b S] [|i] j HL Hn; cbn [length] in HL;
    cbn [nth] in *; try discriminate; cbn [occ_sel].
  - subst b. lia.
  - specialize (IH S i j ltac:(lia) Hn). lia.
Qed.

Lemma occ_sel_pos (rows : list row) : forall S j, length S = length rows -> 0 < occ_sel rows S j ->
  exists i, i < length rows /\ nth i S false = true /\ 0 < occ j (nth i rows (0, 0, 0)).
Proof.
  induction rows as [|r rows IH]; intros [|b S] j HL Hp; cbn [occ_sel] in Hp; cbn [length] in HL; try lia.
  destruct (b) eqn:Hb.
  - destruct (Nat.eq_dec (occ j r) 0) as [E|E].
    + destruct (IH S j ltac:(lia) ltac:(lia)) as [i [H1 [H2 H3]]]. exists (Datatypes.S i). cbn. repeat split; auto; lia.
    + exists 0. cbn [nth length]. repeat split; auto; lia.
  - destruct (IH S j ltac:(lia) ltac:(lia)) as [i [H1 [H2 H3]]]. exists (Datatypes.S i). cbn. repeat split; auto; lia.
Qed.

Lemma length_filter_cols j r : length (filter (Nat.eqb j) (row_cols r)) = occ j r.
Proof.
  destruct r as [[h1 h2] h3]. cbn [row_cols occ filter].
  rewrite (Nat.eqb_sym h1), (Nat.eqb_sym h2), (Nat.eqb_sym h3).
  destruct (Nat.eqb j h1), (Nat.eqb j h2), (Nat.eqb j h3); reflexivity.
Qed.

Lemma length_col_rows (rows : list row) : forall i j,
  length (col_rows_from i rows j) = occ_sel rows (repeat true (length rows)) j.
Proof.
  induction rows as [|r rows IH]; intros i j; [reflexivity|].
  cbn [col_rows_from length repeat occ_sel]. rewrite app_length, map_length, length_filter_cols, IH.
  reflexivity.
Qed.

Lemma in_col_rows (rows : list row) : forall b j i,
  In i (col_rows_from b rows j) <->
  b <= i /\ i - b < length rows /\ 0 < occ j (nth (i - b) rows (0, 0, 0)).
Proof.
  induction rows as [|r rows IH]; intros b j i; cbn [col_rows_from length].
  - cbn. lia.
  - rewrite in_app_iff, in_map_iff, IH.
    split.
    + intros [[x [<- Hx]]|[H1 [H2 H3]]].
      * rewrite Nat.sub_diag. cbn [nth].
        destruct (filter (Nat.eqb j) (row_cols r)) eqn:E; [destruct Hx|].
        rewrite <- length_filter_cols, E. cbn [length]. lia.
      * replace (i - b) with (S (i - S b)) by lia. cbn [nth]. repeat split; lia.
    + intros [H1 [H2 H3]]. destruct (i - b) as [|k] eqn:E.
      * left. cbn [nth] in H3. rewrite <- length_filter_cols in H3.
        destruct (filter (Nat.eqb j) (row_cols r)) as [|x l] eqn:F; [cbn in H3; lia|].
        exists x. split; [lia|left; reflexivity].
      * right. cbn [nth] in H3. replace (i - S b) with k by lia. repeat split; lia.
Qed.

Lemma in_col_to_rows (rows : list row) j i :
  In i (col_to_rows rows j) <-> i < length rows /\ 0 < occ j (nth i rows (0, 0, 0)).
Proof. unfold col_to_rows. rewrite in_col_rows, Nat.sub_0_r. intuition lia. Qed.

(** ** invariant *)
Definition live (rows : list row) (st : pstate) (j : nat) : nat :=
  occ_sel rows (map negb (rrem st)) j.

Fixpoint stack_ok (rows : list row) (s : list (nat * nat)) : Prop :=
  match s with
  | [] => True
  | (c, r) :: s' =>
      stack_ok rows s' /\
      r < length rows /\ ~ In r (map snd s') /\ ~ In c (map fst s') /\
      occ c (nth r rows (0, 0, 0)) = 1 /\
      (forall i, i < length rows -> i <> r -> ~ In i (map snd s') -> occ c (nth i rows (0, 0, 0)) = 0)
  end.

Record Inv (rows : list row) (m : nat) (L : list nat) (st : pstate) : Prop := {
  I_rlen : length (rrem st) = length rows;
  I_clen : length (crem st) = m;
  I_dlen : length (deg st) = m;
  I_deg : forall j, j < m -> nth j (crem st) false = false ->
            nth j (deg st) 0%Z = Z.of_nat (live rows st j + count_occ Nat.eq_dec L j);
  I_rem : forall j, j < m -> nth j (crem st) false = true -> live rows st j = 0;
  I_q : forall j, In j (pq st) -> j < m /\ (nth j (crem st) false = true \/ (nth j (deg st) 0 <= 1)%Z);
  I_one : forall j, j < m -> nth j (crem st) false = false -> nth j (deg st) 0%Z = 1%Z -> In j (pq st);
  I_stk : stack_ok rows (stk st);
  I_rows : forall i, i < length rows -> (nth i (rrem st) true = true <-> In i (map snd (stk st)));
  I_cols : forall c, In c (map fst (stk st)) -> c < m /\ nth c (crem st) false = true
}.

Definition big (d : Z) : bool := (2 <=? d)%Z.
Definition mu (st : pstate) : nat := length (pq st) + length (filter big (deg st)).

Lemma filter_big_upd l : forall i d, i < length l -> nth i l 0%Z = (d + 1)%Z ->
  length (filter big (upd l i d)) + (if Z.eqb d 1 then 1 else 0) <= length (filter big l).
Proof.
  induction l as [|x l IH]; intros [|i] d Hi Hn; cbn [length] in Hi; try lia.
  - cbn [nth] in Hn. subst x. cbn [upd filter].
    change (big d) with (2 <=? d)%Z. change (big (d + 1)) with (2 <=? d + 1)%Z.
    destruct (Z.leb_spec 2%Z d), (Z.leb_spec 2%Z (d + 1)%Z), (Z.eqb_spec d 1%Z); cbn [length]; lia.
  - cbn [nth] in Hn. cbn [upd filter]. specialize (IH i d ltac:(lia) Hn).
    destruct (big x); cbn [length]; lia.
Qed.

Lemma visit_inv (rows : list row) m j nb L st :
  nb < m -> nth j (crem st) false = true ->
  Inv rows m (nb :: L) st ->
  Inv rows m L (visit_neighbor j st nb) /\ crem (visit_neighbor j st nb) = crem st /\
  mu (visit_neighbor j st nb) <= mu st.
Proof.
  intros Hnb Hj H. unfold visit_neighbor.
  destruct (Nat.eqb nb j || nth nb (crem st) false) eqn:E.
  - assert (Hc : nth nb (crem st) false = true).
    { apply orb_true_iff in E. destruct E as [E|E]; [apply Nat.eqb_eq in E; subst; exact Hj|exact E]. }
    split; [|split; [reflexivity|lia]].
    destruct H. constructor; auto. intros k Hk Hck. rewrite (I_deg0 k Hk Hck).
    cbn [count_occ]. destruct (Nat.eq_dec nb k) as [->|]; [congruence|reflexivity].
  - apply orb_false_iff in E. destruct E as [E1 E2]. apply Nat.eqb_neq in E1.
    pose proof (I_deg _ _ _ _ H nb Hnb E2) as Hd. cbn [count_occ] in Hd.
    destruct (Nat.eq_dec nb nb) as [_|]; [|congruence].
    split; [|split; [reflexivity|]].
    + destruct H. constructor; cbn [pq rrem crem deg stk]; auto.
      * rewrite length_upd. exact I_dlen0.
      * intros k Hk Hck. destruct (Nat.eq_dec nb k) as [<-|Hne].
        -- rewrite nth_upd_same by lia. unfold live in *. cbn [rrem]. lia.
        -- rewrite nth_upd_other by exact Hne. rewrite (I_deg0 k Hk Hck).
           cbn [count_occ]. destruct (Nat.eq_dec nb k); [contradiction|]. reflexivity.
      * intros k Hk.
        assert (Hk' : In k (pq st) \/ (k = nb /\ (nth nb (deg st) 0 - 1 = 1)%Z)).
        { destruct (Z.eqb_spec (nth nb (deg st) 0 - 1)%Z 1%Z) as [Ez|Ez].
          - apply in_app_iff in Hk. destruct Hk as [Hk|[Hk|[]]]; [left; exact Hk|right; split; [symmetry; exact Hk|exact Ez]].
          - left; exact Hk. }
        destruct (Nat.eq_dec nb k) as [<-|Hne].
        -- split; [exact Hnb|right]. rewrite nth_upd_same by lia.
           destruct Hk' as [Hk'|[_ Ez]]; [|lia].
           destruct (I_q0 nb Hk') as [_ [Hc|Hc]]; [congruence|lia].
        -- rewrite nth_upd_other by exact Hne.
           destruct Hk' as [Hk'|[-> _]]; [|congruence]. apply I_q0, Hk'.
      * intros k Hk Hck Hone. destruct (Nat.eq_dec nb k) as [<-|Hne].
        -- rewrite nth_upd_same in Hone by lia. rewrite Hone. cbn [Z.eqb].
           apply in_app_iff. right. left. reflexivity.
        -- rewrite nth_upd_other in Hone by exact Hne.
           pose proof (I_one0 k Hk Hck Hone) as Hin.
           destruct (Z.eqb _ _); [apply in_app_iff; left|]; exact Hin.
    + unfold mu. cbn [pq deg].
      pose proof (filter_big_upd (deg st) nb (nth nb (deg st) 0 - 1)%Z) as F.
      rewrite (I_dlen _ _ _ _ H) in F. specialize (F Hnb ltac:(lia)).
      destruct (Z.eqb _ _); [rewrite app_length; cbn [length]|]; lia.
Qed.

Lemma visits_inv (rows : list row) m j : forall L st,
  (forall nb, In nb L -> nb < m) -> nth j (crem st) false = true ->
  Inv rows m L st ->
  Inv rows m [] (fold_left (visit_neighbor j) L st) /\ mu (fold_left (visit_neighbor j) L st) <= mu st.
Proof.
  induction L as [|nb L IH]; intros st HL Hj H; cbn [fold_left].
  - split; [exact H|lia].
  - destruct (visit_inv rows m j nb L st) as [H1 [H2 H3]]; auto.
    { apply HL. left; reflexivity. }
    destruct (IH (visit_neighbor j st nb)) as [K1 K2]; auto.
    { intros k Hk. apply HL. right; exact Hk. }
    { rewrite H2. exact Hj. }
    split; [exact K1|lia].
Qed.

Lemma row_cols_range m r : row_in_range m r -> forall nb, In nb (row_cols r) -> nb < m.
Proof.
  destruct r as [[h1 h2] h3]. cbn. intros [H1 [H2 H3]] nb [<-|[<-|[<-|[]]]]; assumption.
Qed.

Lemma range_nth m (rows : list row) i : Forall (row_in_range m) rows -> i < length rows ->
  row_in_range m (nth i rows (0, 0, 0)).
Proof. intros H Hi. rewrite Forall_forall in H. apply H, nth_In, Hi. Qed.

Lemma find_Some_in {A} (f : A -> bool) l x : find f l = Some x -> In x l /\ f x = true.
Proof. apply find_some. Qed.

Definition with_q (q : list nat) (st : pstate) : pstate :=
  PState q (rrem st) (crem st) (deg st) (stk st).

Lemma step_inv (rows : list row) m st j q :
  Forall (row_in_range m) rows ->
  Inv rows m [] st -> pq st = j :: q ->
  Inv rows m [] (peel_step rows (with_q q st) j) /\
  S (mu (peel_step rows (with_q q st) j)) <= mu st.
Proof.
  intros Hr H Hq.
  assert (Hjm : j < m) by (apply (I_q _ _ _ _ H); rewrite Hq; left; reflexivity).
  assert (Hmu : mu st = S (mu (with_q q st))) by (unfold mu; rewrite Hq; reflexivity).
  unfold peel_step. cbn [with_q crem rrem pq deg stk].
  destruct (nth j (crem st) false) eqn:Hc.
  - split; [|rewrite Hmu; lia]. destruct H. constructor; cbn [with_q pq rrem crem deg stk]; auto.
    + intros k Hk. apply I_q0. rewrite Hq. right; exact Hk.
    + intros k Hk Hck Hone. pose proof (I_one0 k Hk Hck Hone) as Hin. rewrite Hq in Hin.
      destruct Hin as [->|Hin]; [congruence|exact Hin].
  - assert (Hlive : live rows st j <= 1).
    { destruct (I_q _ _ _ _ H j) as [_ [Hx|Hx]]; [rewrite Hq; left; reflexivity|congruence|].
      rewrite (I_deg _ _ _ _ H j Hjm Hc) in Hx. cbn [count_occ] in Hx. lia. }
    destruct (find (fun r => negb (nth r (rrem st) true)) (col_to_rows rows j)) as [owner|] eqn:F.
    + apply find_Some_in in F. destruct F as [Fin Flive].
      apply in_col_to_rows in Fin. destruct Fin as [Fo Focc].
      apply negb_true_iff in Flive.
      assert (Hsel : nth owner (map negb (rrem st)) false = true).
      { rewrite nth_negb, Flive. reflexivity. }
      assert (HL : length (map negb (rrem st)) = length rows) by (rewrite map_length; apply (I_rlen _ _ _ _ H)).
      pose proof (fun k => occ_sel_upd rows (map negb (rrem st)) owner k HL Fo Hsel) as Hup.
      set (st1 := PState q (upd (rrem st) owner true) (upd (crem st) j true) (deg st) ((j, owner) :: stk st)).
      assert (Hlive1 : forall k, live rows st1 k + occ k (nth owner rows (0, 0, 0)) = live rows st k).
      { intros k. unfold live, st1. cbn [rrem]. rewrite map_upd. apply Hup. }
      assert (Hocc1 : occ j (nth owner rows (0, 0, 0)) = 1) by (specialize (Hlive1 j); lia).
      assert (Hl0 : live rows st1 j = 0) by (specialize (Hlive1 j); lia).
      assert (Hcr : nth j (crem st1) false = true).
      { unfold st1. cbn [crem]. apply nth_upd_same. rewrite (I_clen _ _ _ _ H). exact Hjm. }
      assert (Hnin : ~ In owner (map snd (stk st))).
      { intros Hin. apply (I_rows _ _ _ _ H owner Fo) in Hin. congruence. }
      destruct (visits_inv rows m j (row_cols (nth owner rows (0, 0, 0))) st1) as [K1 K2].
      { apply row_cols_range. apply range_nth; assumption. }
      { exact Hcr. }
      { pose proof H as H'. destruct H. constructor.
        - unfold st1. cbn [rrem]. rewrite length_upd. exact I_rlen0.
        - unfold st1. cbn [crem]. rewrite length_upd. exact I_clen0.
        - exact I_dlen0.
        - intros k Hk Hck. unfold st1 in Hck. cbn [crem] in Hck.
          destruct (Nat.eq_dec j k) as [<-|Hne]; [fold st1 in Hck; unfold st1 in Hcr; cbn [crem] in Hcr; congruence|].
          rewrite nth_upd_other in Hck by exact Hne.
          change (deg st1) with (deg st). rewrite (I_deg0 k Hk Hck), count_occ_row_cols.
          cbn [count_occ]. rewrite <- (Hlive1 k). f_equal. lia.
        - intros k Hk Hck. destruct (Nat.eq_dec j k) as [<-|Hne]; [exact Hl0|].
          unfold st1 in Hck. cbn [crem] in Hck. rewrite nth_upd_other in Hck by exact Hne.
          specialize (I_rem0 k Hk Hck). specialize (Hlive1 k). lia.
        - intros k Hk. change (pq st1) with q in Hk. change (deg st1) with (deg st).
          destruct (I_q0 k) as [Hkm Hk2]; [rewrite Hq; right; exact Hk|]. split; [exact Hkm|].
          destruct (Nat.eq_dec j k) as [<-|Hne]; [left; exact Hcr|].
          unfold st1. cbn [crem]. rewrite nth_upd_other by exact Hne. exact Hk2.
        - intros k Hk Hck Hone. change (pq st1) with q. change (deg st1) with (deg st) in Hone.
          destruct (Nat.eq_dec j k) as [<-|Hne]; [congruence|].
          unfold st1 in Hck. cbn [crem] in Hck. rewrite nth_upd_other in Hck by exact Hne.
          pose proof (I_one0 k Hk Hck Hone) as Hin. rewrite Hq in Hin.
          destruct Hin as [Hx|Hin]; [contradiction|exact Hin].
        - change (stk st1) with ((j, owner) :: stk st). cbn [stack_ok].
          repeat split; auto.
          + intros Hin. apply I_cols0 in Hin. destruct Hin. congruence.
          + intros i Hi Hne Hni.
            assert (Hs : nth i (map negb (rrem st1)) false = true).
            { rewrite nth_negb. unfold st1. cbn [rrem]. rewrite nth_upd_other by (intros ->; congruence).
              destruct (nth i (rrem st) true) eqn:E; [|reflexivity].
              apply (I_rows0 i Hi) in E. contradiction. }
            assert (HL1 : length (map negb (rrem st1)) = length rows).
            { rewrite map_length. unfold st1. cbn [rrem]. rewrite length_upd. exact I_rlen0. }
            pose proof (occ_sel_ge rows (map negb (rrem st1)) i j HL1 Hs) as G.
            unfold live in Hl0. rewrite Hl0 in G. apply Nat.le_0_r. exact G.
        - intros i Hi. change (stk st1) with ((j, owner) :: stk st). cbn [map snd In].
          unfold st1. cbn [rrem]. destruct (Nat.eq_dec owner i) as [<-|Hne].
          + rewrite nth_upd_same by (rewrite I_rlen0; exact Fo). intuition.
          + rewrite nth_upd_other by exact Hne. rewrite (I_rows0 i Hi). intuition congruence.
        - intros c Hin. change (stk st1) with ((j, owner) :: stk st) in Hin. cbn [map fst In] in Hin.
          destruct (Nat.eq_dec j c) as [<-|Hne]; [split; [exact Hjm|exact Hcr]|].
          destruct Hin as [Hx|Hin]; [contradiction|]. destruct (I_cols0 c Hin) as [Hcm Hcc].
          split; [exact Hcm|]. unfold st1. cbn [crem]. rewrite nth_upd_other by exact Hne. exact Hcc. }
      split; [exact K1|]. rewrite Hmu. apply le_n_S. exact K2.
    + assert (Hl0 : live rows st j = 0).
      { destruct (Nat.eq_dec (live rows st j) 0) as [E|E]; [exact E|exfalso].
        destruct (occ_sel_pos rows (map negb (rrem st)) j) as [i [H1 [H2 H3]]].
        - rewrite map_length. apply (I_rlen _ _ _ _ H).
        - unfold live in E. lia.
        - rewrite nth_negb in H2.
          pose proof (find_none _ _ F i) as Fn. cbv beta in Fn.
          rewrite H2 in Fn. discriminate Fn. apply in_col_to_rows. split; assumption. }
      split.
      * destruct H. constructor; cbn [pq rrem crem deg stk]; auto.
        -- rewrite length_upd. exact I_clen0.
        -- intros k Hk Hck. destruct (Nat.eq_dec j k) as [<-|Hne].
           ++ rewrite nth_upd_same in Hck by lia. discriminate.
           ++ rewrite nth_upd_other in Hck by exact Hne. apply (I_deg0 k Hk Hck).
        -- intros k Hk Hck. destruct (Nat.eq_dec j k) as [<-|Hne]; [exact Hl0|].
           rewrite nth_upd_other in Hck by exact Hne. apply (I_rem0 k Hk Hck).
        -- intros k Hk. destruct (I_q0 k) as [Hkm Hk2]; [rewrite Hq; right; exact Hk|]. split; [exact Hkm|].
           destruct (Nat.eq_dec j k) as [<-|Hne]; [left; apply nth_upd_same; lia|].
           rewrite nth_upd_other by exact Hne. exact Hk2.
        -- intros k Hk Hck Hone. destruct (Nat.eq_dec j k) as [<-|Hne].
           ++ rewrite nth_upd_same in Hck by lia. discriminate.
           ++ rewrite nth_upd_other in Hck by exact Hne.
              pose proof (I_one0 k Hk Hck Hone) as Hin. rewrite Hq in Hin.
              destruct Hin as [Hx|Hin]; [contradiction|exact Hin].
        -- intros c Hin. destruct (I_cols0 c Hin) as [Hcm Hcc]. split; [exact Hcm|].
           destruct (Nat.eq_dec j c) as [<-|Hne]; [apply nth_upd_same; lia|].
           rewrite nth_upd_other by exact Hne. exact Hcc.
      * rewrite Hmu. apply le_n_S. apply le_n.
Qed.

Lemma peel_ok (rows : list row) m : Forall (row_in_range m) rows -> forall fuel st,
  Inv rows m [] st -> mu st <= fuel ->
  exists st', peel rows fuel st = Ok st' /\ Inv rows m [] st' /\ pq st' = [].
Proof.
  intros Hr. induction fuel as [|f IH]; intros st H Hm.
  - assert (E : pq st = []).
    { unfold mu in Hm. destruct (pq st); [reflexivity|cbn in Hm; lia]. }
    exists st. cbn [peel]. rewrite E. split; [reflexivity|split; [exact H|reflexivity]].
  - cbn [peel]. destruct (pq st) as [|j q] eqn:E.
    + exists st. split; [reflexivity|split; [exact H|exact E]].
    + destruct (step_inv rows m st j q Hr H E) as [K1 K2].
      apply IH; [exact K1|]. fold (with_q q st). lia.
Qed.

Lemma nth_repeat_lt {A} (x : A) n i d : i < n -> nth i (repeat x n) d = x.
Proof. revert i; induction n as [|n IH]; intros [|i] H; cbn; try lia; auto. apply IH; lia. Qed.

Lemma map_negb_repeat n : map negb (repeat false n) = repeat true n.
Proof. induction n; cbn; congruence. Qed.

Lemma init_inv (rows : list row) m : Inv rows m [] (init_state rows m) /\ mu (init_state rows m) <= m.
Proof.
  set (dl := map (fun j => Z.of_nat (length (col_to_rows rows j))) (seq 0 m)).
  assert (Hd : forall j, j < m -> nth j dl 0%Z = Z.of_nat (occ_sel rows (repeat true (length rows)) j)).
  { intros j Hj. unfold dl.
    rewrite (nth_indep _ 0%Z (Z.of_nat (length (col_to_rows rows 0)))) by (rewrite map_length, seq_length; exact Hj).
    rewrite (map_nth (fun j => Z.of_nat (length (col_to_rows rows j)))). rewrite seq_nth by exact Hj.
    cbn [plus]. unfold col_to_rows. rewrite length_col_rows. reflexivity. }
  assert (Hlen : length dl = m) by (unfold dl; rewrite map_length, seq_length; reflexivity).
  split.
  - constructor; unfold init_state; fold dl; cbn [pq rrem crem deg stk].
    + apply repeat_length.
    + apply repeat_length.
    + exact Hlen.
    + intros j Hj _. rewrite Hd by exact Hj. unfold live. cbn [rrem]. rewrite map_negb_repeat.
      cbn [count_occ]. f_equal. lia.
    + intros j Hj Hc. rewrite nth_repeat_lt in Hc by exact Hj. discriminate.
    + intros j Hj. apply filter_In in Hj. destruct Hj as [Hj1 Hj2]. apply in_seq in Hj1.
      apply Z.eqb_eq in Hj2. split; [lia|right; lia].
    + intros j Hj _ Ho. apply filter_In. split; [apply in_seq; lia|apply Z.eqb_eq; exact Ho].
    + exact I.
    + intros i Hi. rewrite nth_repeat_lt by exact Hi. cbn. split; [discriminate|intros []].
    + intros c [].
  - unfold mu, init_state; fold dl; cbn [pq deg].
    assert (E : length (filter big dl) = length (filter (fun j => big (nth j dl 0%Z)) (seq 0 m))).
    { assert (G : forall l : list Z, length (filter big l) = length (filter (fun j => big (nth j l 0%Z)) (seq 0 (length l)))).
      { induction l as [|x l IH] using rev_ind; [reflexivity|].
        rewrite app_length. cbn [length]. rewrite Nat.add_1_r, seq_S, !filter_app, !app_length. cbn [plus].
        f_equal.
        - rewrite IH. f_equal. apply filter_ext_in. intros a Ha. apply in_seq in Ha.
          rewrite app_nth1 by lia. reflexivity.
        - cbn [filter]. rewrite app_nth2, Nat.sub_diag by lia. cbn [nth]. destruct (big x); reflexivity. }
      rewrite G, Hlen. reflexivity. }
    rewrite E. rewrite <- (seq_length m 0) at 3.
    generalize (seq 0 m). intros l. induction l as [|x l IH]; [cbn; lia|].
    cbn [filter length]. change (big (nth x dl 0%Z)) with (2 <=? nth x dl 0)%Z. destruct (Z.eqb_spec (nth x dl 0%Z) 1%Z), (Z.leb_spec 2%Z (nth x dl 0%Z)); cbn [length]; lia.
Qed.

(** ** back substitution *)
Lemma decode_upd_notin out c v r : occ c r = 0 -> decode_row (upd out c v) r = decode_row out r.
Proof.
  destruct r as [[h1 h2] h3]. cbn [occ decode_row]. intros H.
  destruct (Nat.eqb_spec h1 c), (Nat.eqb_spec h2 c), (Nat.eqb_spec h3 c); try lia.
  rewrite !nth_upd_other by congruence. reflexivity.
Qed.

Lemma decode_upd_once out c v r : occ c r = 1 -> c < length out -> nth c out 0%N = 0%N ->
  decode_row (upd out c v) r = N.lxor v (decode_row out r).
Proof.
  destruct r as [[h1 h2] h3]. cbn [occ decode_row]. intros H Hc H0.
  destruct (Nat.eqb_spec h1 c) as [E1|E1], (Nat.eqb_spec h2 c) as [E2|E2], (Nat.eqb_spec h3 c) as [E3|E3];
    try lia; subst; rewrite nth_upd_same by assumption; rewrite !nth_upd_other by congruence; rewrite H0.
  - rewrite N.lxor_0_l. apply N.lxor_assoc.
  - rewrite N.lxor_0_r. rewrite (N.lxor_comm _ v). rewrite N.lxor_assoc. reflexivity.
  - rewrite N.lxor_0_r. apply N.lxor_comm.
Qed.

Lemma back_subst_eq (rows : list row) values c r s out :
  back_subst rows values ((c, r) :: s) out =
  match nth_error values r with
  | None => Err IndexError
  | Some target => back_subst rows values s (upd out c (N.lxor target (decode_row out (nth r rows (0, 0, 0)))))
  end.
Proof.
  cbn [back_subst]. unfold decode_row. destruct (nth r rows (0, 0, 0)) as [[h1 h2] h3]. reflexivity.
Qed.

Lemma back_subst_ok (rows : list row) values m : length values = length rows -> forall s out,
  stack_ok rows s -> (forall c, In c (map fst s) -> c < m) -> length out = m ->
  (forall c, In c (map fst s) -> nth c out 0%N = 0%N) ->
  (forall i, i < length rows -> ~ In i (map snd s) -> decode_row out (nth i rows (0, 0, 0)) = nth i values 0%N) ->
  exists out', back_subst rows values s out = Ok out' /\ length out' = m /\
    forall i, i < length rows -> decode_row out' (nth i rows (0, 0, 0)) = nth i values 0%N.
Proof.
  intros Hv. induction s as [|[c r] s IH]; intros out Hok Hc Hlen Hz Hdone.
  - exists out. split; [reflexivity|split; [exact Hlen|]]. intros i Hi. apply Hdone; [exact Hi|intros []].
  - rewrite back_subst_eq. cbn [stack_ok] in Hok. destruct Hok as [Hs [Hr [Hnr [Hnc [Ho Hother]]]]].
    destruct (nth_error values r) as [target|] eqn:Et.
    2:{ apply nth_error_None in Et. lia. }
    assert (Hcm : c < m) by (apply Hc; left; reflexivity).
    apply IH.
    + exact Hs.
    + intros k Hk. apply Hc. right; exact Hk.
    + rewrite length_upd. exact Hlen.
    + intros k Hk. rewrite nth_upd_other by (intros ->; contradiction). apply Hz. right; exact Hk.
    + intros i Hi Hni. destruct (Nat.eq_dec i r) as [->|Hne].
      * rewrite decode_upd_once; [|exact Ho|lia|apply Hz; left; reflexivity].
        rewrite N.lxor_assoc, N.lxor_nilpotent, N.lxor_0_r.
        symmetry. apply nth_error_nth with (d := 0%N) in Et. exact Et.
      * rewrite decode_upd_notin by (apply Hother; assumption).
        apply Hdone; [exact Hi|]. cbn [map snd In]. intros [Hx|Hx]; [congruence|contradiction].
Qed.

(** ** main results *)
Lemma stack_nodup (rows : list row) s : stack_ok rows s -> NoDup (map snd s) /\ (forall i, In i (map snd s) -> i < length rows).
Proof.
  induction s as [|[c r] s IH]; cbn [stack_ok map snd].
  - intros _. split; [constructor|intros i []].
  - intros [Hs [Hr [Hnr _]]]. destruct (IH Hs) as [H1 H2]. split; [constructor; assumption|].
    intros i [<-|Hi]; [exact Hr|apply H2, Hi].
Qed.

Lemma all_rows_of_length (rows : list row) s : stack_ok rows s -> length s = length rows ->
  forall i, i < length rows -> In i (map snd s).
Proof.
  intros Hok Hl i Hi. destruct (stack_nodup rows s Hok) as [Hnd Hlt].
  assert (Hinc : incl (seq 0 (length rows)) (map snd s)).
  { apply NoDup_length_incl; [exact Hnd|rewrite seq_length, map_length; lia|].
    intros k Hk. apply in_seq. specialize (Hlt k Hk). lia. }
  apply Hinc, in_seq. lia.
Qed.

Lemma occ_sel_single (rows : list row) S r c : length S = length rows -> r < length rows ->
  nth r S false = true -> occ c (nth r rows (0, 0, 0)) = 1 ->
  (forall i, i < length rows -> i <> r -> nth i S false = true -> occ c (nth i rows (0, 0, 0)) = 0) ->
  occ_sel rows S c = 1.
Proof.
  intros HL Hr HS Ho Hother. rewrite <- (occ_sel_upd rows S r c HL Hr HS), Ho.
  destruct (Nat.eq_dec (occ_sel rows (upd S r false) c) 0) as [E|E]; [lia|exfalso].
  destruct (occ_sel_pos rows (upd S r false) c) as [i [H1 [H2 H3]]]; [rewrite length_upd; exact HL|lia|].
  destruct (Nat.eq_dec r i) as [<-|Hne].
  - rewrite nth_upd_same in H2 by lia. discriminate.
  - rewrite nth_upd_other in H2 by exact Hne. rewrite (Hother i) in H3; try assumption; try lia.
Qed.

Lemma stack_oldest (rows : list row) S : forall s, stack_ok rows s ->
  (exists i, In i (map snd s) /\ nth i S false = true) ->
  exists c r, r < length rows /\ nth r S false = true /\ occ c (nth r rows (0, 0, 0)) = 1 /\
    forall i, i < length rows -> i <> r -> nth i S false = true -> occ c (nth i rows (0, 0, 0)) = 0.
Proof.
  induction s as [|[c r] s IH]; intros Hok [i [Hi HS]]; [destruct Hi|].
  cbn [stack_ok] in Hok. destruct Hok as [Hs [Hr [Hnr [Hnc [Ho Hother]]]]].
  destruct (existsb (fun k => nth k S false) (map snd s)) eqn:E.
  - apply existsb_exists in E. destruct E as [k [K1 K2]]. apply (IH Hs). exists k. split; assumption.
  - assert (Hno : forall k, In k (map snd s) -> nth k S false = true -> False).
    { intros k K1 K2. apply not_true_iff_false in E. apply E. apply existsb_exists. exists k. split; assumption. }
    assert (i = r) as -> by (destruct Hi as [Hi|Hi]; [cbn in Hi; congruence|destruct (Hno i Hi HS)]).
    exists c, r. repeat split; auto.
    intros k Hk Hne HSk. apply Hother; auto. intros Hin. apply (Hno k Hin HSk).
Qed.

Lemma occ_out_of_range m r j : row_in_range m r -> m <= j -> occ j r = 0.
Proof.
  destruct r as [[h1 h2] h3]. cbn. intros [H1 [H2 H3]] Hj.
  destruct (Nat.eqb_spec h1 j), (Nat.eqb_spec h2 j), (Nat.eqb_spec h3 j); lia.
Qed.

Lemma solve_rows_cases (rows : list row) values m : Forall (row_in_range m) rows -> length values = length rows ->
  (exists out, solve_rows rows values m = Ok out /\ length out = m /\
     (forall i, i < length rows -> decode_row out (nth i rows (0, 0, 0)) = nth i values 0%N) /\
     forall S, ~ stopping_set rows S)
  \/ (solve_rows rows values m = Err CoreDetected /\ exists S, stopping_set rows S).
Proof.
  intros Hr Hv. destruct (init_inv rows m) as [H0 Hmu].
  destruct (peel_ok rows m Hr m (init_state rows m) H0 Hmu) as [st [E [HI Hq]]].
  unfold solve_rows. rewrite E.
  pose proof (I_stk _ _ _ _ HI) as Hok. destruct (stack_nodup rows (stk st) Hok) as [Hnd Hlt].
  destruct (Nat.eqb_spec (length (stk st)) (length rows)) as [Hl|Hl]; cbn [negb].
  - left. pose proof (all_rows_of_length rows (stk st) Hok Hl) as Hall.
    destruct (back_subst_ok rows values m Hv (stk st) (repeat 0%N m)) as [out [E1 [E2 E3]]].
    + exact Hok.
    + intros c Hc. apply (I_cols _ _ _ _ HI c Hc).
    + apply repeat_length.
    + intros c Hc. apply nth_repeat_lt. apply (I_cols _ _ _ _ HI c Hc).
    + intros i Hi Hni. destruct (Hni (Hall i Hi)).
    + exists out. split; [exact E1|]. split; [exact E2|]. split; [exact E3|].
      intros S [HS1 [HS2 HS3]].
      destruct (In_nth S true false HS2) as [i [Hi1 Hi2]].
      destruct (stack_oldest rows S (stk st) Hok) as [c [r [H1 [H2 [H3 H4]]]]].
      { exists i. split; [apply Hall; lia|exact Hi2]. }
      apply (HS3 c). apply (occ_sel_single rows S r c); assumption.
  - right. split; [reflexivity|]. exists (map negb (rrem st)).
    assert (HL : length (map negb (rrem st)) = length rows) by (rewrite map_length; apply (I_rlen _ _ _ _ HI)).
    split; [exact HL|]. split.
    + destruct (in_dec bool_dec true (map negb (rrem st))) as [|Hn]; [assumption|exfalso].
      apply Hl. rewrite <- (map_length snd (stk st)).
      assert (G1 : length (map snd (stk st)) <= length rows).
      { rewrite <- (seq_length (length rows) 0). apply NoDup_incl_length; [exact Hnd|].
        intros k Hk. apply in_seq. specialize (Hlt k Hk). lia. }
      assert (G2 : length rows <= length (map snd (stk st))).
      { rewrite <- (seq_length (length rows) 0). apply NoDup_incl_length; [apply seq_NoDup|].
        intros k Hk. apply in_seq in Hk. apply (I_rows _ _ _ _ HI k); [lia|].
        destruct (nth k (rrem st) true) eqn:Ek; [reflexivity|exfalso]. apply Hn.
        assert (Hk' : nth k (map negb (rrem st)) false = true) by (rewrite nth_negb, Ek; reflexivity).
        rewrite <- Hk'. apply nth_In. lia. }
      lia.
    + intros j Hj. destruct (Nat.lt_ge_cases j m) as [Hjm|Hjm].
      * destruct (nth j (crem st) false) eqn:Ec.
        -- pose proof (I_rem _ _ _ _ HI j Hjm Ec) as G. unfold live in G. lia.
        -- pose proof (I_deg _ _ _ _ HI j Hjm Ec) as G. cbn [count_occ] in G. unfold live in G.
           rewrite Hj in G. pose proof (I_one _ _ _ _ HI j Hjm Ec G) as K. rewrite Hq in K. destruct K.
      * destruct (occ_sel_pos rows (map negb (rrem st)) j HL) as [i [H1 [_ H3]]]; [lia|].
        rewrite (occ_out_of_range m) in H3; [lia|apply range_nth; assumption|exact Hjm].
Qed.
