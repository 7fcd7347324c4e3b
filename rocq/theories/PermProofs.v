(** From the list program of PermModel to the network of PermNet. *)
From Coq Require Import List NArith ZArith Bool Arith Lia FinFun.
From Verif Require Import MPCBase OTModel OTSpec OTProofs PermModel PermNet.
Import ListNotations.
Local Open Scope nat_scope.

Section Lists.
Context {A : Type}.
Implicit Types (l vs : list A) (d : A).

Lemma upd_length l i v : length (upd l i v) = length l.
Proof.
  unfold upd. destruct (skipn i l) as [|x t] eqn:E.
  - rewrite app_nil_r, firstn_length. apply (f_equal (@length A)) in E. rewrite skipn_length in E. cbn in E. lia.
  - rewrite app_length, firstn_length. apply (f_equal (@length A)) in E. rewrite skipn_length in E. cbn [length] in *. lia.
Qed.
Lemma upd_same l i v d : i < length l -> nth i (upd l i v) d = v.
Proof.
  intros H. unfold upd. destruct (skipn i l) as [|x t] eqn:E.
  - apply (f_equal (@length A)) in E. rewrite skipn_length in E. cbn in E. lia.
  - rewrite app_nth2; rewrite firstn_length; [|lia]. replace (i - Nat.min i (length l)) with 0 by lia. reflexivity.
Qed.
Lemma upd_other l : forall i v d p, p <> i -> nth p (upd l i v) d = nth p l d.
Proof.
  induction l as [|a l IH]; intros i v d p H; unfold upd; [rewrite skipn_nil, firstn_nil; reflexivity|].
  destruct i as [|i]; cbn [skipn firstn app].
  - destruct p; [congruence|reflexivity].
  - destruct p as [|p]; [reflexivity|]. cbn [nth]. apply (IH i v d p). congruence.
Qed.
Lemma scatter_length idx : forall l vs, length (scatter l idx vs) = length l.
Proof.
  unfold scatter. induction idx as [|i idx IH]; intros l vs; [reflexivity|]. destruct vs as [|v vs]; [reflexivity|].
  cbn [combine fold_left fst snd]. rewrite IH. apply upd_length.
Qed.
Lemma scatter_out idx : forall l vs p d, ~ In p idx -> nth p (scatter l idx vs) d = nth p l d.
Proof.
  unfold scatter. induction idx as [|i idx IH]; intros l vs p d H; [reflexivity|]. destruct vs as [|v vs]; [reflexivity|].
  cbn [combine fold_left fst snd]. rewrite IH; [|intros F; apply H; right; exact F].
  apply upd_other. intros ->. apply H. left. reflexivity.
Qed.
Lemma scatter_in idx : forall l vs k d, NoDup idx -> length vs = length idx -> k < length idx -> nth k idx 0 < length l ->
  nth (nth k idx 0) (scatter l idx vs) d = nth k vs d.
Proof.
  induction idx as [|i idx IH]; intros l vs k d ND L Hk Hb; [cbn in Hk; lia|].
  destruct vs as [|v vs]; [cbn in L; lia|]. inversion ND as [|? ? N1 N2]; subst.
  change (scatter l (i :: idx) (v :: vs)) with (scatter (upd l i v) idx vs).
  destruct k as [|k]; cbn [nth] in *.
  - rewrite scatter_out by exact N1. apply upd_same, Hb.
  - apply IH; [exact N2|cbn in L; lia|cbn in Hk; lia|rewrite upd_length; exact Hb].
Qed.
Lemma scatter_map idx l (g : nat -> A) p d : NoDup idx -> In p idx -> p < length l ->
  nth p (scatter l idx (map g idx)) d = g p.
Proof.
  intros ND Hin Hp. destruct (In_nth idx p 0 Hin) as (k & Hk & E).
  rewrite <- E at 1. rewrite scatter_in; [|exact ND|apply map_length|exact Hk|rewrite E; exact Hp].
  rewrite (nth_indep _ d (g 0)) by (rewrite map_length; exact Hk). rewrite map_nth, E. reflexivity.
Qed.
Lemma where_map I (c : nat -> bool) (a b : nat -> A) :
  where_ (map c I) (map a I) (map b I) = map (fun i => if c i then a i else b i) I.
Proof. unfold where_. induction I as [|x I IH]; [reflexivity|]. cbn [map combine fst snd]. rewrite IH. reflexivity. Qed.
Lemma slice_mid (pre c rest : list A) : dynamic_slice (pre ++ c ++ rest) (length pre) (length c) = c.
Proof.
  unfold dynamic_slice. rewrite !app_length, Nat.min_l by lia.
  rewrite skipn_app, skipn_all, Nat.sub_diag. cbn [skipn app]. rewrite firstn_app, firstn_all, Nat.sub_diag. cbn [firstn]. apply app_nil_r.
Qed.
End Lists.

Lemma filter_length_le {A} (f : A -> bool) l : length (filter f l) <= length l.
Proof. induction l as [|a l IH]; [reflexivity|]. cbn [filter length]. destruct (f a); cbn [length]; lia. Qed.
Lemma idx_j_gather {A} (d : A) n dist l : gather d l (idx_j n dist) = map (fun i => nth (Nat.lxor i dist) l d) (idx_i n dist).
Proof. unfold gather, idx_j. apply map_map. Qed.

Lemma combine_map {I A B} (f : I -> A) (g : I -> B) l : combine (map f l) (map g l) = map (fun x => (f x, g x)) l.
Proof. induction l as [|x l IH]; [reflexivity|]. cbn. rewrite IH. reflexivity. Qed.

(** one layer in a power-of-two network *)
Section Layer.
Variables (S_ k stage : nat).
Hypothesis Hk : k < S_.
Notation n := (2 ^ S_). Notation dist := (2 ^ k).

Lemma in_idx_i p : In p (idx_i n dist) <-> p < n /\ p < Nat.lxor p dist.
Proof. unfold idx_i. rewrite filter_In, in_seq, Nat.ltb_lt. split; lia. Qed.
Lemma nodup_i : NoDup (idx_i n dist).
Proof. unfold idx_i. apply NoDup_filter, seq_NoDup. Qed.
Lemma nodup_j : NoDup (idx_j n dist).
Proof.
  unfold idx_j. apply Injective_map_NoDup; [|apply nodup_i]. intros x y E.
  apply (f_equal (fun z => Nat.lxor z dist)) in E. rewrite !lxor_invol in E. exact E.
Qed.
Lemma in_idx_j p : In p (idx_j n dist) <-> p < n /\ Nat.lxor p dist < p.
Proof.
  unfold idx_j. rewrite in_map_iff. split.
  - intros (q & <- & Hq). apply in_idx_i in Hq. destruct Hq as [Hq L]. rewrite lxor_invol.
    split; [apply lxor_lt; assumption|exact L].
  - intros [Hp L]. exists (Nat.lxor p dist). rewrite lxor_invol. split; [reflexivity|]. apply in_idx_i.
    rewrite lxor_invol. split; [apply lxor_lt; assumption|exact L].
Qed.
Lemma lxor_ne p : Nat.lxor p dist <> p.
Proof.
  intros E. apply (f_equal (Nat.lxor p)) in E. rewrite <- Nat.lxor_assoc, Nat.lxor_nilpotent, Nat.lxor_0_l in E.
  revert E. apply Nat.pow_nonzero. discriminate.
Qed.

Lemma layer_ctrls_swp cur : layer_ctrls n stage dist cur = map (swp stage dist (fun p => nth p cur 0)) (idx_i n dist).
Proof.
  unfold layer_ctrls. cbv zeta. rewrite idx_j_gather. unfold gather.
  rewrite combine_map, !map_map. rewrite where_map. apply map_ext_in. intros i Hi. apply in_idx_i in Hi.
  unfold swp. cbn [fst snd]. rewrite Nat.min_l, Nat.max_r by lia. reflexivity.
Qed.

(** two scatters that cover every position *)
Lemma two_scatters {A} (d : A) (base : list A) (gi gj : nat -> A) p : length base = n -> p < n ->
  nth p (scatter (scatter base (idx_i n dist) (map gi (idx_i n dist))) (idx_j n dist) (map gj (idx_i n dist))) d
  = if p <? Nat.lxor p dist then gi p else gj (Nat.lxor p dist).
Proof.
  intros L Hp.
  assert (map gj (idx_i n dist) = map (fun j => gj (Nat.lxor j dist)) (idx_j n dist)) as ->.
  { unfold idx_j. rewrite map_map. apply map_ext. intros i. rewrite lxor_invol. reflexivity. }
  destruct (Nat.ltb_spec p (Nat.lxor p dist)) as [Lt|Ge].
  - rewrite scatter_out; [|rewrite in_idx_j; lia]. apply scatter_map; [apply nodup_i|apply in_idx_i; auto|lia].
  - pose proof (lxor_ne p). apply (scatter_map (idx_j n dist) _ (fun j => gj (Nat.lxor j dist))); [apply nodup_j|apply in_idx_j; split; lia|].
    rewrite scatter_length. lia.
Qed.

Lemma local_step_sg {A} (d : A) cur (x : list A) : length x = n -> forall p, p < n ->
  nth p (local_step d n dist (layer_ctrls n stage dist cur) x) d = nth (sg stage dist (fun p => nth p cur 0) p) x d.
Proof.
  intros L p Hp. unfold local_step. cbv zeta. rewrite layer_ctrls_swp, idx_j_gather. unfold gather. rewrite !where_map.
  rewrite two_scatters by assumption. unfold sg.
  destruct (Nat.ltb_spec p (Nat.lxor p dist)) as [Lt|Ge].
  - destruct (swp _ _ _ p); reflexivity.
  - rewrite swp_partner, lxor_invol. destruct (swp _ _ _ p); reflexivity.
Qed.
Lemma local_step_length {A} (d : A) cs (x : list A) : length (local_step d n dist cs x) = length x.
Proof. unfold local_step. cbv zeta. rewrite !scatter_length. reflexivity. Qed.

(** the same for all positions, on naturals (out of range reads give 0 on both sides) *)
Lemma local_step_all cur (x : list nat) : length x = n -> forall p,
  nth p (local_step 0 n dist (layer_ctrls n stage dist cur) x) 0 = nth (sg stage dist (fun p => nth p cur 0) p) x 0.
Proof.
  intros L p. destruct (lt_dec p n) as [H|H]; [apply local_step_sg; assumption|].
  rewrite nth_overflow by (rewrite local_step_length; lia). rewrite nth_overflow; [reflexivity|]. rewrite L.
  unfold sg. destruct (swp _ _ _ p); [|lia].
  destruct (le_lt_dec n (Nat.lxor p dist)) as [G|G]; [exact G|]. apply (lxor_lt _ k) in G; [|exact Hk]. rewrite lxor_invol in G. lia.
Qed.
End Layer.

Lemma sg_ext s dist f g : (forall p, f p = g p) -> forall p, sg s dist f p = sg s dist g p.
Proof. intros E p. unfold sg, swp. rewrite !E. reflexivity. Qed.
Lemma nsig_ext ls : forall f g, (forall p, f p = g p) -> forall p, nsig ls f p = nsig ls g p.
Proof.
  induction ls as [|[s dist] r IH]; intros f g E p; [reflexivity|]. cbn [nsig].
  rewrite (IH (fun q => f (sg s dist f q)) (fun q => g (sg s dist g q))).
  - apply sg_ext, E.
  - intros q. rewrite E, (sg_ext s dist f g E). reflexivity.
Qed.

Section Apply.
Variables (X : cenv) (M CT : Type) (enc : list N -> list N -> M -> CT) (dec : list N -> CT -> option M) (d : M).
Hypothesis OKX : env_ok X.
Hypothesis SYM : forall key nonce m, dec key (enc key nonce m) = Some m.
Notation secure_switch := (secure_switch X M CT enc dec d).
Notation run_layers := (run_layers X M CT enc dec d).
Notation apply_permutation := (apply_permutation X M CT enc dec d).

Lemma bit_bitZ cs : Forall bitZ (map bit cs).
Proof. apply Forall_forall. intros b Hb. apply in_map_iff in Hb. destruct Hb as ([|] & <- & _); unfold bitZ, bit; auto. Qed.
Lemma inv_bitZ cs : Forall bitZ (map (fun c => 1 - bit c)%Z cs).
Proof. apply Forall_forall. intros b Hb. apply in_map_iff in Hb. destruct Hb as ([|] & <- & _); unfold bitZ, bit; auto. Qed.

Lemma switch_correct R x0 x1 cs y0 y1 : secure_switch R x0 x1 cs = Some (y0, y1) ->
  (length y0 = length cs /\ length y1 = length cs) /\
  (forall i, i < length cs -> nth i y0 d = chosen (nth i cs false) (nth i x0 d) (nth i x1 d)) /\
  (forall i, i < length cs -> nth i y1 d = chosen (negb (nth i cs false)) (nth i x0 d) (nth i x1 d)).
Proof.
  unfold PermModel.secure_switch. intros H.
  destruct (transfer X M CT enc dec (rC0 R) (rnd0 R) x0 x1 (map bit cs) d) as [a|] eqn:Ea; [|discriminate H].
  destruct (transfer X M CT enc dec (rC1 R) (rnd1 R) x0 x1 (map (fun c => 1 - bit c)%Z cs) d) as [b|] eqn:Eb; [|discriminate H].
  injection H as -> ->.
  destruct (transfer_correct X OKX M CT enc dec SYM _ _ _ _ _ _ _ (bit_bitZ cs) Ea) as [La Ha].
  destruct (transfer_correct X OKX M CT enc dec SYM _ _ _ _ _ _ _ (inv_bitZ cs) Eb) as [Lb Hb].
  rewrite map_length in *. split; [auto|]. split.
  - intros i Hi. rewrite Ha by exact Hi. f_equal. rewrite (nth_indep _ 0%Z (bit false)) by (rewrite map_length; exact Hi).
    rewrite map_nth. destruct (nth i cs false); reflexivity.
  - intros i Hi. rewrite Hb by exact Hi. f_equal. rewrite (nth_indep _ 0%Z (1 - bit false)%Z) by (rewrite map_length; exact Hi).
    rewrite (map_nth (fun c => 1 - bit c)%Z). destruct (nth i cs false); reflexivity.
Qed.

Lemma switch_map R I (c : nat -> bool) (a b : nat -> M) y0 y1 : secure_switch R (map a I) (map b I) (map c I) = Some (y0, y1) ->
  y0 = map (fun i => if c i then b i else a i) I /\ y1 = map (fun i => if c i then a i else b i) I.
Proof.
  intros H. apply switch_correct in H. rewrite map_length in H. destruct H as ((L0 & L1) & H0 & H1).
  assert (forall i, i < length I -> nth i (map c I) false = c (nth i I 0)) as C.
  { intros i Hi. rewrite (nth_indep _ _ (c 0)) by (rewrite map_length; exact Hi). apply map_nth. }
  assert (forall (g : nat -> M) i, i < length I -> nth i (map g I) d = g (nth i I 0)) as G.
  { intros g i Hi. rewrite (nth_indep _ _ (g 0)) by (rewrite map_length; exact Hi). apply map_nth. }
  split; apply (nth_ext _ _ d d); rewrite ?map_length; try assumption; intros i Hi.
  - rewrite H0, C, !G by lia. unfold chosen. destruct (c (nth i I 0)); reflexivity.
  - rewrite H1, C, !G by lia. unfold chosen. destruct (c (nth i I 0)); reflexivity.
Qed.

Lemma run_layers_sig R S_ ls : Forall (fun l => exists k, k < S_ /\ snd l = 2 ^ k) ls ->
  forall pre cur on data out, length cur = 2 ^ S_ -> length data = 2 ^ S_ ->
  run_layers R (2 ^ S_) (pre ++ controls_loop (2 ^ S_) ls cur) ls (length pre) on data = Some out ->
  length out = 2 ^ S_ /\ forall p, p < 2 ^ S_ -> nth p out d = nth (nsig ls (fun p => nth p cur 0) p) data d.
Proof.
  induction 1 as [|[stage dist] r (k & Hk & Ed) Hr IH]; intros pre cur on data out Lc Ld H.
  - cbn [PermModel.run_layers] in H. injection H as <-. cbn [nsig]. auto.
  - cbn [snd] in Ed. subst dist. cbn [controls_loop] in H. cbv zeta in H.
    set (c := layer_ctrls (2 ^ S_) stage (2 ^ k) cur) in *.
    set (cur' := local_step 0 (2 ^ S_) (2 ^ k) c cur) in *.
    assert (length c = length (idx_i (2 ^ S_) (2 ^ k))) as Lcc by (unfold c; rewrite (layer_ctrls_swp S_ k stage Hk); apply map_length).
    assert (length cur' = 2 ^ S_) as Lc' by (unfold cur'; rewrite local_step_length; exact Lc).
    assert (forall p, nth p cur' 0 = nth (sg stage (2 ^ k) (fun p => nth p cur 0) p) cur 0) as Ec'
      by (intros p; unfold cur', c; apply (local_step_all S_ k stage Hk); assumption).
    cbn [PermModel.run_layers] in H. cbv zeta in H. rewrite <- Lcc in H. rewrite slice_mid in H.
    assert (forall data', length data' = 2 ^ S_ ->
      (forall p, p < 2 ^ S_ -> nth p data' d = nth (sg stage (2 ^ k) (fun p => nth p cur 0) p) data d) ->
      run_layers R (2 ^ S_) (pre ++ c ++ controls_loop (2 ^ S_) r cur') r (length pre + length c) false data' = Some out ->
      length out = 2 ^ S_ /\ forall p, p < 2 ^ S_ -> nth p out d = nth (nsig ((stage, 2 ^ k) :: r) (fun p => nth p cur 0) p) data d) as K.
    { intros data' Ld' Ed' H'. rewrite app_assoc, <- app_length in H'.
      destruct (IH _ _ _ _ _ Lc' Ld' H') as [Lo Eo]. split; [exact Lo|]. intros p Hp. rewrite Eo by exact Hp.
      rewrite Ed' by (apply nsig_lt; assumption). cbn [nsig]. f_equal. f_equal. apply nsig_ext. intros q. apply Ec'. }
    destruct on.
    + destruct (secure_switch _ _ _ _) as [[res_i res_j]|] eqn:Es; [|discriminate H].
      assert (idx_j (2 ^ S_) (2 ^ k) = map (fun i => Nat.lxor i (2 ^ k)) (idx_i (2 ^ S_) (2 ^ k))) as Ej by reflexivity.
      rewrite idx_j_gather in Es. unfold gather in Es. unfold c in Es. rewrite (layer_ctrls_swp S_ k stage Hk) in Es.
      apply switch_map in Es. destruct Es as [-> ->]. revert H. apply K.
      * rewrite !scatter_length. apply repeat_length.
      * intros p Hp. rewrite (two_scatters S_ k Hk) by (rewrite ?repeat_length; auto). unfold sg.
        destruct (Nat.ltb_spec p (Nat.lxor p (2 ^ k))) as [Lt|Ge].
        -- destruct (swp _ _ _ p); reflexivity.
        -- rewrite swp_partner, lxor_invol. destruct (swp _ _ _ p); reflexivity.
    + revert H. apply K; [rewrite local_step_length; exact Ld|]. unfold c. apply (local_step_sg S_ k stage Hk); assumption.
Qed.

(** the labels: cur0[perm[i]] = i *)
Definition is_perm (n : nat) (perm : list nat) : Prop :=
  length perm = n /\ NoDup perm /\ forall p, p < n <-> In p perm.

Lemma NoDup_app_intro (l1 l2 : list nat) : NoDup l1 -> NoDup l2 -> (forall x, In x l1 -> ~ In x l2) -> NoDup (l1 ++ l2).
Proof.
  induction 1 as [|x l H1 H IH]; intros H2 D; [exact H2|]. cbn [app]. constructor.
  - rewrite in_app_iff. intros [F|F]; [exact (H1 F)|]. exact (D x (or_introl eq_refl) F).
  - apply IH; [exact H2|]. intros y Hy. apply D. right. exact Hy.
Qed.
Lemma padded_perm n n' perm : n <= n' -> is_perm n perm -> is_perm n' (perm ++ seq n (n' - n)).
Proof.
  intros Hn (L & ND & Hin). split; [|split].
  - rewrite app_length, seq_length. lia.
  - apply NoDup_app_intro; [exact ND|apply seq_NoDup|]. intros p Hp Hs. apply Hin in Hp. apply in_seq in Hs. lia.
  - intros p. rewrite in_app_iff, <- Hin, in_seq. lia.
Qed.

Lemma network_applies S_ perm : is_perm (2 ^ S_) perm ->
  let cur := scatter (repeat 0 (2 ^ S_)) perm (seq 0 (2 ^ S_)) in
  forall p, p < 2 ^ S_ -> nsig (layers S_) (fun p => nth p cur 0) p = nth p perm 0.
Proof.
  intros (L & ND & Hin) cur p Hp.
  assert (forall k, k < 2 ^ S_ -> nth (nth k perm 0) cur 0 = k) as Lab.
  { intros k Hk. unfold cur. rewrite scatter_in; [rewrite seq_nth by exact Hk; reflexivity|exact ND|rewrite seq_length; lia|lia|].
    rewrite repeat_length. apply Hin, nth_In. lia. }
  assert (forall q, q < 2 ^ S_ -> exists k, k < 2 ^ S_ /\ nth k perm 0 = q) as Pre.
  { intros q Hq. apply Hin in Hq. destruct (In_nth perm q 0 Hq) as (k & Hk & E). exists k. split; [lia|exact E]. }
  set (f := fun p => nth p cur 0).
  assert (forall q, q < 2 ^ S_ -> nsig (layers S_) f q < 2 ^ S_) as Lt by (intros q Hq; apply nsig_lt; [apply layers_shape|exact Hq]).
  assert (f (nsig (layers S_) f p) = p) as E.
  { apply (sorted_inj_id (2 ^ S_) (fun q => f (nsig (layers S_) f q))).
    - intros q Hq. destruct (Pre _ (Lt q Hq)) as (k & Hk & E). unfold f at 1. rewrite <- E, Lab by exact Hk. exact Hk.
    - intros i j Hi Hj E. destruct (Pre _ (Lt i Hi)) as (a & Ha & Ea). destruct (Pre _ (Lt j Hj)) as (b & Hb & Eb).
      apply (nsig_inj (layers S_) f). rewrite <- Ea, <- Eb in *. unfold f in E. rewrite !Lab in E by assumption. congruence.
    - intros i j Hij Hj. apply network_sorts; assumption.
    - exact Hp. }
  destruct (Pre _ (Lt p Hp)) as (k & Hk & Ek). rewrite <- Ek in E. unfold f in E. rewrite Lab in E by exact Hk. rewrite <- Ek. congruence.
Qed.

Theorem apply_permutation_correct R data perm out : is_perm (length data) perm ->
  apply_permutation R data perm = Some out -> out = map (fun i => nth i data d) perm.
Proof.
  intros HP H. unfold PermModel.apply_permutation in H. cbv zeta in H.
  set (n := length data) in *. set (S_ := Nat.log2_up (Nat.max n 2)) in *.
  assert (n <= 2 ^ S_) as Hn.
  { unfold S_. pose proof (Nat.log2_log2_up_spec (Nat.max n 2)). lia. }
  rewrite Nat.log2_pow2 in H by lia.
  set (perm' := perm ++ seq n (2 ^ S_ - n)) in *. set (data' := data ++ repeat d (2 ^ S_ - n)) in *.
  assert (length data' = 2 ^ S_) as Ld by (unfold data'; rewrite app_length, repeat_length; fold n; lia).
  assert (is_perm (2 ^ S_) perm') as HP' by (apply padded_perm; assumption).
  destruct (run_layers _ _ _ _ _ _ _) as [cur|] eqn:E; [|discriminate H]. injection H as <-.
  unfold sort_controls in E. rewrite Nat.log2_pow2 in E by lia.
  set (cur0 := scatter (repeat 0 (2 ^ S_)) perm' (seq 0 (2 ^ S_))) in *.
  assert (length cur0 = 2 ^ S_) as Lc0 by (unfold cur0; rewrite scatter_length; apply repeat_length).
  destruct (run_layers_sig R S_ (layers S_) (layers_shape S_) [] cur0 true data' cur Lc0 Ld E) as [Lo Eo].
  apply (nth_ext _ _ d (nth 0 data d)); [rewrite firstn_length, map_length, Lo; destruct HP as (-> & _); lia|].
  intros i Hi. rewrite firstn_length, Lo in Hi. assert (i < n) as Hin by lia.
  rewrite (map_nth (fun i => nth i data d) perm 0 i).
  assert (nth i (firstn n cur) d = nth i cur d) as ->.
  { rewrite <- (firstn_skipn n cur) at 2. rewrite app_nth1; [reflexivity|rewrite firstn_length; lia]. }
  rewrite Eo by lia. unfold cur0. rewrite (network_applies S_ perm' HP') by lia.
  destruct HP as (Lp & _ & Hp). unfold perm', data'. rewrite (app_nth1 perm) by lia. rewrite app_nth1; [reflexivity|].
  fold n. apply Hp, nth_In. lia.
Qed.

(** completion: with generic draws both transfers succeed *)
Lemma run_layers_local R S_ ls : forall cs off data, exists out, run_layers R S_ cs ls off false data = Some out.
Proof. induction ls as [|[s dist] r IH]; intros cs off data; [cbn; eauto|]. cbn [PermModel.run_layers]. apply IH. Qed.

Definition generic_draw (rC : Z) (r : ot_rand) : Prop :=
  let o := ord (grp X) in let k := rk r in let r0 := rr0 r in let r1 := rr1 r in
  (k mod o <> 0 /\ (rC - k) mod o <> 0 /\ (rC - 2 * k) mod o <> 0 /\ r1 mod o <> 0 /\ (r1 - r0) mod o <> 0)%Z.

Theorem apply_permutation_completes R data perm : gen_exact (grp X) -> is_perm (length data) perm ->
  (forall i, i < 2 * Nat.max (length data) 1 -> generic_draw (rC0 R) (rnd0 R i) /\ generic_draw (rC1 R) (rnd1 R i)) ->
  exists out, apply_permutation R data perm = Some out.
Proof.
  intros EX HP HR. unfold PermModel.apply_permutation. cbv zeta.
  set (n := length data) in *. set (S_ := Nat.log2_up (Nat.max n 2)) in *.
  assert (n <= 2 ^ S_ /\ 2 ^ S_ <= 2 * Nat.max n 1 /\ 0 < S_) as (Hn & Hn2 & HS).
  { unfold S_. pose proof (Nat.log2_up_spec (Nat.max n 2)) as (A & B); [lia|].
    assert (0 < Nat.log2_up (Nat.max n 2)) as P by (apply Nat.log2_up_pos; lia).
    split; [lia|]. split; [|exact P]. destruct (Nat.log2_up (Nat.max n 2)) as [|k]; [lia|]. cbn [pred Nat.pow] in *.
    destruct n as [|[|n']]; [|reflexivity || idtac|]; cbn [Nat.max] in *; try lia.
    all: destruct k as [|k]; cbn in *; lia. }
  rewrite Nat.log2_pow2 by lia.
  set (perm' := perm ++ seq n (2 ^ S_ - n)). set (data' := data ++ repeat d (2 ^ S_ - n)).
  unfold sort_controls. rewrite Nat.log2_pow2 by lia. set (cur0 := scatter _ _ _).
  assert (exists ls stage, layers S_ = (stage, 2 ^ 0) :: ls) as (ls & stage & Els).
  { unfold layers. destruct S_ as [|s]; [lia|]. cbn [seq flat_map Nat.add Nat.sub map app]. eauto. }
  rewrite Els. cbn [controls_loop PermModel.run_layers]. cbv zeta.
  set (c := layer_ctrls (2 ^ S_) stage (2 ^ 0) cur0).
  assert (length c = length (idx_i (2 ^ S_) (2 ^ 0))) as Lcc by (unfold c; rewrite (layer_ctrls_swp S_ 0 stage HS); apply map_length).
  rewrite <- Lcc. set (rest := controls_loop _ _ _).
  assert (dynamic_slice (c ++ rest) 0 (length c) = c) as -> by exact (slice_mid [] c rest).
  assert (length c <= 2 ^ S_) as Lc.
  { rewrite Lcc. unfold idx_i. etransitivity; [apply filter_length_le|]. rewrite seq_length. lia. }
  unfold PermModel.secure_switch.
  destruct (transfer_succeeds X OKX M CT enc dec SYM (rC0 R) (rnd0 R) (gather d data' (idx_i (2 ^ S_) (2 ^ 0)))
    (gather d data' (idx_j (2 ^ S_) (2 ^ 0))) (map bit c) d EX (bit_bitZ c)) as (y0 & ->).
  { unfold gather. rewrite !map_length. lia. }
  { unfold gather, idx_j. rewrite !map_length. lia. }
  { intros i Hi. rewrite map_length in Hi. apply HR. lia. }
  destruct (transfer_succeeds X OKX M CT enc dec SYM (rC1 R) (rnd1 R) (gather d data' (idx_i (2 ^ S_) (2 ^ 0)))
    (gather d data' (idx_j (2 ^ S_) (2 ^ 0))) (map (fun c => 1 - bit c)%Z c) d EX (inv_bitZ c)) as (y1 & ->).
  { unfold gather. rewrite !map_length. lia. }
  { unfold gather, idx_j. rewrite !map_length. lia. }
  { intros i Hi. rewrite map_length in Hi. apply HR. lia. }
  destruct (run_layers_local R (2 ^ S_) ls (c ++ rest) (0 + length c)
     (scatter (scatter (repeat d (2 ^ S_)) (idx_i (2 ^ S_) (2 ^ 0)) y0) (idx_j (2 ^ S_) (2 ^ 0)) y1)) as (out & ->).
  eauto.
Qed.
End Apply.
