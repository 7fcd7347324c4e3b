(** Proofs for the Arrow vector columns. *)
From Coq Require Import String List ZArith Bool Arith Lia.
From Verif Require Import VecModel VecSpec.
Import ListNotations.
Local Open Scope nat_scope.

Lemma zeros_nth n i : nth i (zeros n) 0%Z = 0%Z. Proof. apply nth_repeat. Qed.
Lemma zeros_len n : length (zeros n) = n. Proof. apply repeat_length. Qed.
Lemma set_nth_len v : forall l i, length (set_nth i v l) = length l.
Proof. induction l as [|x l IH]; intros [|i]; cbn; auto. Qed.
Lemma set_nth_nth v : forall l i k, i < length l -> nth k (set_nth i v l) 0%Z = if k =? i then v else nth k l 0%Z.
Proof.
  induction l as [|x l IH]; intros i k H; [cbn in H; lia|]. destruct i, k; cbn; auto. apply IH. cbn in H. lia.
Qed.
Lemma in_range_spec n i : in_range n i = true <-> exists k, i = Z.of_nat k /\ k < n.
Proof.
  unfold in_range. rewrite andb_true_iff, Z.leb_le, Z.ltb_lt. split.
  - intros [A B]. exists (Z.to_nat i). lia.
  - intros (k & -> & H). lia.
Qed.

Lemma fill_spec size : forall idx val acc, length idx = length val -> length acc = size ->
  exists v, fill size idx val acc = Ok v /\ length v = size /\
    (forall i, i < size -> ~ In (Z.of_nat i) idx -> nth i v 0%Z = nth i acc 0%Z) /\
    (NoDup idx -> forall k i x, nth_error idx k = Some (Z.of_nat i) -> nth_error val k = Some x -> i < size -> nth i v 0%Z = x).
Proof.
  induction idx as [|j idx IH]; intros [|w val] acc L La; try discriminate.
  - exists acc. cbn. repeat split; auto. intros _ [|k] i x E; discriminate.
  - cbn [fill]. set (acc' := if in_range size j then set_nth (Z.to_nat j) w acc else acc).
    assert (La' : length acc' = size) by (unfold acc'; destruct (in_range size j); [now rewrite set_nth_len|auto]).
    destruct (IH val acc' ltac:(cbn in L; lia) La') as (v & E & Lv & N & D). exists v. split; [exact E|]. split; [exact Lv|]. split.
    + intros i Hi Ni. rewrite N by (auto; intros X; apply Ni; now right). unfold acc'. destruct (in_range size j) eqn:Er; auto.
      apply in_range_spec in Er. destruct Er as (k & -> & Hk). rewrite Nat2Z.id. rewrite set_nth_nth by lia.
      destruct (Nat.eqb_spec i k) as [->|Ne]; auto. exfalso. apply Ni. now left.
    + intros Nd. apply NoDup_cons_iff in Nd. destruct Nd as [Nj Nd']. intros [|k] i x E1 E2 Hi; cbn in E1, E2.
      * injection E1 as ->. injection E2 as ->. rewrite N by auto. unfold acc'.
        assert (Er : in_range size (Z.of_nat i) = true) by (apply in_range_spec; exists i; split; [reflexivity|lia]). rewrite Er, Nat2Z.id, set_nth_nth by lia. now rewrite Nat.eqb_refl.
      * now apply (D Nd' k i x).
Qed.

Lemma as_py_denotes size r : sparse_row_ok r -> exists v, sparse_as_py size r = Ok v /\ sparse_denotes size r v.
Proof.
  intros Or. destruct r as [[idx val]|]; cbn [sparse_as_py].
  - destruct Or as [L Nd]. destruct (fill_spec size idx val (zeros size) L (zeros_len size)) as (v & E & Lv & N & D).
    exists v. split; auto. split; auto. split; [now apply D|]. intros i Hi Ni. rewrite N by auto. apply zeros_nth.
  - exists (zeros size). split; auto. split; [apply zeros_len|]. intros. apply zeros_nth.
Qed.
Lemma denotes_unique size r v w : sparse_row_ok r -> sparse_denotes size r v -> sparse_denotes size r w -> v = w.
Proof.
  intros Or [Lv A] [Lw B]. apply nth_ext with (d := 0%Z) (d' := 0%Z); [congruence|]. intros i Hi. rewrite Lv in Hi.
  destruct r as [[idx val]|].
  - destruct A as [A1 A2], B as [B1 B2]. destruct Or as [L _]. destruct (in_dec Z.eq_dec (Z.of_nat i) idx) as [I|I].
    + apply In_nth_error in I. destruct I as [k Ek].
      assert (Hk : k < length val) by (rewrite <- L; apply nth_error_Some; congruence).
      destruct (nth_error val k) as [x|] eqn:Ex; [|apply nth_error_Some in Hk; congruence]. rewrite (A1 k i x), (B1 k i x); auto.
    + now rewrite A2, B2.
  - now rewrite A, B.
Qed.
Lemma lookup_spec i : forall idx val, length idx = length val ->
  (forall k x, NoDup idx -> nth_error idx k = Some i -> nth_error val k = Some x -> lookup i idx val = Ok x) /\ (~ In i idx -> lookup i idx val = Ok 0%Z).
Proof.
  induction idx as [|j idx IH]; intros [|w val] L; try discriminate.
  - split; [intros [|k] x _ E; discriminate|reflexivity].
  - destruct (IH val ltac:(cbn in L; lia)) as [A B]. cbn [lookup]. split.
    + intros [|k] x Nd E1 E2; cbn in E1, E2.
      * injection E1 as ->. injection E2 as ->. now rewrite Z.eqb_refl.
      * inversion Nd; subst. destruct (Z.eqb_spec j i) as [->|Ne]; [exfalso; apply nth_error_In in E1; tauto|]. eauto.
    + intros Ni. destruct (Z.eqb_spec j i) as [->|Ne]; [exfalso; apply Ni; now left|]. apply B. intros X. apply Ni. now right.
Qed.
Lemma getitem_denotes size r v i : sparse_row_ok r -> sparse_denotes size r v -> i < size -> sparse_getitem size r (Z.of_nat i) = Ok (nth i v 0%Z).
Proof.
  intros Or [Lv A] Hi. unfold sparse_getitem. assert (Er : in_range size (Z.of_nat i) = true) by (apply in_range_spec; exists i; split; [reflexivity|lia]). rewrite Er. cbn [negb].
  destruct r as [[idx val]|]; [|now rewrite A]. destruct Or as [L Nd], A as [A1 A2]. destruct (lookup_spec (Z.of_nat i) idx val L) as [B1 B2].
  destruct (in_dec Z.eq_dec (Z.of_nat i) idx) as [I|I].
  - apply In_nth_error in I. destruct I as [k Ek]. assert (Hk : k < length val) by (rewrite <- L; apply nth_error_Some; congruence).
    destruct (nth_error val k) as [x|] eqn:Ex; [|apply nth_error_Some in Hk; congruence]. rewrite (A1 k i x) by auto. eauto.
  - rewrite A2 by auto. now apply B2.
Qed.
Lemma numpy_pylist size rows : sparse_to_numpy size rows = sparse_to_pylist size rows.
Proof.
  reflexivity.
Qed.
Lemma mapM_ok {A B} (f : A -> res B) l : Forall (fun x => exists y, f x = Ok y) l -> exists ys, mapM f l = Ok ys /\ length ys = length l /\
  forall i x, nth_error l i = Some x -> exists y, nth_error ys i = Some y /\ f x = Ok y.
Proof.
  induction 1 as [|x l (y & E) F (ys & Em & L & N)].
  - exists []. repeat split; auto. intros [|i]; discriminate.
  - exists (y :: ys). cbn [mapM]. rewrite E. cbn [bind]. rewrite Em. cbn. split; auto. split; [lia|].
    intros [|i] x' E'; cbn in *; [injection E' as <-; eauto|eauto].
Qed.

(** ** one-hot *)
Lemma onehot_as_py_denotes size r : onehot_denotes size r (onehot_as_py size r).
Proof.
  unfold onehot_as_py. destruct r as [a|].
  - destruct (in_range size a) eqn:Er.
    + apply in_range_spec in Er. destruct Er as (k & -> & Hk). rewrite Nat2Z.id. split; [now rewrite set_nth_len, zeros_len|].
      intros i Hi. rewrite set_nth_nth by (now rewrite zeros_len). rewrite zeros_nth.
      destruct (Nat.eqb_spec i k), (Z.eqb_spec (Z.of_nat k) (Z.of_nat i)); auto; lia.
    + split; [apply zeros_len|]. intros i Hi. rewrite zeros_nth. destruct (Z.eqb_spec a (Z.of_nat i)) as [->|]; auto.
      assert (in_range size (Z.of_nat i) = true) by (apply in_range_spec; exists i; split; [reflexivity|lia]). congruence.
  - split; [apply zeros_len|]. intros. apply zeros_nth.
Qed.
Lemma onehot_unique size r v w : onehot_denotes size r v -> onehot_denotes size r w -> v = w.
Proof. intros [Lv A] [Lw B]. apply nth_ext with (d := 0%Z) (d' := 0%Z); [congruence|]. intros i Hi. rewrite A, B by congruence. reflexivity. Qed.

Lemma onehot_numpy size rows : onehot_to_numpy size rows = onehot_to_pylist size rows.
Proof.
  unfold onehot_to_numpy, onehot_to_pylist.
  set (step := fun (m : list (list Z)) (p : nat * orow) => match snd p with
      | Some a => if in_range size a then map (fun q => if fst q =? fst p then set_nth (Z.to_nat a) 1%Z (snd q) else snd q) (combine (seq 0 (length m)) m) else m
      | None => m end).
  assert (G : forall tl hd, fold_left step (combine (seq (length hd) (length tl)) tl) (map (onehot_as_py size) hd ++ repeat (zeros size) (length tl))
     = map (onehot_as_py size) (hd ++ tl)).
  { induction tl as [|r tl IH]; intros hd; [cbn; now rewrite !app_nil_r|].
    cbn [length seq combine fold_left]. specialize (IH (hd ++ [r])). rewrite <- app_assoc in IH. cbn [app] in IH. rewrite <- IH.
    rewrite app_length. cbn [length]. rewrite Nat.add_1_r. f_equal.
    rewrite map_app. cbn [map]. rewrite <- app_assoc. cbn [app repeat].
    unfold step. cbn [snd fst]. destruct r as [a|]; [|reflexivity].
    change (onehot_as_py size (Some a)) with (if in_range size a then set_nth (Z.to_nat a) 1%Z (zeros size) else zeros size). destruct (in_range size a); [|reflexivity].
    set (m := map (onehot_as_py size) hd). assert (Lm : length m = length hd) by apply map_length. rewrite <- Lm.
    assert (K : forall (l : list (list Z)) s x, (x < s \/ s + length l <= x) -> map (fun q : nat * list Z => if fst q =? x then set_nth (Z.to_nat a) 1%Z (snd q) else snd q) (combine (seq s (length l)) l) = l).
    { clear. induction l as [|y l IH]; intros s x H; auto. cbn [length seq combine map fst snd].
      destruct (Nat.eqb_spec s x); [cbn in H; lia|]. f_equal. apply IH. cbn in H. lia. }
    assert (S2 : forall (l1 l2 : list (list Z)) s, combine (seq s (length (l1 ++ l2))) (l1 ++ l2) = combine (seq s (length l1)) l1 ++ combine (seq (s + length l1) (length l2)) l2).
    { clear. induction l1 as [|y l1 IH]; intros l2 s; cbn; [now rewrite Nat.add_0_r|]. f_equal. rewrite IH. do 3 f_equal. lia. }
    rewrite S2, map_app. f_equal; [apply K; lia|]. cbn [length seq combine map fst snd plus]. rewrite Nat.eqb_refl. f_equal. apply K. lia. }
  specialize (G rows []). cbn [length map app] in G. exact G.
Qed.

(** ** dense *)
Lemma chunks_concat size : 0 < size -> forall (rows : list (list Z)), Forall (fun v => length v = size) rows ->
  forall fuel, length (concat rows) <= fuel -> chunks fuel size (concat rows) = rows.
Proof.
  intros P. induction 1 as [|v rows Lv F IH]; intros fuel H; [now destruct fuel|].
  cbn [concat] in *. destruct fuel as [|fuel]; [rewrite app_length in H; lia|]. cbn [chunks].
  assert (H' := H). rewrite app_length in H'. clear H.
  destruct (v ++ concat rows) as [|x r] eqn:E; [apply app_eq_nil in E; destruct E; subst; cbn in *; lia|]. rewrite <- E.
  rewrite firstn_app, skipn_app, Lv, Nat.sub_diag. cbn [firstn skipn]. rewrite app_nil_r.
  rewrite <- Lv at 1. rewrite firstn_all. rewrite <- Lv at 2. rewrite skipn_all. cbn [app]. f_equal. apply IH. lia.
Qed.
Definition present (rows : list drow) : list (list Z) := concat (map (fun r => match r with Some v => [v] | None => [] end) rows).
Lemma dense_present size rows : 0 < size -> Forall (fun r => match r with Some v => length v = size | None => True end) rows ->
  dense_to_numpy size rows = present rows.
Proof.
  intros P F. unfold dense_to_numpy. cbv zeta.
  assert (E : concat (map (fun r => match r with Some v => v | None => [] end) rows) = concat (present rows)).
  { clear F. unfold present. induction rows as [|[v|] rows IH]; cbn; auto. now rewrite IH. }
  rewrite E. apply chunks_concat; auto. clear E. unfold present. induction F as [|[v|] rows L F IH]; cbn; auto.
Qed.
Lemma present_len rows : length (present rows) <= length rows /\ (length (present rows) = length rows -> Forall (fun r => r <> None) rows).
Proof.
  unfold present. induction rows as [|[v|] rows [IH1 IH2]]; cbn; split; auto; try lia.
  - intros H. constructor; [discriminate|apply IH2; lia].
Qed.

Lemma column_array_ok c : column_ok c -> exists a, column_array c = Ok a /\ length a = column_rows c /\
  forall i, i < column_rows c -> column_row c i (nth i a []).
Proof.
  destruct c as [n rows|n rows|n rows|rows]; cbn [column_ok column_array column_rows column_row].
  - intros [P F]. exists (dense_to_numpy n rows). split; auto.
    assert (X : rows = map Some (dense_to_numpy n rows)).
    { rewrite dense_present; [|exact P|eapply Forall_impl; [|exact F]; intros r (v & -> & L); exact L].
      clear P. induction F as [|r rows (v & -> & L) F IH]; auto. cbn [present]. unfold present in *. cbn. now rewrite <- IH. }
    assert (Lr : length (dense_to_numpy n rows) = length rows) by (rewrite X at 2; now rewrite map_length). split; auto.
    intros i Hi. rewrite X at 1. rewrite nth_error_map. rewrite nth_error_nth' with (d := []) by lia. reflexivity.
  - intros F. rewrite numpy_pylist. unfold sparse_to_pylist.
    destruct (mapM_ok (sparse_as_py n) rows) as (ys & E & L & N).
    { eapply Forall_impl; [|exact F]. intros r Or. destruct (as_py_denotes n r Or) as (v & E & _). eauto. }
    exists ys. split; auto. split; auto. intros i Hi. destruct (nth_error rows i) as [r|] eqn:Er; [|apply nth_error_None in Er; lia].
    exists r. split; auto. destruct (N i r Er) as (y & Ey & Ef). apply nth_error_nth with (d := []) in Ey. rewrite Ey.
    rewrite Forall_forall in F. destruct (as_py_denotes n r (F r (nth_error_In _ _ Er))) as (v & E' & D). congruence.
  - intros _. rewrite onehot_numpy. exists (onehot_to_pylist n rows). split; auto. unfold onehot_to_pylist. split; [apply map_length|].
    intros i Hi. destruct (nth_error rows i) as [r|] eqn:Er; [|apply nth_error_None in Er; lia]. exists r. split; auto.
    replace (nth i (map (onehot_as_py n) rows) []) with (onehot_as_py n r); [apply onehot_as_py_denotes|].
    symmetry. apply nth_error_nth. rewrite nth_error_map, Er. reflexivity.
  - intros _. exists (map (fun x => [x]) rows). split; auto. split; [apply map_length|]. intros i Hi.
    destruct (nth_error rows i) as [x|] eqn:Er; [|apply nth_error_None in Er; lia]. exists x. split; auto.
    apply nth_error_nth. rewrite nth_error_map, Er. reflexivity.
Qed.

Lemma table_ok cols n : cols <> [] -> Forall column_ok cols -> Forall (fun c => column_rows c = n) cols ->
  exists m, table_to_numpy cols = Ok m /\ length m = n /\
    forall i, i < n -> exists parts, nth i m [] = concat parts /\ Forall2 (fun c fs => column_row c i fs) cols parts.
Proof.
  intros Ne F R.
  destruct (mapM_ok column_array cols) as (arrs & E & L & N).
  { eapply Forall_impl; [|exact F]. intros c Oc. destruct (column_array_ok c Oc) as (a & Ea & _). eauto. }
  assert (A : Forall2 (fun c a => length a = n /\ forall i, i < n -> column_row c i (nth i a [])) cols arrs).
  { clear Ne. revert arrs E L N. induction cols as [|c cols IH]; intros arrs E L N; destruct arrs as [|a arrs]; try discriminate; constructor.
    - inversion F; inversion R; subst. destruct (column_array_ok c) as (a' & Ea & La & Ra); auto.
      destruct (N 0 c eq_refl) as (y & Ey & Ec). cbn in Ey. injection Ey as <-. rewrite Ec in Ea. injection Ea as <-. auto.
    - inversion F; inversion R; subst. cbn [mapM] in E. destruct (column_array c); [|discriminate]. cbn [bind] in E.
      destruct (mapM column_array cols) as [ys|] eqn:Em; [|discriminate]. cbn in E. injection E as _ <-. apply IH; auto.
      intros i0 x0 Ex. apply (N (S i0) x0 Ex). }
  unfold table_to_numpy. rewrite E. cbn [bind]. unfold hconcat.
  destruct arrs as [|a rest]; [destruct cols; [congruence|discriminate]|].
  assert (La : length a = n) by (inversion A; tauto).
  assert (Fl : forallb (fun b => length b =? length a) rest = true).
  { apply forallb_forall. intros b Hb. apply Nat.eqb_eq. rewrite La. inversion A as [|? ? ? ? _ A']; subst. clear - A' Hb.
    induction A' as [|? ? ? ? [H _] _ IH]; [destruct Hb|]. destruct Hb as [<-|Hb]; auto. }
  rewrite Fl. eexists. split; [reflexivity|]. split; [rewrite map_length, seq_length; exact La|]. intros i Hi.
  exists (map (fun b => nth i b []) (a :: rest)). split.
  - rewrite (nth_indep _ [] ((fun i => concat (map (fun b => nth i b []) (a :: rest))) 0)) by (rewrite map_length, seq_length; lia).
    rewrite map_nth with (f := fun i => concat (map (fun b => nth i b []) (a :: rest))). rewrite seq_nth by lia. reflexivity.
  - clear - A Hi. induction A as [|c b cols arrs [_ H] A IH]; cbn; constructor; auto.
Qed.

(** ** types *)
Lemma str_type t : str_to_type (type_to_str t) = Ok t. Proof. destruct t; reflexivity. Qed.
Lemma type_roundtrip t : constructible t -> ext_deserialize (v_kind t) (v_sto t) (ext_serialize t) = Ok t.
Proof.
  intros [(n & val & E)|[(n & val & idx & E)|(n & val & idx & E)]].
  - unfold dense_new in E. destruct (or_default val Float32) as [|v|] eqn:Ev; try discriminate. destruct n as [z| |]; try discriminate.
    unfold vector_init in E. destruct (z <=? 0)%Z eqn:Ez; [discriminate|]. injection E as <-.
    cbn [v_kind v_sto ext_serialize ext_deserialize v_size v_val]. unfold dense_new, or_default, vector_init. now rewrite Ez.
  - unfold sparse_new in E. destruct (or_default val Float32) as [|v|]; try discriminate. destruct (or_default idx Int32) as [|i|]; try discriminate.
    destruct (is_integer i) eqn:Ei; [|discriminate]. unfold vector_init in E. destruct n as [z| |]; try discriminate. destruct (z <=? 0)%Z eqn:Ez; [discriminate|]. injection E as <-.
    cbn [v_kind v_sto ext_serialize ext_deserialize v_size v_val]. unfold sparse_new, or_default, vector_init. now rewrite Ei, Ez.
  - unfold one_hot_new in E. destruct (or_default idx Int32) as [|i|]; try discriminate.
    destruct (is_integer i) eqn:Ei; [|discriminate]. unfold vector_init in E. destruct n as [z| |]; try discriminate. destruct (or_default val Float32) as [|v|]; try discriminate.
    destruct (z <=? 0)%Z eqn:Ez; [discriminate|]. injection E as <-.
    cbn [v_kind v_sto ext_serialize ext_deserialize v_size v_val]. rewrite str_type. cbn [bind]. unfold one_hot_new, or_default, vector_init. now rewrite Ei, Ez.
Qed.
