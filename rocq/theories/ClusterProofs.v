(** Proofs about cluster specifications. *)
From Coq Require Import Bool Arith Lia String Ascii DecimalString Decimal DecimalNat Sorted Permutation List.
From Verif Require Import ClusterModel ClusterSpec.
Import ListNotations.
Local Open Scope nat_scope.

Lemma get_In {A} k (d : dict A) v : get k d = Some v -> In (k, v) d.
Proof.
  induction d as [|[k' v'] d IH]; [discriminate|]. cbn. destruct (String.eqb_spec k k') as [->|N]; [intros E; injection E as ->; left; reflexivity|right; auto].
Qed.
Lemma get_None {A} k (d : dict A) : get k d = None <-> ~ In k (map fst d).
Proof.
  induction d as [|[k' v'] d IH]; cbn; [tauto|]. destruct (String.eqb_spec k k') as [->|N]; [split; [discriminate|intros H; exfalso; apply H; left; reflexivity]|].
  rewrite IH. split; intros H; [intros [E|E]; congruence || tauto|tauto].
Qed.
Lemma has_In {A} k (d : dict A) : has k d = true <-> In k (map fst d).
Proof.
  unfold has. destruct (get k d) as [v|] eqn:E.
  - split; [intros _|reflexivity]. apply get_In in E. apply in_map_iff. exists (k, v). auto.
  - apply get_None in E. split; [discriminate|tauto].
Qed.
Lemma get_unique {A} k v (d : dict A) : NoDup (map fst d) -> In (k, v) d -> get k d = Some v.
Proof.
  induction d as [|[k' v'] d IH]; intros ND H; [destruct H|]. destruct H as [E|H]; cbn.
  - injection E as -> ->. rewrite String.eqb_refl. reflexivity.
  - inversion ND as [|? ? N ND']; subst. destruct (String.eqb_spec k k') as [->|_]; [|apply IH; assumption]. exfalso. apply N. apply in_map_iff. exists (k', v). auto.
Qed.
Lemma set_app {A} k (v : A) d : ~ In k (map fst d) -> set k v d = d ++ [(k, v)].
Proof.
  induction d as [|[k' v'] d IH]; intros H; [reflexivity|]. cbn in *. destruct (String.eqb_spec k k') as [->|N]; [exfalso; apply H; left; reflexivity|]. rewrite IH by tauto. reflexivity.
Qed.
Lemma update_app {A} (e d : dict A) : NoDup (map fst e) -> (forall k, In k (map fst e) -> ~ In k (map fst d)) -> update d e = d ++ e.
Proof.
  revert d. induction e as [|[k v] e IH]; intros d ND H; [rewrite app_nil_r; reflexivity|]. change (update d ((k, v) :: e)) with (update (set k v d) e).
  inversion ND as [|? ? N ND']; subst. rewrite set_app by (apply H; left; reflexivity). rewrite IH.
  - rewrite <- app_assoc. reflexivity.
  - exact ND'.
  - intros k' Hk' Hin. rewrite map_app, in_app_iff in Hin. destruct Hin as [Hin|[E|[]]]; [apply (H k'); [right; exact Hk'|exact Hin]|]. cbn in E. subst. apply N, Hk'.
Qed.
Lemma set_keys {A} k (v : A) d k' : In k' (map fst (set k v d)) <-> k' = k \/ In k' (map fst d).
Proof.
  induction d as [|[q w] d IH]; cbn; [intuition|]. destruct (String.eqb_spec k q) as [->|N]; cbn; [intuition|]. rewrite IH. tauto.
Qed.
Lemma set_NoDup {A} k (v : A) d : NoDup (map fst d) -> NoDup (map fst (set k v d)).
Proof.
  induction d as [|[q w] d IH]; intros ND; cbn; [repeat constructor; intros []|]. inversion ND as [|? ? N ND']; subst. destruct (String.eqb_spec k q) as [->|Ne]; cbn; [exact ND|].
  constructor; [|apply IH, ND']. rewrite set_keys. cbn in *. intros [E|E]; [congruence|contradiction].
Qed.
Lemma update_NoDup {A} (e d : dict A) : NoDup (map fst d) -> NoDup (map fst (update d e)).
Proof. revert d. induction e as [|[k v] e IH]; intros d ND; [exact ND|]. unfold update. cbn [fold_left]. apply IH, set_NoDup, ND. Qed.

Lemma str_inj a b : str a = str b -> a = b.
Proof.
  unfold str. intros H. apply (f_equal NilEmpty.uint_of_string) in H. rewrite !NilEmpty.usu in H. injection H as H. apply DecimalNat.Unsigned.to_uint_inj, H.
Qed.
Lemma append_inj p a b : append p a = append p b -> a = b.
Proof. induction p as [|c p IH]; cbn; [auto|]. intros H. injection H as H. auto. Qed.

Lemma node_inj a b : append "node" (str a) = append "node" (str b) -> a = b.
Proof. intros H. apply str_inj, (append_inj "node"), H. Qed.

Section P.
Context {J : Type}.
Variable json_str : string -> J.
Variable empty_dict : J.
Variable truthy : J -> bool.
Notation runtime_info := (runtime_info J). Notation node := (node J). Notation device := (device J). Notation cluster := (cluster J).
Notation rt_of := (rt_of J json_str empty_dict truthy). Notation nodes_of := (nodes_of J json_str empty_dict truthy).
Notation rt_normal := (rt_normal empty_dict truthy). Notation regular := (regular empty_dict truthy).
Notation devices_of := (devices_of J empty_dict). Notation from_dict := (from_dict J json_str empty_dict truthy).

Lemma rt_dict_NoDup r : NoDup (map fst (rt_to_dict J r)).
Proof.
  apply update_NoDup. cbn. repeat constructor; cbn; intuition discriminate.
Qed.
Lemma rt_of_normal_ (d : dict J) : NoDup (map fst d) -> rt_normal (rt_of (Some d)).
Proof.
  intros ND. unfold ClusterSpec.rt_normal, ClusterModel.rt_of. cbn [ri_ops ri_extra].
  split; [match goal with |- context [if truthy ?x then _ else _] => destruct (truthy x) eqn:E end; [left; exact E|right; reflexivity]|]. split.
  - induction d as [|[k v] d IH]; [constructor|]. inversion ND as [|? ? N ND']; subst. cbn. destruct (negb (known k)); [|auto]. cbn. constructor; [|auto].
    intros H. apply N. apply in_map_iff in H. destruct H as ((k', v') & E & Hi). apply filter_In in Hi. apply in_map_iff. exists (k', v'). tauto.
  - intros k Hk. apply in_map_iff in Hk. destruct Hk as ((k', v') & E & Hi). apply filter_In in Hi. cbn in *. subst. destruct Hi as [_ Hi]. destruct (known k); [discriminate Hi|reflexivity].
Qed.
Lemma rt_of_normal o : (forall d, o = Some d -> NoDup (map fst d)) -> rt_normal (rt_of o).
Proof.
  intros H. destruct o as [d|]; [apply rt_of_normal_, H; reflexivity|]. apply (rt_of_normal_ []). constructor.
Qed.
Lemma rt_roundtrip r : rt_normal r -> rt_of (Some (rt_to_dict J r)) = r.
Proof.
  intros (Ho & ND & Hk). unfold rt_to_dict. rewrite update_app; [|exact ND|].
  - unfold ClusterModel.rt_of. destruct r as [v p o ex]. cbn [ri_version ri_platform ri_ops ri_extra] in *. unfold getd. cbn [app get]. cbn.
    f_equal.
    + destruct Ho as [E|E]; [rewrite E; reflexivity|]. subst. destruct (truthy empty_dict); reflexivity.
    + clear -Hk. induction ex as [|[k w] ex IH]; [reflexivity|]. cbn [filter fst]. rewrite (Hk k) by (left; reflexivity). cbn [negb]. f_equal. apply IH. intros k' H. apply Hk. right. exact H.
  - intros k Hk' Hin. apply Hk in Hk'. unfold known in Hk'. cbn in Hin. destruct Hin as [<-|[<-|[<-|[]]]]; discriminate Hk'.
Qed.

(* ---------------- nodes *)
Lemma nodes_of_spec l : forall i acc r, nodes_of i acc l = Some r -> NoDup (map fst acc) ->
  NoDup (map fst r) /\ exists l', r = acc ++ l' /\ length l' = length l /\
  forall j nc, nth_error l j = Some nc -> exists name ep, nc_name _ nc = Some name /\ nc_endpoint _ nc = Some ep /\ nth_error l' j = Some (name, Node _ name (i + j) ep (rt_of (nc_rt _ nc))).
Proof.
  induction l as [|nc l IH]; intros i acc r H ND; cbn in H.
  - injection H as <-. split; [exact ND|]. exists []. split; [rewrite app_nil_r; reflexivity|]. split; [reflexivity|]. intros [|j] nc E; discriminate E.
  - destruct (nc_name _ nc) as [name|] eqn:En; [|discriminate H]. destruct (nc_endpoint _ nc) as [ep|] eqn:Ee; [|discriminate H]. destruct (has name acc) eqn:Hh; [discriminate H|].
    apply IH in H.
    + destruct H as (ND' & l' & -> & L & K). split; [exact ND'|]. exists ((name, Node _ name i ep (rt_of (nc_rt _ nc))) :: l'). split; [rewrite <- app_assoc; reflexivity|]. split; [cbn; congruence|].
      intros [|j] nc' E; [injection E as <-; exists name, ep; rewrite Nat.add_0_r; auto|]. destruct (K j nc' E) as (nm & e & A & B & C). exists nm, e. split; [exact A|]. split; [exact B|]. cbn [nth_error]. rewrite C. do 3 f_equal. lia.
    + rewrite map_app. cbn. apply NoDup_app_remove_r with (l' := []) || idtac.
      assert (~ In name (map fst acc)) as Nn by (rewrite <- has_In; congruence). clear -ND Nn. induction (map fst acc) as [|a m IHm]; cbn; [repeat constructor; intros []|].
      inversion ND; subst. constructor; [|apply IHm; [assumption|intros Hx; apply Nn; right; exact Hx]]. rewrite in_app_iff. intros [Hx|[Hx|[]]]; [contradiction|]. subst. apply Nn. left. reflexivity.
Qed.
Lemma nodes_of_total l : forall i acc names, map (nc_name J) l = map Some names -> (forall nc, In nc l -> nc_endpoint _ nc <> None) ->
  NoDup (map fst acc ++ names) -> exists r, nodes_of i acc l = Some r /\ map fst r = map fst acc ++ names.
Proof.
  induction l as [|nc l IH]; intros i acc names En He ND; cbn.
  - destruct names; [|discriminate En]. exists acc. rewrite app_nil_r. auto.
  - destruct names as [|nm names]; [discriminate En|]. cbn in En. injection En as E1 E2. rewrite E1. destruct (nc_endpoint _ nc) as [ep|] eqn:Ee; [|exfalso; apply (He nc (or_introl eq_refl)); exact Ee].
    replace (has nm acc) with false.
    + destruct (IH (S i) (acc ++ [(nm, Node _ nm i ep (rt_of (nc_rt _ nc)))]) names E2) as (r & Er & Kr).
      * intros q Hq. apply He. right. exact Hq.
      * rewrite map_app. cbn. rewrite <- app_assoc. exact ND.
      * exists r. split; [exact Er|]. rewrite Kr, map_app, <- app_assoc. reflexivity.
    + symmetry. destruct (has nm acc) eqn:Hh; [|reflexivity]. apply has_In in Hh. apply NoDup_remove_2 in ND. exfalso. apply ND. apply in_or_app. left. exact Hh.
Qed.
Lemma nodes_roundtrip l : forall i acc, NoDup (map fst acc ++ map fst l) ->
  (forall j kv, nth_error l j = Some kv -> fst kv = n_name _ (snd kv) /\ n_rank _ (snd kv) = i + j /\ rt_normal (n_rt _ (snd kv))) ->
  nodes_of i acc (map (fun kv => node_to_dict J (snd kv)) l) = Some (acc ++ l).
Proof.
  induction l as [|[k nd] l IH]; intros i acc ND H; cbn [map]; [rewrite app_nil_r; reflexivity|]. destruct (H 0 (k, nd) eq_refl) as (Ek & Er & Hrt). cbn [fst snd] in *.
  cbn [ClusterModel.nodes_of node_to_dict nc_name nc_endpoint nc_rt snd]. rewrite <- Ek. replace (has k acc) with false.
  - rewrite rt_roundtrip by exact Hrt. rewrite IH.
    + rewrite <- app_assoc. cbn. do 4 f_equal. rewrite Ek. rewrite Nat.add_0_r in Er. rewrite <- Er. destruct nd; reflexivity.
    + rewrite map_app. cbn. rewrite <- app_assoc. exact ND.
    + intros j kv E. destruct (H (S j) kv E) as (A & B & C). split; [exact A|]. split; [lia|exact C].
  - symmetry. destruct (has k acc) eqn:Hh; [|reflexivity]. apply has_In in Hh. cbn in ND. apply NoDup_remove_2 in ND. exfalso. apply ND. apply in_or_app. left. exact Hh.
Qed.

(* ---------------- devices *)
Lemma members_of_spec nodes ms l : members_of J nodes ms = Some l -> Forall2 (fun m n => get m nodes = Some n) ms l.
Proof.
  revert l. induction ms as [|m ms IH]; intros l H; cbn in H; [injection H as <-; constructor|].
  destruct (get m nodes) as [n|] eqn:E; [|discriminate H]. destruct (members_of J nodes ms) as [l'|]; [|discriminate H]. injection H as <-. constructor; auto.
Qed.
Lemma members_of_total nodes ms : (forall m, In m ms -> In m (map fst nodes)) -> exists l, members_of J nodes ms = Some l /\ length l = length ms.
Proof.
  induction ms as [|m ms IH]; intros H; [exists []; auto|]. cbn. destruct (get m nodes) as [n|] eqn:E; [|exfalso; apply get_None in E; apply E, H; left; reflexivity].
  destruct IH as (l & -> & L); [intros q Hq; apply H; right; exact Hq|]. eexists. split; [reflexivity|]. cbn. congruence.
Qed.
Lemma members_of_len nodes ms l : members_of J nodes ms = Some l -> length l = length ms.
Proof. intros H. apply members_of_spec in H. induction H; cbn; congruence. Qed.
Lemma members_roundtrip nodes l : (forall m, In m l -> get (n_name _ m) nodes = Some m) -> members_of J nodes (map (n_name J) l) = Some l.
Proof. induction l as [|m l IH]; intros H; [reflexivity|]. cbn. rewrite (H m (or_introl eq_refl)), IH by (intros q Hq; apply H; right; exact Hq). reflexivity. Qed.
Lemma devices_roundtrip nodes l : (forall kv, In kv l -> fst kv = d_name _ (snd kv) /\ forall m, In m (d_members _ (snd kv)) -> get (n_name _ m) nodes = Some m) ->
  devices_of nodes (map (fun kv => (fst kv, dev_to_dict J (snd kv))) l) = Some l.
Proof.
  induction l as [|[k d] l IH]; intros H; [reflexivity|]. destruct (H (k, d) (or_introl eq_refl)) as [Ek Hm]. cbn [fst snd] in *. cbn [map fst snd ClusterModel.devices_of dev_to_dict dc_members dc_kind dc_config].
  rewrite members_roundtrip by exact Hm. rewrite IH by (intros kv Hkv; apply H; right; exact Hkv). do 3 f_equal. rewrite Ek. destruct d; reflexivity.
Qed.
Lemma devices_of_spec nodes l ds : devices_of nodes l = Some ds -> map fst ds = map fst l /\ forall j name dc, nth_error l j = Some (name, dc) ->
  exists kind ms mem, dc_kind _ dc = Some kind /\ dc_members _ dc = Some ms /\ members_of J nodes ms = Some mem /\
    nth_error ds j = Some (name, Device _ name kind mem (match dc_config _ dc with Some c => c | None => empty_dict end)).
Proof.
  revert ds. induction l as [|[nm dc] l IH]; intros ds H; cbn in H.
  - injection H as <-. split; [reflexivity|]. intros [|j] ? ? E; discriminate E.
  - destruct (dc_members _ dc) as [ms|] eqn:Em; [|discriminate H]. destruct (dc_kind _ dc) as [kind|] eqn:Ek; [|discriminate H].
    destruct (members_of J nodes ms) as [mem|] eqn:Emem; [|discriminate H]. destruct (devices_of nodes l) as [ds'|]; [|discriminate H]. injection H as <-. destruct (IH ds' eq_refl) as [A B].
    split; [cbn; congruence|]. intros [|j] name dc' E; [injection E as <- <-; exists kind, ms, mem; auto|]. apply B, E.
Qed.
Lemma devices_of_total nodes l : (forall name dc, In (name, dc) l -> exists kind ms, dc_kind _ dc = Some kind /\ dc_members _ dc = Some ms /\ forall m, In m ms -> In m (map fst nodes)) ->
  exists ds, devices_of nodes l = Some ds.
Proof.
  induction l as [|[nm dc] l IH]; intros H; [exists []; reflexivity|]. destruct (H nm dc (or_introl eq_refl)) as (kind & ms & Ek & Em & Hm). cbn. rewrite Em, Ek.
  destruct (members_of_total nodes ms Hm) as (mem & -> & _). destruct IH as (ds & ->); [intros n0 d0 H0; apply (H n0 d0); right; exact H0|]. eauto.
Qed.

(* ---------------- whole specifications *)
Lemma post_init_spec (c : cluster) : post_init _ c = true <->
  (forall kv, In kv (c_nodes _ c) -> fst kv = n_name _ (snd kv)) /\ (forall kv, In kv (c_devices _ c) -> fst kv = d_name _ (snd kv)) /\
  (forall kv m, In kv (c_devices _ c) -> In m (d_members _ (snd kv)) -> In (n_name _ m) (map fst (c_nodes _ c))) /\
  (forall kv, In kv (c_devices _ c) -> lower (d_kind _ (snd kv)) = "ppu"%string -> length (d_members _ (snd kv)) = 1).
Proof.
  unfold post_init. rewrite !andb_true_iff, !forallb_forall. split.
  - intros (((A & B) & C) & D). repeat split.
    + intros kv H. apply String.eqb_eq, A, H.
    + intros kv H. apply String.eqb_eq, B, H.
    + intros kv m H Hm. apply has_In. specialize (C kv H). rewrite forallb_forall in C. apply C, Hm.
    + intros kv H E. specialize (D kv H). rewrite E in D. cbn in D. apply Nat.eqb_eq, D.
  - intros (A & B & C & D). repeat split.
    + intros kv H. apply String.eqb_eq, A, H.
    + intros kv H. apply String.eqb_eq, B, H.
    + intros kv H. apply forallb_forall. intros m Hm. apply has_In, (C kv m H Hm).
    + intros kv H. destruct (String.eqb_spec (lower (d_kind _ (snd kv))) "ppu") as [E|E]; [|reflexivity]. cbn. apply Nat.eqb_eq, (D kv H E).
Qed.

Lemma regular_roundtrip (c : cluster) : regular c -> from_dict (to_dict _ c) = Some c.
Proof.
  intros (HP & ND & HN & HD). pose proof (proj1 (post_init_spec c) HP) as (A & B & _ & _). unfold ClusterModel.from_dict, to_dict. cbn [cf_nodes cf_devices cf_id].
  rewrite (nodes_roundtrip (c_nodes _ c) 0 []).
  - cbn [app]. rewrite devices_roundtrip; [|intros kv Hkv; split; [apply B, Hkv|intros m Hm; apply (HD kv m Hkv Hm)]].
    unfold make. destruct c as [i ns ds]. cbn [c_id c_nodes c_devices] in *. rewrite HP. reflexivity.
  - exact ND.
  - intros j kv E. destruct (HN j kv E) as [E1 E2]. split; [apply A, (nth_error_In _ _ E)|]. split; [exact E1|exact E2].
Qed.

Lemma from_dict_regular cf c : dicts_ok cf -> from_dict cf = Some c -> regular c.
Proof.
  intros OK H. unfold ClusterModel.from_dict in H. destruct (cf_nodes _ cf) as [ns|] eqn:Ens; [|discriminate H]. destruct (cf_devices _ cf) as [ds|] eqn:Eds; [|discriminate H].
  destruct (nodes_of 0 [] ns) as [nodes|] eqn:En; [|discriminate H]. destruct (devices_of nodes ds) as [devs|] eqn:Ed; [|discriminate H].
  unfold make in H. destruct (post_init _ _) eqn:HP; [|discriminate H]. injection H as <-.
  destruct (nodes_of_spec ns 0 [] nodes En ltac:(constructor)) as (ND & l' & E & L & K). cbn [app] in E. subst l'. destruct (devices_of_spec nodes ds devs Ed) as [_ KD].
  split; [exact HP|]. cbn [c_nodes c_devices]. split; [exact ND|]. split.
  - intros j kv Ej. destruct (nth_error ns j) as [nc|] eqn:Enc; [|apply nth_error_None in Enc; assert (j < length nodes) by (apply nth_error_Some; congruence); lia].
    destruct (K j nc Enc) as (name & ep & _ & _ & E2). rewrite Ej in E2. injection E2 as ->. cbn. split; [reflexivity|]. apply rt_of_normal. intros d Hd. exact (OK ns nc d Ens (nth_error_In _ _ Enc) Hd).
  - intros kv m Hkv Hm. apply In_nth_error in Hkv. destruct Hkv as (j & Hj).
    assert (exists name dc, nth_error ds j = Some (name, dc)) as (name & dc & Edc).
    { destruct (nth_error ds j) as [[a b]|] eqn:E; [eauto|]. exfalso. apply nth_error_None in E. assert (j < length devs) by (apply nth_error_Some; congruence).
      destruct (devices_of_spec nodes ds devs Ed) as [EL _]. apply (f_equal (@length string)) in EL. rewrite !map_length in EL. lia. }
    destruct (KD j name dc Edc) as (kind & ms & mem & _ & _ & Emem & E2). rewrite Hj in E2. injection E2 as ->. cbn in Hm. apply members_of_spec in Emem.
    pose proof (proj1 (post_init_spec _) HP) as (A & _). cbn in A. clear -Emem Hm A. induction Emem as [|x y ms mem Hx F IH]; [destruct Hm|]. destruct Hm as [->|Hm]; [|exact (IH Hm)].
    pose proof (A (x, m) (get_In _ _ _ Hx)) as E. cbn in E. rewrite <- E. exact Hx.
Qed.
Lemma to_dict_ok (c : cluster) : dicts_ok (to_dict _ c).
Proof.
  intros ns nc d E Hi Hd. cbn in E. injection E as <-. apply in_map_iff in Hi. destruct Hi as (kv & <- & _). cbn in Hd. injection Hd as <-. apply rt_dict_NoDup.
Qed.
Theorem roundtrip_iff (c : cluster) : from_dict (to_dict _ c) = Some c <-> regular c.
Proof. split; [apply from_dict_regular, to_dict_ok|apply regular_roundtrip]. Qed.

Lemma insert_first (n : node) l : (forall m, In m l -> n_rank _ n <= n_rank _ m) -> insert_node J n l = n :: l.
Proof. destruct l as [|m l]; intros H; [reflexivity|]. cbn. replace (n_rank _ n <=? n_rank _ m) with true; [reflexivity|]. symmetry. apply Nat.leb_le, H. left. reflexivity. Qed.
Lemma sort_ranked (l : list node) : forall i, (forall j n, nth_error l j = Some n -> n_rank _ n = i + j) -> fold_right (insert_node J) [] l = l.
Proof.
  induction l as [|n l IH]; intros i H; [reflexivity|]. cbn [fold_right]. rewrite (IH (S i)) by (intros j m E; rewrite (H (S j) m E); lia).
  apply insert_first. intros m Hm. apply In_nth_error in Hm. destruct Hm as (j & Hj). rewrite (H 0 n eq_refl), (H (S j) m Hj). lia.
Qed.
Lemma endpoints_regular (c : cluster) : regular c -> endpoints _ c = map (fun kv => n_endpoint _ (snd kv)) (c_nodes _ c).
Proof.
  intros (_ & _ & HN & _). unfold endpoints. rewrite (sort_ranked _ 0).
  - apply map_map.
  - intros j n E. rewrite nth_error_map in E. destruct (nth_error (c_nodes _ c) j) as [kv|] eqn:Ekv; [|discriminate E]. cbn in E. injection E as <-. apply (HN j kv Ekv).
Qed.

(** sorting permutes and orders by rank *)
Lemma insert_sorted (n : node) l : Sorted.StronglySorted (fun a b => n_rank _ a <= n_rank _ b) l -> Sorted.StronglySorted (fun a b => n_rank _ a <= n_rank _ b) (insert_node J n l) .
Proof.
  induction 1 as [|m l S IH F]; cbn; [repeat constructor|]. destruct (Nat.leb_spec (n_rank _ n) (n_rank _ m)).
  - constructor; [constructor; assumption|]. constructor; [exact H|]. rewrite Forall_forall in *. intros x Hx. specialize (F x Hx). lia.
  - constructor; [exact IH|]. rewrite Forall_forall in *. intros x Hx.
    assert (x = n \/ In x l) as [->|Hl]; [|lia|apply F, Hl]. clear -Hx. induction l as [|q l IHl]; cbn in Hx; [destruct Hx as [<-|[]]; left; reflexivity|].
    destruct (n_rank J n <=? n_rank J q); [destruct Hx as [<-|Hx]; [left; reflexivity|right; exact Hx]|]. destruct Hx as [<-|Hx]; [right; left; reflexivity|]. destruct (IHl Hx); [left; assumption|right; right; assumption].
Qed.
Lemma insert_perm (n : node) l : Permutation.Permutation (n :: l) (insert_node J n l).
Proof.
  induction l as [|m l IH]; [apply Permutation.Permutation_refl|]. cbn. destruct (n_rank J n <=? n_rank J m); [apply Permutation.Permutation_refl|].
  eapply Permutation.perm_trans; [apply Permutation.perm_swap|]. apply Permutation.perm_skip, IH.
Qed.
Lemma sort_spec (l : list node) : Permutation.Permutation l (fold_right (insert_node J) [] l) /\ Sorted.StronglySorted (fun a b => n_rank _ a <= n_rank _ b) (fold_right (insert_node J) [] l).
Proof.
  induction l as [|n l [P S]]; [split; [apply Permutation.Permutation_refl|constructor]|]. cbn. split; [|apply insert_sorted, S].
  eapply Permutation.perm_trans; [apply Permutation.perm_skip, P|apply insert_perm].
Qed.

Theorem from_dict_iff cf : (exists c, from_dict cf = Some c) <-> valid_config cf.
Proof.
  split.
  - intros (c & H). unfold ClusterModel.from_dict in H. destruct (cf_nodes _ cf) as [ns|] eqn:Ens; [|discriminate H]. destruct (cf_devices _ cf) as [ds|] eqn:Eds; [|discriminate H].
    destruct (nodes_of 0 [] ns) as [nodes|] eqn:En; [|discriminate H]. destruct (devices_of nodes ds) as [devs|] eqn:Ed; [|discriminate H].
    unfold make in H. destruct (post_init _ _) eqn:HP; [|discriminate H]. clear H.
    destruct (nodes_of_spec ns 0 [] nodes En ltac:(constructor)) as (ND & l' & E & L & K). cbn [app] in E. subst l'. destruct (devices_of_spec nodes ds devs Ed) as [EL KD].
    exists ns, ds, (map fst nodes). split; [exact Ens|]. split; [exact Eds|].
    assert (map (nc_name J) ns = map Some (map fst nodes)) as EN.
    { clear -K L. revert nodes L K. assert (forall i nodes, length nodes = length ns -> (forall j nc, nth_error ns j = Some nc -> exists name ep, nc_name J nc = Some name /\ nc_endpoint J nc = Some ep /\ nth_error nodes j = Some (name, Node J name (i + j) ep (rt_of (nc_rt J nc)))) -> map (nc_name J) ns = map Some (map fst nodes)) as G.
      { induction ns as [|nc ns IH]; intros i [|nd nodes] L K; try discriminate L; [reflexivity|]. destruct (K 0 nc eq_refl) as (name & ep & A & _ & B). cbn in B. injection B as ->. cbn. rewrite A. f_equal.
        apply (IH (S i)); [cbn in L; lia|]. intros j nc' E. destruct (K (S j) nc' E) as (nm & e & X & Y & Z). exists nm, e. split; [exact X|]. split; [exact Y|]. cbn in Z. rewrite Z. do 3 f_equal. lia. }
      intros nodes. apply (G 0). }
    split; [exact EN|]. split; [exact ND|]. split.
    + intros nc Hi. apply In_nth_error in Hi. destruct Hi as (j & Hj). destruct (K j nc Hj) as (? & ? & _ & -> & _). discriminate.
    + intros name dc Hi. apply In_nth_error in Hi. destruct Hi as (j & Hj). destruct (KD j name dc Hj) as (kind & ms & mem & A & B & C & D). exists kind, ms. split; [exact A|]. split; [exact B|]. split.
      * intros m Hm. apply members_of_spec in C. clear -C Hm. induction C as [|x y ms mem Hx F IH]; [destruct Hm|]. destruct Hm as [->|Hm]; [|exact (IH Hm)]. apply get_In in Hx. apply in_map_iff. exists (m, y). auto.
      * intros El. pose proof (proj1 (post_init_spec _) HP) as (_ & _ & _ & PP). cbn in PP. specialize (PP _ (nth_error_In _ _ D)). cbn in PP. rewrite <- (members_of_len _ _ _ C). exact (PP El).
  - intros (ns & ds & names & Ens & Eds & EN & ND & He & HD). unfold ClusterModel.from_dict. rewrite Ens, Eds.
    destruct (nodes_of_total ns 0 [] names EN He ND) as (nodes & En & Kn). cbn in Kn. rewrite En.
    destruct (devices_of_total nodes ds) as (devs & Ed).
    { intros name dc Hi. destruct (HD name dc Hi) as (kind & ms & A & B & C & _). exists kind, ms. rewrite Kn. auto. }
    rewrite Ed. unfold make. replace (post_init _ _) with true; [eauto|]. symmetry. apply post_init_spec. cbn.
    destruct (nodes_of_spec ns 0 [] nodes En ltac:(constructor)) as (_ & l' & E & L & K). cbn [app] in E. subst l'. destruct (devices_of_spec nodes ds devs Ed) as [EL KD].
    assert (forall kv, In kv nodes -> fst kv = n_name _ (snd kv)) as HK.
    { intros kv Hi. apply In_nth_error in Hi. destruct Hi as (j & Hj). destruct (nth_error ns j) as [nc|] eqn:Enc; [|apply nth_error_None in Enc; assert (j < length nodes) by (apply nth_error_Some; congruence); lia].
      destruct (K j nc Enc) as (? & ? & _ & _ & Z). rewrite Hj in Z. injection Z as ->. reflexivity. }
    assert (forall kv, In kv devs -> exists name dc kind ms mem, In (name, dc) ds /\ dc_kind _ dc = Some kind /\ dc_members _ dc = Some ms /\ members_of J nodes ms = Some mem /\ fst kv = name /\ d_name _ (snd kv) = name /\ d_kind _ (snd kv) = kind /\ d_members _ (snd kv) = mem) as HV.
    { intros kv Hi. apply In_nth_error in Hi. destruct Hi as (j & Hj). destruct (nth_error ds j) as [[name dc]|] eqn:Edc.
      - destruct (KD j name dc Edc) as (kind & ms & mem & A & B & C & D). rewrite Hj in D. injection D as ->. exists name, dc, kind, ms, mem. cbn. split; [exact (nth_error_In _ _ Edc)|]. auto 10.
      - exfalso. apply nth_error_None in Edc. assert (j < length devs) by (apply nth_error_Some; congruence). apply (f_equal (@length string)) in EL. rewrite !map_length in EL. lia. }
    split; [exact HK|]. split; [|split].
    + intros kv Hi. destruct (HV kv Hi) as (name & dc & kind & ms & mem & _ & _ & _ & _ & E1 & E2 & _). congruence.
    + intros kv m Hi Hm. destruct (HV kv Hi) as (name & dc & kind & ms & mem & _ & _ & _ & C & _ & _ & _ & E). rewrite E in Hm. apply members_of_spec in C.
      clear -C Hm HK. induction C as [|x y ms mem Hx F IH]; [destruct Hm|]. destruct Hm as [->|Hm]; [|exact (IH Hm)]. apply get_In in Hx. pose proof (HK _ Hx) as E. cbn in E. rewrite <- E. apply in_map_iff. exists (x, m). auto.
    + intros kv Hi El. destruct (HV kv Hi) as (name & dc & kind & ms & mem & Hdc & A & B & C & _ & _ & Ek & E). rewrite E. rewrite (members_of_len _ _ _ C). destruct (HD name dc Hdc) as (kind' & ms' & A' & B' & _ & D'). rewrite A in A'. rewrite B in B'. injection A' as <-. injection B' as <-. apply D'. congruence.
Qed.

Theorem from_dict_nodes cf c ns : from_dict cf = Some c -> cf_nodes _ cf = Some ns ->
  world_size _ c = length ns /\ forall j nc, nth_error ns j = Some nc -> exists name ep, nc_name _ nc = Some name /\ nc_endpoint _ nc = Some ep /\
    exists nd, get name (c_nodes _ c) = Some nd /\ n_name _ nd = name /\ n_rank _ nd = j /\ n_endpoint _ nd = ep /\ nth_error (endpoints _ c) j = Some ep.
Proof.
  intros H Ens. unfold ClusterModel.from_dict in H. rewrite Ens in H. destruct (cf_devices _ cf) as [ds|] eqn:Eds; [|discriminate H].
  destruct (nodes_of 0 [] ns) as [nodes|] eqn:En; [|discriminate H]. destruct (devices_of nodes ds) as [devs|] eqn:Ed; [|discriminate H].
  unfold make in H. destruct (post_init _ _) eqn:HP; [|discriminate H]. injection H as <-.
  destruct (nodes_of_spec ns 0 [] nodes En ltac:(constructor)) as (ND & l' & E & L & K). cbn [app] in E. subst l'. unfold world_size. cbn [c_nodes]. split; [exact L|].
  intros j nc Hj. destruct (K j nc Hj) as (name & ep & A & B & C). exists name, ep. split; [exact A|]. split; [exact B|]. eexists. split; [apply get_unique; [exact ND|exact (nth_error_In _ _ C)]|]. cbn.
  split; [reflexivity|]. split; [reflexivity|]. split; [reflexivity|]. unfold endpoints. cbn [c_nodes]. rewrite (sort_ranked _ 0).
  - rewrite map_map, nth_error_map, C. reflexivity.
  - intros i n E. rewrite nth_error_map in E. destruct (nth_error nodes i) as [kv|] eqn:Ekv; [|discriminate E]. cbn in E. injection E as <-.
    destruct (nth_error ns i) as [nc'|] eqn:Enc; [|apply nth_error_None in Enc; assert (i < length nodes) by (apply nth_error_Some; congruence); lia].
    destruct (K i nc' Enc) as (? & ? & _ & _ & Z). rewrite Ekv in Z. injection Z as ->. reflexivity.
Qed.

(* ---------------- simple *)
Lemma simple_get eps ob v p world i : i < world -> get (append "node" (str i)) (map (simple_node J empty_dict eps ob v p) (seq 0 world)) = Some (snd (simple_node J empty_dict eps ob v p i)).
Proof.
  intros Hi. apply get_unique.
  - rewrite map_map. cbn. assert (forall l, NoDup l -> NoDup (map (fun i => append "node" (str i)) l)) as G.
    { induction 1 as [|a l Na ND IH]; cbn; constructor; [|exact IH]. intros H. apply in_map_iff in H. destruct H as (b & E & Hb). apply (node_inj b a) in E. subst. contradiction. }
    apply G, seq_NoDup.
  - apply in_map_iff. exists i. split; [reflexivity|]. apply in_seq. lia.
Qed.
Lemma simple_members eps ob v p world k : k <= world ->
  members_of J (map (simple_node J empty_dict eps ob v p) (seq 0 world)) (map (fun i => append "node" (str i)) (seq 0 k)) = Some (map (fun i => snd (simple_node J empty_dict eps ob v p i)) (seq 0 k)).
Proof.
  intros Hk. assert (forall l, (forall i, In i l -> i < world) -> members_of J (map (simple_node J empty_dict eps ob v p) (seq 0 world)) (map (fun i => append "node" (str i)) l) = Some (map (fun i => snd (simple_node J empty_dict eps ob v p i)) l)) as G.
  { induction l as [|a l IH]; intros H; [reflexivity|]. cbn [map members_of]. rewrite simple_get by (apply H; left; reflexivity). rewrite IH by (intros i Hi; apply H; right; exact Hi). reflexivity. }
  apply G. intros i Hi. apply in_seq in Hi. lia.
Qed.
Theorem simple_iff world eps k cfg v p ob ppu spu :
  (forall l o, ob = Some l -> In o l -> truthy o = true \/ o = empty_dict) ->
  ((exists c, simple J empty_dict world eps k cfg v p ob ppu spu = Some c) <-> simple_ok world eps k ob ppu spu) /\
  (forall c, simple J empty_dict world eps k cfg v p ob ppu spu = Some c -> regular c /\ world_size _ c = world).
Proof.
  intros Hob. unfold simple, simple_ok.
  destruct (match eps with Some l => negb (length l =? world) | None => false end) eqn:E1.
  { split; [|discriminate]. split; [intros (c & H); discriminate H|]. intros (H & _). destruct eps as [l|]; [|discriminate E1]. rewrite (H l eq_refl), Nat.eqb_refl in E1. discriminate E1. }
  destruct (match ob with Some l => negb (length l =? world) | None => false end) eqn:E2.
  { split; [|discriminate]. split; [intros (c & H); discriminate H|]. intros (_ & H & _). destruct ob as [l|]; [|discriminate E2]. rewrite (H l eq_refl), Nat.eqb_refl in E2. discriminate E2. }
  destruct (negb ppu && negb spu) eqn:E3.
  { split; [|discriminate]. split; [intros (c & H); discriminate H|]. intros (_ & _ & [H|H] & _); rewrite H in E3; [discriminate E3|]. rewrite andb_false_r in E3. discriminate E3. }
  assert (forall l, eps = Some l -> length l = world) as H1 by (intros l ->; apply negb_false_iff, Nat.eqb_eq in E1; exact E1).
  assert (forall l, ob = Some l -> length l = world) as H2 by (intros l ->; apply negb_false_iff, Nat.eqb_eq in E2; exact E2).
  assert (ppu = true \/ spu = true) as H3 by (destruct ppu, spu; auto; discriminate E3).
  set (nodes := map (simple_node J empty_dict eps ob v p) (seq 0 world)).
  set (ppus := if ppu then _ else _). set (kk := match k with Some k => k | None => world end).
  assert (forall spus, ((spu = true /\ kk <= world /\ spus = [("SP0"%string, Device J "SP0" "SPU" (map (fun i => snd (simple_node J empty_dict eps ob v p i)) (seq 0 kk)) cfg)]) \/ (spu = false /\ spus = [])) ->
     regular (Cluster J (append "__sim_" (str world)) nodes (ppus ++ spus)) /\ world_size _ (Cluster J (append "__sim_" (str world)) nodes (ppus ++ spus)) = world) as REG.
  { intros spus Hs. assert (forall kv, In kv (ppus ++ spus) -> fst kv = d_name _ (snd kv) /\ (forall m, In m (d_members _ (snd kv)) -> exists i, i < world /\ m = snd (simple_node J empty_dict eps ob v p i)) /\ (lower (d_kind _ (snd kv)) = "ppu"%string -> length (d_members _ (snd kv)) = 1)) as DEV.
    { intros kv Hi. apply in_app_or in Hi. destruct Hi as [Hi|Hi].
      - unfold ppus in Hi. destruct ppu; [|destruct Hi]. apply in_map_iff in Hi. destruct Hi as (i & <- & Hi). apply in_seq in Hi. cbn. split; [reflexivity|]. split; [|reflexivity]. intros m [<-|[]]. exists i. split; [lia|reflexivity].
      - destruct Hs as [(_ & Hk & ->)|(_ & ->)]; [|destruct Hi]. destruct Hi as [<-|[]]. cbn. split; [reflexivity|]. split; [|discriminate]. intros m Hm. apply in_map_iff in Hm. destruct Hm as (i & <- & Hi). apply in_seq in Hi. exists i. split; [lia|reflexivity]. }
    split; [|unfold world_size; cbn; unfold nodes; rewrite map_length, seq_length; reflexivity].
    assert (forall i, i < world -> get (append "node" (str i)) nodes = Some (snd (simple_node J empty_dict eps ob v p i))) as GET by (intros i Hi; apply simple_get, Hi).
    split; [|split; [|split]]; cbn [c_nodes c_devices].
    - apply post_init_spec. cbn [c_nodes c_devices]. split; [|split; [|split]].
      + intros kv Hi. unfold nodes in Hi. apply in_map_iff in Hi. destruct Hi as (i & <- & _). reflexivity.
      + intros kv Hi. apply (DEV kv Hi).
      + intros kv m Hi Hm. destruct (DEV kv Hi) as (_ & D & _). destruct (D m Hm) as (i & Hlt & ->). specialize (GET i Hlt). apply get_In in GET. apply in_map_iff. eexists. split; [|exact GET]. reflexivity.
      + intros kv Hi. apply (DEV kv Hi).
    - unfold nodes. rewrite map_map. cbn. assert (forall l, NoDup l -> NoDup (map (fun i => append "node" (str i)) l)) as G.
      { induction 1 as [|a l Na ND IH]; cbn; constructor; [|exact IH]. intros H. apply in_map_iff in H. destruct H as (b & E & Hb). apply (node_inj b a) in E. subst. contradiction. }
      apply G, seq_NoDup.
    - intros j kv Ej. unfold nodes in Ej. rewrite nth_error_map in Ej. destruct (nth_error (seq 0 world) j) as [x|] eqn:Ex; [|discriminate Ej]. cbn in Ej. injection Ej as <-.
      assert (j < world) as Hj by (rewrite <- (seq_length world 0); apply nth_error_Some; congruence). rewrite (nth_error_nth' _ 0), seq_nth in Ex by (try rewrite seq_length; exact Hj). injection Ex as <-. cbn.
      split; [reflexivity|]. split; [|split; [constructor|intros k' []]]. cbn. destruct ob as [l|]; [|right; reflexivity]. specialize (Hob l (nth j l empty_dict) eq_refl). apply Hob, nth_In. rewrite (H2 l eq_refl). exact Hj.
    - intros kv m Hi Hm. destruct (DEV kv Hi) as (_ & D & _). destruct (D m Hm) as (i & Hlt & ->). apply (GET i Hlt). }
  destruct spu.
  - destruct (le_lt_dec kk world) as [Hk|Hk].
    + pose proof (simple_members eps ob v p world kk Hk) as SM. change (map (simple_node J empty_dict eps ob v p) (seq 0 world)) with nodes in SM. rewrite SM. cbn [option_map]. destruct (REG _ (or_introl (conj eq_refl (conj Hk eq_refl)))) as [R W]. unfold make. rewrite (proj1 R). split.
      * split; [intros _|eauto]. split; [exact H1|]. split; [exact H2|]. split; [exact H3|]. intros _ k' ->. exact Hk.
      * intros c E. injection E as <-. split; assumption.
    + replace (members_of J nodes _) with (@None (list node)).
      * split; [|discriminate]. split; [intros (c & H); discriminate H|]. intros (_ & _ & _ & H). exfalso. unfold kk in Hk. destruct k as [k|]; [specialize (H eq_refl k eq_refl); lia|lia].
      * symmetry. destruct (members_of J nodes (map (fun i => append "node" (str i)) (seq 0 kk))) as [l|] eqn:M; [|reflexivity]. exfalso. apply members_of_spec in M.
        assert (exists n, get (append "node" (str world)) nodes = Some n) as (n & Hn).
        { assert (In (append "node" (str world)) (map (fun i => append "node" (str i)) (seq 0 kk))) as Hi by (apply in_map_iff; exists world; split; [reflexivity|apply in_seq; lia]).
          revert Hi. induction M as [|x y ms mem Hx F IH]; intros Hi; [destruct Hi|]. destruct Hi as [<-|Hi]; [eauto|exact (IH Hi)]. }
        apply get_In in Hn. unfold nodes in Hn. apply in_map_iff in Hn. destruct Hn as (i & E & Hi). unfold simple_node in E. pose proof (f_equal fst E) as E'. cbn [fst] in E'. apply (node_inj i world) in E'. apply in_seq in Hi. lia.
  - destruct (REG [] (or_intror (conj eq_refl eq_refl))) as [R W]. unfold make. rewrite (proj1 R). split.
    + split; [intros _|eauto]. split; [exact H1|]. split; [exact H2|]. split; [exact H3|]. discriminate.
    + intros c E. injection E as <-. split; assumption.
Qed.
End P.

(** str.lower and the two alphabets *)
Lemma lower_ascii_cases : forall x y : ascii, lower_ascii x = lower_ascii y <->
  x = y \/ exists k u v, String.get k caps = Some u /\ String.get k smalls = Some v /\ ((x = u /\ y = v) \/ (x = v /\ y = u)).
Proof.
  assert (B : forall x y, Bool.eqb (Ascii.eqb (lower_ascii x) (lower_ascii y))
    (Ascii.eqb x y || existsb (fun k => match String.get k caps, String.get k smalls with
       | Some u, Some v => (Ascii.eqb x u && Ascii.eqb y v) || (Ascii.eqb x v && Ascii.eqb y u) | _, _ => false end) (seq 0 26)) = true).
  { assert (A : forallb (fun x => forallb (fun y => Bool.eqb (Ascii.eqb (lower_ascii x) (lower_ascii y))
    (Ascii.eqb x y || existsb (fun k => match String.get k caps, String.get k smalls with
       | Some u, Some v => (Ascii.eqb x u && Ascii.eqb y v) || (Ascii.eqb x v && Ascii.eqb y u) | _, _ => false end) (seq 0 26)))
      (map ascii_of_nat (seq 0 256))) (map ascii_of_nat (seq 0 256)) = true) by (vm_compute; reflexivity).
    assert (I : forall x, In x (map ascii_of_nat (seq 0 256))).
    { intros x. rewrite <- (ascii_nat_embedding x). apply in_map, in_seq. pose proof (nat_ascii_bounded x). lia. }
    intros x y. exact (proj1 (forallb_forall _ _) (proj1 (forallb_forall _ _) A x (I x)) y (I y)). }
  intros x y. specialize (B x y). apply Bool.eqb_prop in B. rewrite <- Ascii.eqb_eq, B, orb_true_iff, Ascii.eqb_eq. split; (intros [H|H]; [left; exact H|right]).
  - apply existsb_exists in H. destruct H as (k & _ & H). destruct (String.get k caps) as [u|] eqn:U; [|discriminate H]. destruct (String.get k smalls) as [v|] eqn:V; [|discriminate H].
    exists k, u, v. split; [exact U|]. split; [exact V|]. apply orb_true_iff in H. destruct H as [H|H]; apply andb_true_iff in H; destruct H as [H1 H2]; apply Ascii.eqb_eq in H1, H2; auto.
  - destruct H as (k & u & v & U & V & H). apply existsb_exists. exists k. split.
    + apply in_seq. split; [lia|]. destruct (le_lt_dec 26 k) as [L|L]; [|lia]. exfalso. do 26 (destruct k as [|k]; [lia|]). destruct k; discriminate U.
    + rewrite U, V. apply orb_true_iff. destruct H as [[-> ->]|[-> ->]]; [left|right]; now rewrite !Ascii.eqb_refl.
Qed.
Lemma lower_spec : forall a b : string,
  lower a = lower b <-> (String.length a = String.length b /\ forall i x y, String.get i a = Some x -> String.get i b = Some y ->
    x = y \/ exists k u v, String.get k caps = Some u /\ String.get k smalls = Some v /\ ((x = u /\ y = v) \/ (x = v /\ y = u))).
Proof.
  induction a as [|c a IH]; intros [|d b]; cbn [lower String.length].
  - split; [intros _|reflexivity]. split; [reflexivity|]. intros [|i] x y H; discriminate H.
  - split; [discriminate|intros [H _]; discriminate H].
  - split; [discriminate|intros [H _]; discriminate H].
  - split.
    + intros E. injection E as E1 E2. apply IH in E2. destruct E2 as [L F]. split; [now rewrite L|]. intros [|i] x y; cbn [String.get].
      * intros H1 H2. injection H1 as <-. injection H2 as <-. apply lower_ascii_cases, E1.
      * apply F.
    + intros [L F]. injection L as L. f_equal.
      * apply lower_ascii_cases. apply (F 0 c d); reflexivity.
      * apply IH. split; [exact L|]. intros i. apply (F (S i)).
Qed.
Section L.
Context {J : Type}.
Lemma by_kind_spec (c : cluster J) (kind : string) :
  exists keep : list bool, length keep = length (c_devices J c) /\
     get_devices_by_kind J c kind = map fst (filter snd (combine (map snd (c_devices J c)) keep)) /\
     forall i kv, nth_error (c_devices J c) i = Some kv -> (nth_error keep i = Some true <-> lower (d_kind J (snd kv)) = lower kind).
Proof.
  exists (map (fun kv => String.eqb (lower (d_kind J (snd kv))) (lower kind)) (c_devices J c)). rewrite map_length. split; [reflexivity|]. split.
  - unfold get_devices_by_kind. induction (c_devices J c) as [|kv l IH]; cbn; [reflexivity|]. destruct (String.eqb _ _); cbn; now rewrite IH.
  - intros i kv H. rewrite nth_error_map, H. cbn. rewrite <- String.eqb_eq. split; [intros E; injection E as E; exact E|intros ->; reflexivity].
Qed.
Lemma by_rank_spec (c : cluster J) rank :
  match get_node_by_rank J c rank with
  | Some n => n_rank J n = rank /\ exists name, In (name, n) (c_nodes J c)
  | None => forall name n, In (name, n) (c_nodes J c) -> n_rank J n <> rank
  end.
Proof.
  unfold get_node_by_rank. destruct (find _ _) as [n|] eqn:F.
  - apply find_some in F. destruct F as [I E]. apply Nat.eqb_eq in E. split; [exact E|]. apply in_map_iff in I. destruct I as ([name n'] & <- & I). exists name. exact I.
  - intros name n I E. pose proof (find_none _ _ F n (in_map snd _ _ I)) as K. cbn in K. apply Nat.eqb_neq in K. contradiction.
Qed.
End L.
