(** Proofs about the PSI models. *)
From Coq Require Import List NArith ZArith Bool Lia.
From Verif Require Import MPCBase OTModel OTSpec GF128Spec GF128Model GF128Field GF128Proofs OKVSSpec OKVSModel OKVSHash OKVSProofs
  VOLEModel VOLESpec VOLEProofs VOLEProofs2 PSIModel.
Import ListNotations.
Local Open Scope nat_scope.

Definition small (x : N) : Prop := (x < 2 ^ 128)%N.
Lemma small_lxor a b : small a -> small b -> small (N.lxor a b).
Proof.
  intros Ha Hb. rewrite <- (join_split a Ha), <- (join_split b Hb).
  destruct (split_word_pair a Ha) as [A1 A2], (split_word_pair b Hb) as [B1 B2].
  assert (forall p q, word_pair p -> word_pair q -> N.lxor (join p) (join q) = join (xor_pair p q)) as J.
  { intros p q Hp Hq. rewrite !join_lxor by (auto using xor_pair_wp). unfold xor_pair. cbn [fst snd].
    rewrite N.shiftl_lxor, !N.lxor_assoc. f_equal. rewrite <- !N.lxor_assoc. f_equal. apply N.lxor_comm. }
  rewrite J by (apply split_word_pair; assumption). apply join_lt, xor_pair_wp; apply split_word_pair; assumption.
Qed.
Lemma join_xor p q : word_pair p -> word_pair q -> join (xor_pair p q) = N.lxor (join p) (join q).
Proof.
  intros Hp Hq. rewrite !join_lxor by (auto using xor_pair_wp). unfold xor_pair. cbn [fst snd].
  rewrite N.shiftl_lxor, !N.lxor_assoc. f_equal. rewrite <- !N.lxor_assoc. f_equal. apply N.lxor_comm.
Qed.
Lemma split_xor a b : small a -> small b -> split128 (N.lxor a b) = xor_pair (split128 a) (split128 b).
Proof.
  intros Ha Hb. rewrite <- (split_join (xor_pair (split128 a) (split128 b))) by (apply xor_pair_wp; apply split_word_pair; assumption).
  f_equal. rewrite join_xor by (apply split_word_pair; assumption). rewrite !join_split by assumption. reflexivity.
Qed.

(* the stored values stay below 2^128 *)
Lemma upd_small l i v : Forall small l -> small v -> Forall small (upd l i v).
Proof.
  revert i. induction l as [|a l IH]; intros [|i] H Hv; cbn; auto.
  - inversion H; subst. constructor; assumption.
  - inversion H; subst. constructor; [assumption|]. apply IH; assumption.
Qed.
Lemma small_0 : small 0. Proof. reflexivity. Qed.
Lemma nth_small l j : Forall small l -> small (nth j l 0%N).
Proof.
  intros H. destruct (Nat.lt_ge_cases j (length l)) as [L|L].
  - apply (proj1 (Forall_forall small l) H). apply nth_In, L.
  - rewrite nth_overflow by exact L. apply small_0.
Qed.
Lemma decode_row_small S r : Forall small S -> small (decode_row S r).
Proof. intros H. destruct r as [[a b] c]. unfold decode_row. auto using small_lxor, nth_small. Qed.
Lemma back_subst_small rows vals : Forall small vals -> forall stack out r, Forall small out ->
  back_subst rows vals stack out = Ok r -> Forall small r.
Proof.
  intros Hv. induction stack as [|[c o] stack IH]; intros out r Ho H; cbn [back_subst] in H.
  - injection H as <-. exact Ho.
  - destruct (nth o rows (0, 0, 0)) as [[h1 h2] h3]. destruct (nth_error vals o) as [t|] eqn:E; [|discriminate].
    apply IH in H; [exact H|]. apply upd_small; [exact Ho|]. apply small_lxor.
    + apply (proj1 (Forall_forall small vals) Hv). apply nth_error_In in E. exact E.
    + auto using small_lxor, nth_small.
Qed.
Lemma zeros_small m : Forall small (repeat 0%N m).
Proof. apply Forall_forall. intros x Hx. apply repeat_spec in Hx. subst x. apply small_0. Qed.
Lemma solve_rows_small rows vals m r : Forall small vals -> solve_rows rows vals m = Ok r -> Forall small r.
Proof.
  intros Hv H. unfold solve_rows in H. destruct (peel _ _ _) as [st|]; [|discriminate].
  destruct (negb _); [discriminate|]. eapply back_subst_small; [exact Hv| |exact H]. apply zeros_small.
Qed.

Section Enc.
Variable lib : bool.
Variable aes : N * N -> N -> N * N.
Definition rowof (seed : N * N) (m : nat) (k : N) : row :=
  if lib then hash_key_cpp (aes seed) m k else hash_key_py seed m k.

Lemma rowof_range seed m k : 0 < m -> row_in_range m (rowof seed m k).
Proof. intros H. unfold rowof. destruct lib; [apply row_cpp_range, H|apply row_py_range, H]. Qed.

Lemma okvs_dec_value seed keys S m : 0 < m ->
  okvs_dec lib aes seed keys S m = Some (map (fun k => decode_row S (rowof seed m k)) keys).
Proof.
  intros Hm. unfold okvs_dec, rowof. destruct lib; [reflexivity|]. unfold okvs_decode.
  destruct m; [lia|]. reflexivity.
Qed.

Lemma encode_small seed keys vals m P : Forall small vals ->
  okvs_encode lib aes seed keys vals m = Some P -> Forall small P.
Proof.
  intros Hv H. unfold okvs_encode in H. destruct lib.
  - injection H as <-. unfold cpp_solve_okvs. destruct (solve_rows _ _ _) as [o|] eqn:E.
    + eapply solve_rows_small; eassumption.
    + apply zeros_small.
  - unfold okvs_solve in H. destruct (andb _ _); [discriminate|].
    destruct (solve_rows _ _ _) as [o|] eqn:E; [|discriminate]. injection H as <-. eapply solve_rows_small; eassumption.
Qed.

(** a store that was solved represents every pair *)
Lemma encode_decodes seed keys vals m P : 0 < m -> length vals = length keys ->
  (lib = true -> forall S, ~ stopping_set (map (rowof seed m) keys) S) ->
  okvs_encode lib aes seed keys vals m = Some P ->
  length P = m /\ map (fun k => decode_row P (rowof seed m k)) keys = vals.
Proof.
  intros Hm Hl Hns H. unfold okvs_encode, rowof in *. destruct lib.
  - injection H as <-. specialize (Hns eq_refl).
    destruct (cpp_cases (aes seed) keys vals m Hl (fun _ => Hm)) as [[H1 [H2 _]]|[_ [_ [S HS]]]]; [auto|].
    destruct (Hns S HS).
  - destruct (okvs_solve seed keys vals m) as [o|] eqn:E; [|discriminate]. injection H as <-.
    destruct (okvs_solve_cases seed keys vals m Hl (fun _ => Hm)) as [[out [H1 [H2 [H3 _]]]]|[H1 _]]; [|congruence].
    rewrite H1 in E. injection E as <-. split; [exact H2|]. unfold okvs_decode in H3.
    destruct m; [lia|]. cbn [Nat.eqb andb] in H3. injection H3 as H3. exact H3.
Qed.
Lemma encode_length seed keys vals m P : 0 < m -> length vals = length keys ->
  okvs_encode lib aes seed keys vals m = Some P -> length P = m.
Proof.
  intros Hm Hl H. unfold okvs_encode in *. destruct lib.
  - injection H as <-.
    destruct (cpp_cases (aes seed) keys vals m Hl (fun _ => Hm)) as [[_ [H1 _]]|[H1 _]]; [exact H1|].
    rewrite H1. apply repeat_length.
  - destruct (okvs_solve seed keys vals m) as [o|] eqn:E; [|discriminate]. injection H as <-.
    destruct (okvs_solve_cases seed keys vals m Hl (fun _ => Hm)) as [[out [H1 [H2 _]]]|[H1 _]]; [|congruence].
    rewrite H1 in E. injection E as <-. exact H2.
Qed.
End Enc.

Lemma decode_row_lin m A B r : row_in_range m r ->
  decode_row (tab m (fun j => N.lxor (A j) (B j))) r =
  N.lxor (decode_row (tab m A) r) (decode_row (tab m B) r).
Proof.
  destruct r as [[a b] c]. intros (Ha & Hb & Hc). unfold decode_row. rewrite !tab_nth by assumption.
  apply N.bits_inj. intros k. rewrite !N.lxor_spec.
  destruct (N.testbit (A a) k), (N.testbit (A b) k), (N.testbit (A c) k), (N.testbit (B a) k), (N.testbit (B b) k), (N.testbit (B c) k); reflexivity.
Qed.

Lemma nth_map_in {A B : Type} (f : A -> B) l i d d' : i < length l -> nth i (map f l) d' = f (nth i l d).
Proof. intros H. rewrite (nth_indep _ d' (f d)) by (rewrite map_length; exact H). apply map_nth. Qed.

Section Run.
Variable X : cenv.
Hypothesis OKX : env_ok X.
Variable lib : bool.
Variable aes : N * N -> N -> N * N.

Definition mulN (delta : N * N) (a : N) : N := join (field_mul_impl lib (split128 a) delta).
Lemma mul_wp' a b : word_pair a -> word_pair b -> word_pair (field_mul_impl lib a b).
Proof. apply mul_wp. Qed.
Lemma mulN_lin delta a b : word_pair delta -> small a -> small b ->
  mulN delta (N.lxor a b) = N.lxor (mulN delta a) (mulN delta b).
Proof.
  intros Hd Ha Hb. unfold mulN. pose proof (split_word_pair a Ha). pose proof (split_word_pair b Hb).
  rewrite split_xor by assumption. rewrite mul_add_l by assumption. apply join_xor; apply mul_wp'; assumption.
Qed.
Lemma decode_row_mul delta m P r : word_pair delta -> Forall small P -> row_in_range m r ->
  decode_row (tab m (fun j => mulN delta (nth j P 0%N))) r = mulN delta (decode_row P r).
Proof.
  intros Hd HP Hr. destruct r as [[a b] c]. destruct Hr as (Ha & Hb & Hc). unfold decode_row.
  rewrite !tab_nth by assumption. rewrite !mulN_lin by auto using nth_small, small_lxor. reflexivity.
Qed.

Lemma item_hash_wp x : (x < 2 ^ 64)%N -> word_pair (item_hash X x).
Proof.
  intros Hx. unfold item_hash. apply xor_pair_wp; [apply (prg_wp X OKX (x, 0%N) 1 0)|split; [exact Hx|reflexivity]].
Qed.

Lemma map_join_tab l : map join l = tab (length l) (fun j => join (entry l j)).
Proof.
  rewrite (list_as_tab l (0, 0)%N) at 1. unfold tab at 1. rewrite map_map. reflexivity.
Qed.

Lemma silent_wp u delta seed k n R v w u' d' : iknp_rand_ok R -> word_pair delta -> all_words u ->
  silent_vole X lib u delta seed k n R = Some (v, w, u', d') ->
  all_words v /\ all_words w /\ all_words u' /\ 0 < n.
Proof.
  intros HR Hd Hu H. unfold silent_vole in H. apply bind_Some in H. destruct H as ([[[vb wb] ub] db] & HV & H).
  destruct (Nat.eqb (num_chunks n) 0) eqn:Z; [discriminate|]. injection H as <- <- <- <-.
  destruct (vole_correct X OKX lib _ _ _ _ _ _ _ _ HR Hd Hu HV) as (-> & -> & Lv & Lw & HW & HC).
  split; [|split; [|split]]; try (intros j; apply run_expansion_words; intros i; first [apply HW|apply Hu]).
  apply Nat.eqb_neq in Z. destruct n; [|lia]. exfalso. apply Z. apply (proj2 (num_chunks_0 0)). reflexivity.
Qed.

(** the two tags of a run *)
Lemma psi_tags base_k M n xs ys R o :
  iknp_rand_ok (ps_iknp R) -> word_pair (ps_delta R) -> all_words (ps_u R) ->
  Forall (fun x => x < 2 ^ 64)%N xs -> Forall (fun x => x < 2 ^ 64)%N ys ->
  psi_run X lib aes base_k M n xs ys R = Some o ->
  0 < M /\ 0 < n /\ length xs = n /\ length ys = n /\ length (po_tags o) = n /\ length (po_local o) = n /\
  length (po_store o) = M /\ Forall small (po_store o) /\ length (po_v o) = M /\ all_words (po_v o) /\
  okvs_encode lib aes (ps_seed R) ys (map (fun y => join (item_hash X y)) ys) M = Some (po_store o) /\
  (forall i, i < n -> entry (po_tags o) i =
     xor_pair (split128 (decode_row (map join (po_v o)) (rowof lib aes (ps_seed R) M (nth i xs 0%N))))
       (field_mul_impl lib (xor_pair (split128 (decode_row (po_store o) (rowof lib aes (ps_seed R) M (nth i xs 0%N))))
                                     (item_hash X (nth i xs 0%N))) (ps_delta R))) /\
  (forall j, j < n -> entry (po_local o) j =
     split128 (decode_row (map join (po_v o)) (rowof lib aes (ps_seed R) M (nth j ys 0%N)))) /\
  po_mask o = member_mask (map (tag_hash X) (po_tags o)) (map (tag_hash X) (po_local o)).
Proof.
  intros HR Hd Hu Hxs Hys H. unfold psi_run in H.
  destruct (Nat.eqb n 0) eqn:Zn; [discriminate|]. apply Nat.eqb_neq in Zn.
  destruct (negb (Nat.eqb (length xs) n && Nat.eqb (length ys) n)) eqn:EL; [discriminate|].
  apply negb_false_iff, andb_true_iff in EL. destruct EL as [Lx Ly]. apply Nat.eqb_eq in Lx, Ly.
  apply bind_Some in H. destruct H as ([[[v w] u] delta] & HS & H).
  destruct (silent_correct X OKX lib _ _ _ _ _ _ _ _ _ _ HR Hd Hu HS) as (-> & Lv & Lw & Lu & HC).
  destruct (silent_wp _ _ _ _ _ _ _ _ _ _ HR Hd Hu HS) as (Wv & Ww & Wu & HM).
  apply bind_Some in H. destruct H as (P & HP & H).
  rewrite okvs_dec_value in H by exact HM. cbn [bind] in H. rewrite okvs_dec_value in H by exact HM. cbn [bind] in H.
  injection H as <-. cbn [po_tags po_local po_store po_v po_mask].
  assert (Forall small (map (fun y => join (item_hash X y)) ys)) as Sv.
  { apply Forall_forall. intros z Hz. apply in_map_iff in Hz. destruct Hz as (y & <- & Hy). apply join_lt, item_hash_wp.
    exact (proj1 (Forall_forall _ _) Hys y Hy). }
  assert (Forall small P) as SP by (eapply encode_small; eassumption).
  split; [exact HM|]. split; [lia|]. split; [exact Lx|]. split; [exact Ly|]. split; [apply tab_length|].
  split; [rewrite !map_length; exact Ly|].
  split; [eapply encode_length; [exact HM|apply map_length|exact HP]|]. split; [exact SP|]. split; [exact Lv|]. split; [exact Wv|].
  split; [exact HP|].
  assert (forall j, word_pair (split128 (nth j P 0%N))) as WP by (intros j; apply split_word_pair, nth_small, SP).
  split; [|split; [|reflexivity]].
  - intros i Hi. unfold entry at 1. rewrite tab_nth by exact Hi.
    set (x := nth i xs 0%N). set (r := rowof lib aes (ps_seed R) M x).
    assert (x < 2 ^ 64)%N as Bx by (apply (proj1 (Forall_forall _ _) Hxs), nth_In; lia).
    assert (row_in_range M r) as Hr by (apply rowof_range, HM).
    match goal with |- xor_pair (split128 (nth i (map ?f xs) 0%N)) _ = _ =>
      rewrite (nth_map_in f xs i 0%N 0%N) by lia end. fold x.
    cbv beta. fold r.
    match goal with |- context[decode_row (map join (tab M ?kk)) r] => set (kf := kk) end.
    assert (map join (tab M kf) = tab M (fun j => N.lxor (join (entry v j)) (mulN (ps_delta R) (nth j P 0%N)))) as EK.
    { unfold tab. rewrite map_map. apply map_ext_in. intros j Hj. apply in_seq in Hj. unfold kf. unfold entry at 1.
      change (nth j (map ?f (seq 0 M)) (0%N, 0%N)) with (nth j (tab M f) (0%N, 0%N)).
      rewrite tab_nth by lia. change (entry w j) with (elem w j). rewrite HC by lia.
      change (entry u j) with (elem u j).
      rewrite (mul_add_l lib (split128 (nth j P 0%N)) (elem u j) (ps_delta R) (WP j) (Wu j) Hd). unfold mulN.
      pose proof (mul_wp' _ _ (WP j) Hd) as M1. pose proof (mul_wp' _ _ (Wu j) Hd) as M2.
      change (entry u j) with (elem u j) in M2. assert (word_pair (elem v j)) as W3 by exact (Wv j).
      rewrite (join_xor _ _ (xor_pair_wp _ _ M1 M2) (xor_pair_wp _ _ W3 M2)).
      rewrite (join_xor _ _ M1 M2), (join_xor _ _ W3 M2).
      change (entry v j) with (elem v j).
      apply N.bits_inj. intros b. rewrite !N.lxor_spec.
      destruct (N.testbit _ b), (N.testbit _ b), (N.testbit _ b); reflexivity. }
    rewrite EK, decode_row_lin by exact Hr. rewrite (decode_row_mul (ps_delta R) M P r Hd SP Hr).
    replace (tab M (fun j => join (entry v j))) with (map join v) by (rewrite map_join_tab, Lv; reflexivity).
    assert (Forall small (map join v)) as SV.
    { apply Forall_forall. intros z Hz. apply in_map_iff in Hz. destruct Hz as (e & <- & He).
      apply (In_nth _ _ (0, 0)%N) in He. destruct He as (j & _ & <-). apply join_lt, Wv. }
    pose proof (decode_row_small P r SP) as DP. pose proof (item_hash_wp x Bx) as Wh.
    pose proof (split_word_pair _ DP) as WDP.
    rewrite split_xor; [|apply decode_row_small, SV|apply join_lt, mul_wp'; [exact WDP|exact Hd]].
    rewrite mul_add_l by assumption. unfold mulN. rewrite split_join by (apply mul_wp'; assumption).
    symmetry. apply xp_assoc.
  - intros j Hj. unfold entry. rewrite map_map.
    match goal with |- nth j (map ?f ys) _ = _ =>
      rewrite (nth_map_in f ys j 0%N (0, 0)%N) by lia end. reflexivity.
Qed.
End Run.
