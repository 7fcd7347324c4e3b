(** What mplang writes as JSON is text, has distinct keys, and therefore reads back. *)
From Coq Require Import List NArith ZArith String Ascii Bool Lia PeanoNat Permutation.
From Verif Require Import Base64Model CtxModel SerdeModel SerdeSpec SerdeProofs SerdeValue BinModel BinContainer MorphModel ExecKeyModel SortKeys JsonSort ProgramModel ProgramSpec ProgramProofs JsonText JsonTextProofs.
Import ListNotations.
Local Open Scope string_scope.
Local Open Scope list_scope.

Section Utf8.
  Local Open Scope N_scope.
  Ltac Zify.zify_post_hook ::= Z.to_euclidean_division_equations.
  Lemma bt {b : bool} {P : Prop} : reflect P b -> P -> b = true. Proof. now intros []. Qed.
  Lemma bf {b : bool} {P : Prop} : reflect P b -> ~ P -> b = false. Proof. now intros []. Qed.
  Ltac T x := replace x with true by (symmetry; unfold cont; rewrite ?andb_true_iff, ?N.leb_le, ?N.ltb_lt, ?ord_chr by lia; lia).
  Ltac F x := replace x with false by (symmetry; rewrite ?andb_false_iff, ?N.leb_gt, ?N.ltb_ge, ?ord_chr by lia; lia).
  Lemma decode_utf8 cp s : scalar_value cp = true -> decode (utf8 cp +++ s) = option_map (cons cp) (decode s).
  Proof.
    intros Sv. pose proof Sv as Sv'. unfold scalar_value in Sv'. rewrite orb_true_iff, andb_true_iff, N.leb_le, !N.ltb_lt in Sv'.
    unfold utf8. destruct (N.ltb_spec cp 128).
    { cbn [append decode]. rewrite ord_chr by lia. destruct (N.ltb_spec cp 128); [reflexivity|lia]. }
    destruct (N.ltb_spec cp 2048).
    { cbn [append decode]. remember (cp / 64) as q eqn:Eq. remember (cp mod 64) as r eqn:Er. assert (q < 32) by lia. assert (r < 64) by lia.
      F (ord (chr (192 + q)) <? 128). T ((192 <=? ord (chr (192 + q))) && (ord (chr (192 + q)) <? 224)). rewrite !ord_chr by lia.
      replace (64 * (192 + q - 192) + (128 + r - 128)) with cp by lia. T (cont (chr (128 + r))). T (128 <=? cp). reflexivity. }
    destruct (N.ltb_spec cp 65536).
    { cbn [append decode]. remember (cp mod 64) as r eqn:Er. remember (cp / 64) as m eqn:Em. remember (m mod 64) as r2 eqn:Er2.
      replace (cp / 4096) with (m / 64) by (subst m; rewrite N.div_div by lia; reflexivity). remember (m / 64) as q eqn:Eq.
      assert (q < 16) by lia. assert (r < 64) by lia. assert (r2 < 64) by lia. assert (E : 4096 * q + 64 * r2 + r = cp) by lia. clear Er Em Er2 Eq.
      F (ord (chr (224 + q)) <? 128). F ((192 <=? ord (chr (224 + q))) && (ord (chr (224 + q)) <? 224)). T ((224 <=? ord (chr (224 + q))) && (ord (chr (224 + q)) <? 240)).
      rewrite !ord_chr by lia. replace (4096 * (224 + q - 224) + 64 * (128 + r2 - 128) + (128 + r - 128)) with cp by lia.
      T (cont (chr (128 + r))). T (cont (chr (128 + r2))). T (2048 <=? cp). rewrite Sv. reflexivity. }
    cbn [append decode]. remember (cp mod 64) as r eqn:Er. remember (cp / 64) as m eqn:Em. remember (m mod 64) as r2 eqn:Er2.
    replace (cp / 4096) with (m / 64) by (subst m; rewrite N.div_div by lia; reflexivity). remember (m / 64) as m2 eqn:Em2. remember (m2 mod 64) as r3 eqn:Er3.
    replace (cp / 262144) with (m2 / 64) by (subst m2 m; rewrite !N.div_div by lia; reflexivity). remember (m2 / 64) as q eqn:Eq.
    assert (q < 5) by lia. assert (r < 64) by lia. assert (r2 < 64) by lia. assert (r3 < 64) by lia. assert (E : 262144 * q + 4096 * r3 + 64 * r2 + r = cp) by lia. clear Er Em Er2 Eq Em2 Er3.
    F (ord (chr (240 + q)) <? 128). F ((192 <=? ord (chr (240 + q))) && (ord (chr (240 + q)) <? 224)). F ((224 <=? ord (chr (240 + q))) && (ord (chr (240 + q)) <? 240)).
    T ((240 <=? ord (chr (240 + q))) && (ord (chr (240 + q)) <? 248)).
    rewrite !ord_chr by lia. replace (262144 * (240 + q - 240) + 4096 * (128 + r3 - 128) + 64 * (128 + r2 - 128) + (128 + r - 128)) with cp by lia.
    T (cont (chr (128 + r))). T (cont (chr (128 + r2))). T (cont (chr (128 + r3))). T (65536 <=? cp). rewrite Sv. reflexivity.
  Qed.
  Lemma text_inv s : is_text s = true -> exists cps, s = cat (map utf8 cps) /\ Forall (fun cp => scalar_value cp = true) cps.
  Proof. unfold is_text. destruct (decode s) as [cps|] eqn:D; [|discriminate]. intros _. exists cps. destruct (decode_sound _ _ _ (le_n _) D). auto. Qed.
  Lemma text_utf8 cp s : scalar_value cp = true -> is_text s = true -> is_text (utf8 cp +++ s) = true.
  Proof. intros Sv H. unfold is_text in *. rewrite decode_utf8 by exact Sv. destruct (decode s); [reflexivity|discriminate]. Qed.
  Lemma text_app a b : is_text a = true -> is_text b = true -> is_text (a +++ b) = true.
  Proof.
    intros A B. apply text_inv in A. destruct A as (cps & -> & F). induction F as [|cp l Sv F IH]; [exact B|].
    cbn [map cat]. rewrite sapp_assoc. apply text_utf8; assumption.
  Qed.
  Lemma text_char c s : ord c < 128 -> is_text s = true -> is_text (String c s) = true.
  Proof.
    intros L H. change (String c s) with (String c "" +++ s). replace (String c "") with (utf8 (ord c)).
    - apply text_utf8; [|exact H]. unfold scalar_value. apply orb_true_iff. left. apply N.ltb_lt. lia.
    - unfold utf8. destruct (N.ltb_spec (ord c) 128); [now rewrite chr_ord|lia].
  Qed.
  Lemma text_uesc n : is_text (uesc n) = true.
  Proof.
    assert (D : forall k, k < 16 -> ord (hexdigit k) < 128).
    { intros k K. unfold hexdigit. destruct (N.ltb_spec k 10); rewrite ord_chr; lia. }
    unfold uesc, hex4. repeat (apply text_char; [first [reflexivity|apply D; lia]|]). reflexivity.
  Qed.
  Lemma text_short n c : short_escape n = Some c -> ord c < 128.
  Proof.
    unfold short_escape. repeat (match goal with |- context [n =? ?k] => destruct (N.eqb_spec n k) as [->|] end; [intros H; injection H as <-; reflexivity|]). discriminate.
  Qed.
  Lemma text_esc_cp cp : is_text (esc_cp cp) = true.
  Proof.
    unfold esc_cp. destruct (short_escape cp) as [c|] eqn:E.
    - apply text_char; [reflexivity|]. apply text_char; [eapply text_short; eauto|reflexivity].
    - destruct ((32 <=? cp) && (cp <? 127)) eqn:A.
      + apply andb_true_iff in A. destruct A as [_ B]. apply N.ltb_lt in B. apply text_char; [rewrite ord_chr; lia|reflexivity].
      + destruct (cp <? 65536); [apply text_uesc|apply text_app; apply text_uesc].
  Qed.
  Lemma esc_high c : 128 <= ord c -> esc_byte c = String c "".
  Proof.
    intros H. unfold esc_byte. replace (short_escape (ord c)) with (@None ascii).
    - destruct (N.leb_spec 32 (ord c)); [reflexivity|lia].
    - unfold short_escape. repeat (match goal with |- context [ord c =? ?k] => destruct (N.eqb_spec (ord c) k); [lia|] end). reflexivity.
  Qed.
  Lemma text_esc_low c : ord c < 128 -> is_text (esc_byte c) = true.
  Proof.
    intros H. unfold esc_byte. destruct (short_escape (ord c)) as [e|] eqn:E.
    - apply text_char; [reflexivity|]. apply text_char; [eapply text_short; eauto|reflexivity].
    - destruct (32 <=? ord c); [apply text_char; [exact H|reflexivity]|apply text_uesc].
  Qed.
  Definition esc_bytes (s : string) : string := cat (map esc_byte (list_ascii_of_string s)).
  Lemma esc_bytes_app a b : esc_bytes (a +++ b) = esc_bytes a +++ esc_bytes b.
  Proof. unfold esc_bytes. induction a as [|c a IH]; [reflexivity|]. cbn [append list_ascii_of_string map cat]. rewrite IH, sapp_assoc. reflexivity. Qed.
  Lemma text_esc_utf8 cp : scalar_value cp = true -> is_text (esc_bytes (utf8 cp)) = true.
  Proof.
    intros Sv. pose proof (text_utf8 cp "" Sv eq_refl) as U. rewrite sapp_nil in U. pose proof Sv as Sv'. unfold scalar_value in Sv'. rewrite orb_true_iff, andb_true_iff, N.leb_le, !N.ltb_lt in Sv'.
    destruct (N.lt_ge_cases cp 128) as [L|L].
    - unfold utf8. destruct (N.ltb_spec cp 128); [|lia]. unfold esc_bytes. cbn. rewrite sapp_nil. apply text_esc_low. rewrite ord_chr; lia.
    - replace (esc_bytes (utf8 cp)) with (utf8 cp); [exact U|]. unfold utf8. destruct (N.ltb_spec cp 128); [lia|].
      destruct (N.ltb_spec cp 2048); [|destruct (N.ltb_spec cp 65536)]; unfold esc_bytes; cbn [list_ascii_of_string map cat]; rewrite !esc_high by (rewrite ord_chr; lia); reflexivity.
  Qed.
  Lemma text_esc a s : is_text s = true -> is_text (esc a s) = true.
  Proof.
    intros H. unfold esc. destruct a.
    - destruct (decode s) as [cps|]; [|reflexivity]. induction cps as [|cp l IH]; [reflexivity|]. cbn [map cat]. apply text_app; [apply text_esc_cp|exact IH].
    - fold (esc_bytes s). apply text_inv in H. destruct H as (cps & -> & F). induction F as [|cp l Sv F IH]; [reflexivity|].
      cbn [map cat]. rewrite esc_bytes_app. apply text_app; [now apply text_esc_utf8|exact IH].
  Qed.
  Lemma text_quote a s : is_text s = true -> is_text (quote a s) = true.
  Proof. intros H. unfold quote. apply text_char; [reflexivity|]. apply text_app; [now apply text_esc|reflexivity]. Qed.
  Lemma text_tok s : all_tok s = true -> is_text s = true.
  Proof.
    induction s as [|c s IH]; [reflexivity|]. cbn [all_tok]. intros H. apply andb_true_iff in H. destruct H as [C H]. apply text_char; [|auto].
    unfold is_tok in C. rewrite !orb_true_iff, !andb_true_iff, !N.leb_le, !N.ltb_lt, !N.eqb_eq in C. lia.
  Qed.
  Lemma text_ws w : ws_only w -> is_text w = true.
  Proof.
    intros H. specialize (H ""). rewrite sapp_nil in H. induction w as [|c w IH]; [reflexivity|]. cbn [skip] in H. destruct (is_ws c) eqn:C; [|discriminate H].
    apply text_char; [|auto]. unfold is_ws in C. rewrite !orb_true_iff, !N.eqb_eq in C. lia.
  Qed.
End Utf8.

Section Printed.
  Variable fprint : Z -> string.
  Variable fparse : string -> option Z.
  Variable st : style.
  Hypothesis Hst : good_style st.
  Hypothesis Hf : forall f, reads fparse (fprint f) (JFloat f).
  Lemma text_items f d l : (forall x, In x l -> is_text (f x) = true) -> is_text (items st f d l) = true.
  Proof.
    induction l as [|x l IH]; intros H; [reflexivity|]. cbn [items]. apply text_app; [apply H; left; reflexivity|]. destruct l as [|y l]; [reflexivity|].
    apply text_char; [reflexivity|]. apply text_app; [apply text_ws, Hst|]. apply IH. intros z Hz. apply H. right. exact Hz.
  Qed.
  Lemma text_members f d l : (forall k x, In (k, x) l -> is_text k = true /\ is_text (f x) = true) -> is_text (members st f d l) = true.
  Proof.
    induction l as [|[k x] l IH]; intros H; [reflexivity|]. cbn [members]. unfold json_member. cbn [fst snd]. destruct (H k x (or_introl eq_refl)) as [Hk Hx]. apply text_app.
    - apply text_app; [now apply text_quote|]. apply text_char; [reflexivity|]. apply text_app; [apply text_ws, Hst|exact Hx].
    - destruct l as [|y l]; [reflexivity|].
      apply text_char; [reflexivity|]. apply text_app; [apply text_ws, Hst|]. apply IH. intros k' z Hz. apply H. right. exact Hz.
  Qed.
  Lemma text_pr : forall j, json_ok j -> forall d, is_text (pr fprint st d j) = true.
  Proof.
    apply (json_ind' (fun j => json_ok j -> forall d, is_text (pr fprint st d j) = true)); try reflexivity.
    - intros [] _ d; reflexivity.
    - intros z _ d. apply text_tok, (reads_int fparse z).
    - intros f _ d. apply text_tok, (Hf f).
    - intros s H d. now apply text_quote.
    - intros l IH W d. cbn [json_ok] in W. apply all_Forall in W. rewrite Forall_forall in W.
      destruct l as [|x l]; [reflexivity|]. cbn [pr]. apply text_char; [reflexivity|]. apply text_app; [apply text_ws, Hst|]. apply text_app.
      + apply text_items. intros y Hy. apply IH; [exact Hy|apply W, Hy].
      + apply text_app; [apply text_ws, Hst|reflexivity].
    - intros l IH W d. cbn [json_ok] in W. destruct W as [_ W]. apply all_Forall in W. rewrite Forall_forall in W.
      destruct l as [|x l]; [reflexivity|]. cbn [pr]. apply text_char; [reflexivity|]. apply text_app; [apply text_ws, Hst|]. apply text_app.
      + apply text_members. intros k y Hy. destruct (W _ Hy) as [Tk Ty]. split; [exact Tk|]. eapply IH; [exact Hy|exact Ty].
      + apply text_app; [apply text_ws, Hst|reflexivity].
  Qed.
  Theorem loads_bytes_dumps j : json_ok j -> loads_bytes fparse (json_dumps fprint st j) = Some j.
  Proof. intros H. unfold loads_bytes. replace (is_text (json_dumps fprint st j)) with true by (symmetry; exact (text_pr j H 0)). now apply loads_dumps. Qed.
End Printed.

(** ** what the serializers produce *)
Lemma text_b64 : forall n s, (String.length s <= n)%nat -> is_text (b64enc s) = true.
Proof.
  assert (E : forall x, (ord (enc6 x) < 128)%N).
  { intros [[[[[a b] c] d] e] f]. destruct a, b, c, d, e, f; reflexivity. }
  induction n as [|n IH]; intros s L; [destruct s; [reflexivity|cbn in L; lia]|].
  destruct s as [|[a0 a1 a2 a3 a4 a5 a6 a7] [|[b0 b1 b2 b3 b4 b5 b6 b7] [|[c0 c1 c2 c3 c4 c5 c6 c7] s]]]; [reflexivity| | |]; cbn [b64enc].
  - apply text_char; [apply E|]. apply text_char; [apply E|]. reflexivity.
  - apply text_char; [apply E|]. apply text_char; [apply E|]. apply text_char; [apply E|]. reflexivity.
  - apply text_char; [apply E|]. apply text_char; [apply E|]. apply text_char; [apply E|]. apply text_char; [apply E|]. apply IH. cbn in L. lia.
Qed.
Lemma ok_b64 s : json_ok (b64 s). Proof. apply (text_b64 _ _ (le_n _)). Qed.
Lemma ok_ints l : json_ok (JArr (map JInt l)). Proof. cbn. induction l; cbn; auto. Qed.
Lemma ok_strs l : texts l -> json_ok (JArr (map JStr l)). Proof. cbn. unfold texts. induction l as [|x l IH]; cbn; intuition. Qed.
Lemma ok_arr l : (forall x, In x l -> json_ok x) -> json_ok (JArr l).
Proof. intros H. cbn. apply all_Forall, Forall_forall, H. Qed.
Lemma ok_obj l : NoDup (map fst l) -> (forall k x, In (k, x) l -> is_text k = true /\ json_ok x) -> json_ok (JObj l).
Proof. intros N H. cbn. split; [exact N|]. apply all_Forall, Forall_forall. intros [k x]. apply H. Qed.
(** literal field names *)
Fixpoint distinct (l : list string) : bool := match l with [] => true | x :: l' => negb (existsb (String.eqb x) l') && distinct l' end.
Lemma distinct_nodup l : distinct l = true -> NoDup l.
Proof.
  induction l as [|x l IH]; intros H; [constructor|]. cbn in H. apply andb_true_iff in H. destruct H as [H1 H2]. constructor; [|auto].
  intros Hi. apply negb_true_iff in H1. assert (existsb (String.eqb x) l = true); [|congruence]. apply existsb_exists. exists x. split; [exact Hi|apply String.eqb_refl].
Qed.
Ltac lit_obj := cbn [app]; apply ok_obj; [apply distinct_nodup; reflexivity|];
  let k := fresh "k" in let x := fresh "x" in let H := fresh "H" in
  intros k x H; cbn [In] in H; repeat (destruct H as [H|H]; [injection H as <- <-; split; [reflexivity|]|]); [..|destruct H].

Lemma ok_ty : forall t, wf_ty t -> text_ty t -> json_ok (ty_to_json t).
Proof.
  fix IH 1. intros t. destruct t; intros W T; cbn [wf_ty text_ty] in W, T; cbn [ty_to_json]; unfold tag.
  - lit_obj; exact I || reflexivity.
  - lit_obj; exact I || reflexivity.
  - lit_obj; [|reflexivity]. apply IH; tauto.
  - lit_obj; [|apply ok_ints|reflexivity]. apply IH; tauto.
  - lit_obj; [|exact I|reflexivity]. apply IH; tauto.
  - assert (S : json_ok (JObj (map (fun p : string * ty => (fst p, ty_to_json (snd p))) schema))).
    { apply ok_obj; [rewrite map_map; apply W|]. destruct W as (_ & W & _). clear - IH W T. induction schema as [|[k u] l IHl]; intros k' x H; [destruct H|].
      cbn in W, T. destruct W as [Wu W], T as [[Tk Tu] T]. destruct H as [H|H]; [injection H as <- <-; split; [exact Tk|apply IH; assumption]|]. apply (IHl W T k' x H). }
    destruct (nrows =? -1)%Z; lit_obj; exact S || exact I || reflexivity.
  - lit_obj; [exact T|reflexivity].
  - lit_obj; [apply IH; tauto|apply T|reflexivity].
  - lit_obj; [apply IH; tauto| |reflexivity]. destruct parties; [apply ok_ints|exact I].
  - lit_obj; [exact T|reflexivity].
  - lit_obj; [exact T|reflexivity].
  - lit_obj; [exact T|reflexivity].
  - lit_obj; [exact T|reflexivity].
  - lit_obj; [exact T|reflexivity].
  - lit_obj; [exact T|exact I|reflexivity].
  - lit_obj; [apply IH; tauto|reflexivity].
  - lit_obj; [apply IH; tauto|reflexivity].
  - lit_obj; exact I || reflexivity.
  - lit_obj; reflexivity.
  - lit_obj; [exact T|reflexivity].
  - lit_obj; reflexivity.
Qed.

Ltac allf H := rewrite all_Forall, Forall_forall in H.
Lemma ok_vals (l : list (string * ty)) : all (fun v => wf_ty (snd v)) l -> text_vals l ->
  json_ok (JArr (map (fun v => JObj [("name", JStr (fst v)); ("type", ty_to_json (snd v))]) l)).
Proof.
  intros W T. unfold text_vals in T. allf W. allf T. apply ok_arr. intros x Hx. apply in_map_iff in Hx. destruct Hx as (v & <- & Hv).
  lit_obj; [apply (T v Hv)|apply ok_ty; [apply (W v Hv)|apply (T v Hv)]].
Qed.
Lemma text_kids x : text_pv x -> forall y, In y (kids x) -> text_pv y.
Proof.
  intros W y Hy. destruct x as [| | | | | | | | sh l | | | | l | l | l | | | ins ops outs | | sh l | | | | | g nm]; cbn [kids] in Hy; try destruct Hy; cbn [text_pv] in W.
  - allf W. auto.
  - allf W. auto.
  - allf W. auto.
  - allf W. apply in_flat_map in Hy. destruct Hy as (p & Hp & [<-|[<-|[]]]); apply W; exact Hp.
  - destruct W as (_ & W & _). allf W. apply in_flat_map in Hy. destruct Hy as (o & Ho & Hy). destruct (W o Ho) as (_ & _ & _ & _ & Wa & Wr). allf Wa. allf Wr. apply in_app_or in Hy. destruct Hy as [Hy|Hy]; [|auto].
    apply in_map_iff in Hy. destruct Hy as (p & <- & Hp). apply Wa. exact Hp.
  - allf W. auto.
  - subst y. apply W.
  - contradiction.
Qed.

Section Values.
  Variable float_int : Z -> option Z.
  Variable itemsize : string -> option Z.
  Notation wf := (wf_pv float_int itemsize).
  Lemma str_text (k : pv) : is_str k = true -> text_pv k -> is_text (str_of k) = true.
  Proof. destruct k; try discriminate. auto. Qed.
  Lemma all_str (l : list (pv * pv)) p : existsb (fun p => negb (is_str (fst p))) l = false -> In p l -> is_str (fst p) = true.
  Proof.
    intros E H. destruct (is_str (fst p)) eqn:Q; [reflexivity|]. rewrite <- E. apply existsb_exists. exists p. split; [exact H|]. now rewrite Q.
  Qed.
  Theorem ok_pv : forall x, wf x -> text_pv x -> json_ok (to_json x).
  Proof.
    apply (kids_ind (fun x => wf x -> text_pv x -> json_ok (to_json x))). intros x IH0 W T.
    assert (IH : forall y, In y (kids x) -> json_ok (to_json y)) by (intros y Hy; apply IH0; [exact Hy|exact (wf_kids float_int itemsize x W y Hy)|exact (text_kids x T y Hy)]). clear IH0.
    assert (LL : forall l : list pv, (forall y, In y l -> In y (kids x)) -> json_ok (JArr (map to_json l))).
    { intros l Hl. apply ok_arr. intros z Hz. apply in_map_iff in Hz. destruct Hz as (y & <- & Hy). apply IH, Hl, Hy. }
    destruct x as [|b|z|f|s|z|f|d sh data|sh l|d sh data|ipc|ipc|l|l|l|s|t|ins ops outs|d sh data|sh l|ipc|s|s|kind suite data|g nm];
      cbn [wf_pv text_pv] in W, T; cbn [to_json kids] in *; unfold btag, tag.
    - lit_obj; reflexivity.
    - lit_obj; exact I || reflexivity.
    - lit_obj; exact I || reflexivity.
    - lit_obj; exact I || reflexivity.
    - lit_obj; [reflexivity|exact T].
    - lit_obj; exact I || reflexivity.
    - lit_obj; exact I || reflexivity.
    - lit_obj; [reflexivity|exact T|apply ok_ints|apply ok_b64].
    - lit_obj; [reflexivity|apply ok_ints|apply LL; auto].
    - lit_obj; [reflexivity|exact T|apply ok_ints|apply ok_b64].
    - lit_obj; [reflexivity|apply ok_b64].
    - lit_obj; [reflexivity|apply ok_b64].
    - lit_obj; [reflexivity|apply LL; auto].
    - lit_obj; [reflexivity|apply LL; auto].
    - destruct W as [_ Wk]. allf T. destruct (existsb _ l) eqn:Q.
      + lit_obj; [reflexivity|]. apply ok_arr. intros z Hz. apply in_map_iff in Hz. destruct Hz as (p & <- & Hp). apply ok_arr.
        intros y [<-|[<-|[]]]; apply IH, in_flat_map; exists p; (split; [exact Hp|]); cbn; auto.
      + lit_obj; [reflexivity|]. apply ok_obj; [rewrite map_map; cbn [fst]; exact (str_keys float_int l Q Wk)|].
        intros k x H. apply in_map_iff in H. destruct H as (p & E & Hp). injection E as <- <-. split.
        * apply str_text; [exact (all_str l p Q Hp)|apply (T p Hp)].
        * apply IH, in_flat_map. exists p. split; [exact Hp|]. cbn. auto.
    - lit_obj; [reflexivity|apply ok_b64].
    - now apply ok_ty.
    - destruct W as (Wi & Wo & _), T as (Ti & To & Tu). lit_obj; [now apply ok_vals| |now apply ok_strs|reflexivity].
      apply ok_arr. intros z Hz. apply in_map_iff in Hz. destruct Hz as (o & <- & Ho). allf Wo. allf To.
      destruct (Wo o Ho) as (Wv & Wa & Wn & Wr), (To o Ho) as (T1 & T2 & T3 & T4 & T5 & T6). allf T5.
      lit_obj; [exact T1|now apply ok_strs|now apply ok_vals| | |exact T2].
      + apply ok_obj; [rewrite map_map; exact Wn|]. intros k x H. apply in_map_iff in H. destruct H as (p & E & Hp). injection E as <- <-. split; [apply (T5 p Hp)|].
        apply IH, in_flat_map. exists o. split; [exact Ho|]. apply in_or_app. left. now apply in_map.
      + apply LL. intros y Hy. apply in_flat_map. exists o. split; [exact Ho|]. apply in_or_app. right. exact Hy.
    - lit_obj; [reflexivity|exact T|apply ok_ints|apply ok_b64|reflexivity].
    - lit_obj; [reflexivity|apply ok_ints|apply LL; auto|reflexivity].
    - lit_obj; [apply ok_b64|reflexivity].
    - lit_obj; [apply ok_b64|reflexivity].
    - lit_obj; [apply ok_b64|reflexivity].
    - lit_obj; [exact T|apply ok_b64|]. destruct W as [->|[->| ->]]; reflexivity.
    - lit_obj; [apply IH; left; reflexivity|apply T|reflexivity].
  Qed.

  Lemma thread_in {A B} (f : A -> nat -> B * list string) l : forall i b, In b (fst (thread f l i)) -> exists a j, In a l /\ b = fst (f a j).
  Proof.
    induction l as [|a l IH]; intros i b H; [destruct H|]. cbn in H. destruct H as [<-|H]; [exists a, i; cbn; auto|].
    apply IH in H. destruct H as (a' & j & Ha & E). exists a', j. cbn. auto.
  Qed.
  Lemma thread_keys {A} (k : A -> string) (f : A -> nat -> json * list string) l : forall i,
    map fst (fst (thread (fun p i => let b := f p i in ((k p, fst b), snd b)) l i)) = map k l.
  Proof. induction l as [|a l IH]; intros i; [reflexivity|]. cbn. f_equal. apply IH. Qed.

  Theorem ok_benc : forall x, wf x -> text_pv x -> forall i, json_ok (fst (benc x i)).
  Proof.
    apply (kids_ind (fun x => wf x -> text_pv x -> forall i, json_ok (fst (benc x i)))). intros x IH0 W T i.
    pose proof (ok_pv x W T) as OK.
    assert (IH : forall y, In y (kids x) -> forall i, json_ok (fst (benc y i))) by (intros y Hy; apply IH0; [exact Hy|exact (wf_kids float_int itemsize x W y Hy)|exact (text_kids x T y Hy)]). clear IH0.
    assert (LL : forall l i, (forall y, In y l -> In y (kids x)) -> json_ok (JArr (fst (thread benc l i)))).
    { intros l j Hl. apply ok_arr. intros z Hz. apply thread_in in Hz. destruct Hz as (y & m & Hy & ->). apply IH, Hl, Hy. }
    destruct x as [|b|z|f|s|z|f|d sh data|sh l|d sh data|ipc|ipc|l|l|l|s|t|ins ops outs|d sh data|sh l|ipc|s|s|kind suite data|g nm]; try exact OK;
      cbn [wf_pv text_pv] in W, T; cbn [benc kids fst] in *; unfold btag, tag; clear OK.
    - lit_obj; [reflexivity|exact T|apply ok_ints|exact I].
    - lit_obj; [reflexivity|apply ok_ints|apply LL; auto].
    - lit_obj; [reflexivity|exact T|apply ok_ints|exact I].
    - lit_obj; [reflexivity|exact I].
    - lit_obj; [reflexivity|exact I].
    - lit_obj; [reflexivity|apply LL; auto].
    - lit_obj; [reflexivity|apply LL; auto].
    - destruct W as [_ Wk]. allf T. destruct (existsb _ l) eqn:Q; cbn [fst].
      + lit_obj; [reflexivity|]. apply ok_arr. intros z Hz. apply thread_in in Hz. destruct Hz as (p & m & Hp & ->). cbn [fst]. apply ok_arr.
        intros y [<-|[<-|[]]]; apply IH, in_flat_map; exists p; (split; [exact Hp|]); cbn; auto.
      + lit_obj; [reflexivity|]. apply ok_obj; [rewrite (thread_keys (fun p : pv * pv => str_of (fst p)) (fun p i => benc (snd p) i)); exact (str_keys float_int l Q Wk)|].
        intros k x H. apply thread_in in H. destruct H as (p & m & Hp & E). injection E as -> ->. split.
        * apply str_text; [exact (all_str l p Q Hp)|apply (T p Hp)].
        * apply IH, in_flat_map. exists p. split; [exact Hp|]. cbn. auto.
    - lit_obj; [reflexivity|exact I].
    - lit_obj; [reflexivity|exact T|apply ok_ints|exact I|reflexivity].
    - lit_obj; [reflexivity|apply ok_ints|apply LL; auto|reflexivity].
    - lit_obj; [exact I|reflexivity].
  Qed.
End Values.

(** sorting keys keeps all this *)
Lemma ok_sort : forall j, json_ok j -> json_ok (sort_json j).
Proof.
  apply (json_ind' (fun j => json_ok j -> json_ok (sort_json j))); try (intros; assumption).
  - intros l IH W. cbn [json_ok] in W. allf W. change (sort_json (JArr l)) with (JArr (map sort_json l)). apply ok_arr. intros z Hz. apply in_map_iff in Hz. destruct Hz as (y & <- & Hy). apply IH; auto.
  - intros l IH [N W]. allf W. change (sort_json (JObj l)) with (JObj (sort_keys (map (fun p => (fst p, sort_json (snd p))) l))). apply ok_obj.
    + apply sort_nodup. rewrite map_map. exact N.
    + intros k x H. apply (proj1 (sort_in _ _)) in H. apply in_map_iff in H. destruct H as ([k' y] & E & Hp). cbn in E. injection E as <- <-. destruct (W _ Hp) as [Tk Ty]. split; [exact Tk|]. eapply IH; [exact Hp|exact Ty].
Qed.

(** ** the hypothesis on floats can be met: the floats with an integral value, written as Python does *)
Definition fprint_ex (z : Z) : string := show_int z +++ ".0".
Fixpoint upto (s : string) : option string :=
  match s with
  | "" => None
  | String c r => if String.eqb s ".0" then Some "" else option_map (String c) (upto r)
  end.
Definition fparse_ex (s : string) : option Z := match upto s with Some t => int_lit t | None => None end.
Lemma upto_app a : upto (a +++ ".0") = Some a.
Proof.
  induction a as [|c a IH]; [reflexivity|]. cbn [append upto]. destruct (String.eqb_spec (String c (a +++ ".0")) ".0") as [E|_]; [|now rewrite IH].
  injection E as _ E. apply (f_equal String.length) in E. rewrite slength_app in E. cbn in E. lia.
Qed.
Lemma no_nat u : nat_lit (DecimalString.NilEmpty.string_of_uint u +++ ".0") = None.
Proof.
  unfold nat_lit. replace (DecimalString.NilEmpty.uint_of_string _) with (@None Decimal.uint); [reflexivity|]. symmetry.
  induction u; cbn; rewrite ?IHu; reflexivity.
Qed.
Lemma all_tok_app a b : all_tok a = true -> all_tok b = true -> all_tok (a +++ b) = true.
Proof. induction a as [|c a IH]; cbn; intros H B; [exact B|]. apply andb_true_iff in H. destruct H as [-> H]. cbn. auto. Qed.
Lemma float_text_ex : float_text fprint_ex fparse_ex.
Proof.
  intros z. unfold fprint_ex. destruct (reads_int fparse_ex z) as (N & A & W). split; [destruct (show_int z); discriminate|]. split; [now apply all_tok_app|].
  unfold word. assert (E : fparse_ex (show_int z +++ ".0") = Some z).
  { unfold fparse_ex. rewrite upto_app. unfold show_int. destruct (uint_first _ (uint_nonnil (Z.abs_N z))) as (c & s & E & N1 & _).
    pose proof (nat_lit_show (Z.abs_N z)) as L. rewrite E in *. destruct (Z.ltb_spec z 0); cbn [append]; unfold int_lit; rewrite L; cbn.
    - f_equal. lia.
    - replace (Z.of_N (Z.abs_N z)) with z by lia. destruct c as [[] [] [] [] [] [] [] []]; try reflexivity. now destruct N1. }
  assert (I : int_lit (show_int z +++ ".0") = None).
  { unfold show_int. destruct (uint_first _ (uint_nonnil (Z.abs_N z))) as (c & s & Eu & N1 & _). pose proof (no_nat (N.to_uint (Z.abs_N z))) as Nn. rewrite Eu in *.
    destruct (Z.ltb_spec z 0); cbn [append] in *; unfold int_lit; rewrite Nn; [reflexivity|]. destruct c as [[] [] [] [] [] [] [] []]; try reflexivity. now destruct N1. }
  rewrite E, I. assert (F : forall w : string, String.get (String.length w - 1) w <> Some "0"%char -> String.eqb (show_int z +++ ".0") w = false).
  { intros w Hw. destruct (String.eqb_spec (show_int z +++ ".0") w) as [Q|_]; [|reflexivity]. exfalso. apply Hw. rewrite <- Q. rewrite slength_app. cbn [String.length].
    replace (String.length (show_int z) + 2 - 1)%nat with (1 + String.length (show_int z))%nat by lia. generalize (show_int z). intros t. induction t as [|c t IH]; [reflexivity|exact IH]. }
  rewrite !F by discriminate. reflexivity.
Qed.

(** ** program artifacts *)
(** json.dumps(serde.to_json(program), ensure_ascii=False, indent=2, sort_keys=True), tool/program.py:230-235 (the sorting is in [pack]) *)
Definition artifact_text (fprint : Z -> string) (j : json) : string := json_dumps fprint (indented false) j.
(** hashlib.sha256(json.dumps(.., sort_keys=True, separators=(",", ":")).encode("utf-8")).hexdigest(), edsl/program.py:133-134 *)
Definition text_digest (fprint : Z -> string) (hexsha : string -> string) (j : json) : string := hexsha (json_dumps fprint (compact true) j).
Lemma text_op g o : op_in g o -> text_pv g -> is_text (g_opcode o) = true.
Proof.
  induction 1 as [ins ops outs o H|ins ops outs o r o' Ho Hr H IH]; intros (_ & T & _).
  - allf T. apply (T o H).
  - allf T. destruct (T o Ho) as (_ & _ & _ & _ & _ & R). allf R. apply IH, R, Hr.
Qed.
Lemma ok_text j : text j -> json_ok j. Proof. intros [->|[s [-> T]]]; [exact I|exact T]. Qed.
Lemma ok_program (float_int : Z -> option Z) (itemsize : string -> option Z) (float_trunc : Z -> res Z) (str_int : string -> res Z) (sha : json -> string) (p : program) :
  (forall j, is_text (sha j) = true) -> wf_pv float_int itemsize (p_graph p) -> text_pv (p_graph p) -> validate float_trunc str_int sha p = Ok tt ->
  text (p_created p) -> text (p_version p) -> text (p_name p) -> json_ok (sort_json (program_to_json p)).
Proof.
  intros Hs W T V T1 T2 T3. apply ok_sort. apply validate_iff in V. destruct V as [(_ & _ & (codes & EC & _ & HC) & HD & _) _].
  unfold program_to_json, tag. lit_obj; [exact I|now apply ok_text|now apply (ok_pv float_int itemsize)| | | | |now apply ok_text|now apply ok_text|reflexivity].
  - lit_obj; exact I || reflexivity.
  - rewrite EC. apply ok_strs. apply all_Forall, Forall_forall. intros c Hc. apply HC in Hc. destruct Hc as (o & Ho & <-). now apply (text_op (p_graph p)).
  - destruct HD as [->| ->]; [reflexivity|apply Hs].
  - destruct (p_world p); exact I.
Qed.
(** equal texts come from equal values *)
Lemma dumps_inj fprint fparse st j j' : float_text fprint fparse -> good_style st -> json_ok j -> json_ok j' -> json_dumps fprint st j = json_dumps fprint st j' -> j = j'.
Proof. intros F G J J' E. apply (loads_dumps fprint fparse st G F) in J, J'. rewrite E in J. congruence. Qed.
