(** JSON text round trip: json.loads undoes json.dumps, in every style. *)
From Coq Require Import List NArith ZArith String Ascii Bool Lia PeanoNat.
From Coq Require Import Decimal DecimalString DecimalN DecimalFacts.
From Verif Require Import CtxModel SerdeModel SerdeSpec SerdeProofs BinContainer JsonSort JsonText.
Import ListNotations.
Local Open Scope string_scope.
Local Open Scope list_scope.

Section Arith.
  Local Open Scope N_scope.
  Ltac Zify.zify_post_hook ::= Z.to_euclidean_division_equations.
  Lemma ord_chr n : n < 256 -> ord (chr n) = n.
  Proof. intros H. unfold ord, chr. now apply N_ascii_embedding. Qed.
  Lemma chr_ord c : chr (ord c) = c. Proof. apply ascii_N_embedding. Qed.
  Lemma ord_lt c : ord c < 256. Proof. unfold ord. apply N_ascii_bounded. Qed.
  Lemma chr_eq c n : ord c = n -> chr n = c. Proof. intros <-. apply chr_ord. Qed.

  Lemma decode_sound n : forall s cps, (String.length s <= n)%nat -> decode s = Some cps ->
    cat (map utf8 cps) = s /\ Forall (fun cp => scalar_value cp = true) cps.
  Proof.
    induction n as [|n IH]; intros s cps L H.
    { destruct s; [|cbn in L; lia]. injection H as <-. split; [reflexivity|constructor]. }
    destruct s as [|a r]; [injection H as <-; split; [reflexivity|constructor]|]. cbn [String.length] in L. cbn [decode] in H.
    assert (Step : forall (cp : N) (s' : string) (pre : string), (String.length s' <= n)%nat -> scalar_value cp = true -> utf8 cp = pre ->
              option_map (cons cp) (decode s') = Some cps -> cat (map utf8 cps) = pre +++ s' /\ Forall (fun cp => scalar_value cp = true) cps).
    { intros cp s' pre L' Sv U E. destruct (decode s') as [l|] eqn:D; [|discriminate]. injection E as <-.
      destruct (IH _ _ L' D) as [E1 E2]. cbn. rewrite U, E1. split; [reflexivity|]. constructor; assumption. }
    pose proof (ord_lt a) as La.
    destruct (N.ltb_spec (ord a) 128) as [A|A].
    { apply (Step (ord a) r (String a "")); [lia| | |exact H].
      - unfold scalar_value. apply orb_true_iff. left. apply N.ltb_lt. lia.
      - unfold utf8. destruct (N.ltb_spec (ord a) 128); [|lia]. now rewrite chr_ord. }
    destruct r as [|b r]; [discriminate|]. cbn [String.length] in L. pose proof (ord_lt b) as Lb.
    destruct ((192 <=? ord a) && (ord a <? 224)) eqn:A2.
    { apply andb_true_iff in A2. destruct A2 as [A2 A3]. apply N.leb_le in A2. apply N.ltb_lt in A3.
      destruct (cont b && _) eqn:B; [|discriminate]. apply andb_true_iff in B. destruct B as [B B3]. unfold cont in B. apply andb_true_iff in B. destruct B as [B1 B2].
      apply N.leb_le in B1, B3. apply N.ltb_lt in B2.
      apply (Step _ r (String a (String b ""))) in H; [exact H|lia| |].
      - unfold scalar_value. apply orb_true_iff. left. apply N.ltb_lt. lia.
      - remember (64 * (ord a - 192) + (ord b - 128)) as cp eqn:Ecp. unfold utf8. destruct (N.ltb_spec cp 128); [lia|]. destruct (N.ltb_spec cp 2048); [|lia].
        assert (Q : cp / 64 = ord a - 192) by lia.
        rewrite (chr_eq a) by lia. rewrite (chr_eq b) by lia. reflexivity. }
    destruct r as [|c r]; [discriminate|]. cbn [String.length] in L. pose proof (ord_lt c) as Lc.
    destruct ((224 <=? ord a) && (ord a <? 240)) eqn:A4.
    { apply andb_true_iff in A4. destruct A4 as [A4 A5]. apply N.leb_le in A4. apply N.ltb_lt in A5.
      destruct (cont b && _ && _ && _) eqn:B; [|discriminate]. rewrite !andb_true_iff in B. destruct B as [[[B B3] B4] Sv]. unfold cont in B, B3. apply andb_true_iff in B, B3. destruct B as [B1 B2], B3 as [C1 C2].
      apply N.leb_le in B1, C1, B4. apply N.ltb_lt in B2, C2.
      apply (Step _ r (String a (String b (String c "")))) in H; [exact H|lia|exact Sv|].
      remember (4096 * (ord a - 224) + 64 * (ord b - 128) + (ord c - 128)) as cp eqn:Ecp. unfold utf8.
      destruct (N.ltb_spec cp 128); [lia|]. destruct (N.ltb_spec cp 2048); [lia|]. destruct (N.ltb_spec cp 65536); [|lia].
      assert (Q1 : cp / 64 = 64 * (ord a - 224) + (ord b - 128)) by lia.
      assert (Q2 : cp / 64 / 64 = ord a - 224) by (rewrite Q1; lia).
      assert (Q3 : cp / 4096 = ord a - 224) by (rewrite <- Q2, N.div_div by lia; reflexivity).
      rewrite (chr_eq a) by lia. rewrite (chr_eq b) by (rewrite Q1 in *; lia). rewrite (chr_eq c) by lia. reflexivity. }
    destruct r as [|d r]; [discriminate|]. cbn [String.length] in L. pose proof (ord_lt d) as Ld.
    destruct ((240 <=? ord a) && (ord a <? 248)) eqn:A6; [|discriminate].
    apply andb_true_iff in A6. destruct A6 as [A6 A7]. apply N.leb_le in A6. apply N.ltb_lt in A7.
    destruct (cont b && _ && _ && _ && _) eqn:B; [|discriminate]. rewrite !andb_true_iff in B. destruct B as [[[[B B3] B4] B5] Sv]. unfold cont in B, B3, B4. apply andb_true_iff in B, B3, B4. destruct B as [B1 B2], B3 as [C1 C2], B4 as [D1 D2].
    apply N.leb_le in B1, C1, D1, B5. apply N.ltb_lt in B2, C2, D2.
    apply (Step _ r (String a (String b (String c (String d ""))))) in H; [exact H|lia|exact Sv|].
    remember (262144 * (ord a - 240) + 4096 * (ord b - 128) + 64 * (ord c - 128) + (ord d - 128)) as cp eqn:Ecp. unfold utf8.
    destruct (N.ltb_spec cp 128); [lia|]. destruct (N.ltb_spec cp 2048); [lia|]. destruct (N.ltb_spec cp 65536); [lia|].
    assert (Q1 : cp / 64 = 4096 * (ord a - 240) + 64 * (ord b - 128) + (ord c - 128)) by lia.
    assert (Q2 : cp / 64 / 64 = 64 * (ord a - 240) + (ord b - 128)) by (rewrite Q1; lia).
    assert (Q3 : cp / 64 / 64 / 64 = ord a - 240) by (rewrite Q2; lia).
    assert (Q4 : cp / 4096 = cp / 64 / 64) by (rewrite N.div_div by lia; reflexivity).
    assert (Q5 : cp / 262144 = cp / 64 / 64 / 64) by (rewrite !N.div_div by lia; reflexivity).
    rewrite Q4, Q5. rewrite Q3, Q2, Q1 in *.
    rewrite (chr_eq a) by lia. rewrite (chr_eq b) by lia. rewrite (chr_eq c) by lia. rewrite (chr_eq d) by lia. reflexivity.
  Qed.

  Lemma hex_digit n : n < 16 -> hexval (hexdigit n) = Some n.
  Proof. intros H. destruct n as [|p]; [reflexivity|]. do 4 (destruct p as [p|p|]; try reflexivity; try (exfalso; lia)). Qed.
  Lemma hex_four n : n < 65536 ->
    hexval4 (hexdigit (n / 4096 mod 16)) (hexdigit (n / 256 mod 16)) (hexdigit (n / 16 mod 16)) (hexdigit (n mod 16)) = Some n.
  Proof. intros H. unfold hexval4. rewrite !hex_digit by lia. f_equal. lia. Qed.
  Definition pre (p : string) (o : option (string * string)) := option_map (fun q => (p +++ fst q, snd q)) o.
  Lemma pstr_u h1 h2 h3 h4 r n : hexval4 h1 h2 h3 h4 = Some n -> n < 55296 \/ (57344 <= n < 65536) ->
    pstr (String "\" (String "u" (String h1 (String h2 (String h3 (String h4 r)))))) = pre (utf8 n) (pstr r).
  Proof.
    intros H R. cbn [pstr]. destruct (ascii_dec "\" """") as [Q|_]; [discriminate Q|]. destruct (ascii_dec "\" "\") as [_|Q]; [|now destruct Q].
    rewrite H. replace ((55296 <=? n) && (n <? 56320)) with false by (symmetry; apply andb_false_iff; rewrite N.leb_gt, N.ltb_ge; lia).
    replace ((56320 <=? n) && (n <? 57344)) with false by (symmetry; apply andb_false_iff; rewrite N.leb_gt, N.ltb_ge; lia).
    reflexivity.
  Qed.
  Lemma pstr_uu h1 h2 h3 h4 k1 k2 k3 k4 r n m : hexval4 h1 h2 h3 h4 = Some n -> hexval4 k1 k2 k3 k4 = Some m ->
    55296 <= n < 56320 -> 56320 <= m < 57344 ->
    pstr (String "\" (String "u" (String h1 (String h2 (String h3 (String h4 (String "\" (String "u" (String k1 (String k2 (String k3 (String k4 r))))))))))))
      = pre (utf8 (65536 + 1024 * (n - 55296) + (m - 56320))) (pstr r).
  Proof.
    intros H K Rn Rm.
    assert (A : forall r0, pstr (String "\" (String "u" (String h1 (String h2 (String h3 (String h4 r0)))))) = 
      match r0 with
      | String "\" (String "u" (String k1 (String k2 (String k3 (String k4 r))))) =>
          match hexval4 k1 k2 k3 k4 with
          | None => None
          | Some m =>
              if (56320 <=? m) && (m <? 57344) then
                option_map (fun p => (utf8 (65536 + 1024 * (n - 55296) + (m - 56320)) +++ fst p, snd p)) (pstr r)
              else None
          end
      | _ => None
      end).
    { intros r0. cbn [pstr]. destruct (ascii_dec "\" """") as [Q|_]; [discriminate Q|]. destruct (ascii_dec "\" "\") as [_|Q]; [|now destruct Q].
      rewrite H. replace ((55296 <=? n) && (n <? 56320)) with true by (symmetry; apply andb_true_iff; rewrite N.leb_le, N.ltb_lt; lia). reflexivity. }
    rewrite A. cbv match beta. rewrite K.
    replace ((56320 <=? m) && (m <? 57344)) with true by (symmetry; apply andb_true_iff; rewrite N.leb_le, N.ltb_lt; lia). reflexivity.
  Qed.
  Lemma pstr_uesc n r : n < 55296 \/ (57344 <= n < 65536) -> pstr (uesc n +++ r) = pre (utf8 n) (pstr r).
  Proof. intros H. unfold uesc, hex4. cbn [append]. apply pstr_u; [apply hex_four; lia|exact H]. Qed.
  Lemma pstr_pair cp r : 65536 <= cp < 1114112 ->
    pstr ((uesc (55296 + (cp - 65536) / 1024) +++ uesc (56320 + (cp - 65536) mod 1024)) +++ r) = pre (utf8 cp) (pstr r).
  Proof.
    intros H. remember (55296 + (cp - 65536) / 1024) as n eqn:En. remember (56320 + (cp - 65536) mod 1024) as m eqn:Em.
    assert (55296 <= n < 56320) by lia. assert (56320 <= m < 57344) by lia.
    assert (E : 65536 + 1024 * (n - 55296) + (m - 56320) = cp) by lia. clear En Em.
    unfold uesc, hex4. cbn [append]. rewrite <- E. apply pstr_uu; auto; apply hex_four; lia.
  Qed.
  Lemma short_cases n c : short_escape n = Some c -> unescape c = Some (chr n) /\ c <> "u"%char /\ n < 128.
  Proof.
    unfold short_escape. repeat (match goal with |- context [n =? ?k] => destruct (N.eqb_spec n k) as [->|] end; [intros H; injection H as <-; repeat split; try discriminate; reflexivity|]). discriminate.
  Qed.
  Lemma pstr_escape e c r : unescape e = Some c -> e <> "u"%char -> pstr (String "\" (String e r)) = pre (String c "") (pstr r).
  Proof.
    intros H N. change (pstr (String "\" (String e r))) with (pstr (String "\" (String e r))). cbn [pstr].
    destruct (ascii_dec "\" """") as [Q|_]; [discriminate Q|]. destruct (ascii_dec "\" "\") as [_|Q]; [|now destruct Q].
    destruct e as [[] [] [] [] [] [] [] []]; try discriminate H; try (now destruct N); cbn in H; injection H as <-; reflexivity.
  Qed.
  Lemma pstr_plain c r : c <> """"%char -> c <> "\"%char -> 32 <= ord c -> pstr (String c r) = pre (String c "") (pstr r).
  Proof.
    intros A B C. cbn [pstr]. destruct (ascii_dec c """"); [contradiction|]. destruct (ascii_dec c "\"); [contradiction|].
    destruct (N.ltb_spec (ord c) 32); [lia|]. reflexivity.
  Qed.
  Lemma short_none n : short_escape n = None -> chr n <> """"%char /\ chr n <> "\"%char \/ 256 <= n.
  Proof.
    intros H. destruct (N.lt_ge_cases n 256) as [L|L]; [|auto]. left.
    assert (X : forall c, chr n = c -> n = ord c) by (intros c <-; now rewrite ord_chr).
    unfold short_escape in H. split; intros E; apply X in E; subst n; vm_compute in H; discriminate.
  Qed.
  Lemma pstr_cp cp r : scalar_value cp = true -> pstr (esc_cp cp +++ r) = pre (utf8 cp) (pstr r).
  Proof.
    intros Sv. unfold esc_cp. destruct (short_escape cp) as [c|] eqn:E.
    - apply short_cases in E. destruct E as (E & Nu & L). cbn [append]. rewrite (pstr_escape _ _ _ E Nu).
      unfold utf8. destruct (N.ltb_spec cp 128); [reflexivity|lia].
    - destruct ((32 <=? cp) && (cp <? 127)) eqn:A.
      + apply andb_true_iff in A. destruct A as [A B]. apply N.leb_le in A. apply N.ltb_lt in B. cbn [append].
        destruct (short_none _ E) as [[N1 N2]|L]; [|lia]. rewrite pstr_plain; auto; [|rewrite ord_chr; lia].
        unfold utf8. destruct (N.ltb_spec cp 128); [reflexivity|lia].
      + unfold scalar_value in Sv. rewrite orb_true_iff, andb_true_iff, N.leb_le, !N.ltb_lt in Sv.
        destruct (N.ltb_spec cp 65536); [apply pstr_uesc; lia|apply pstr_pair; lia].
  Qed.
  Lemma pstr_byte c r : pstr (esc_byte c +++ r) = pre (String c "") (pstr r).
  Proof.
    unfold esc_byte. destruct (short_escape (ord c)) as [e|] eqn:E.
    - apply short_cases in E. destruct E as (E & Nu & _). cbn [append]. rewrite (pstr_escape _ _ _ E Nu). now rewrite chr_ord.
    - destruct (short_none _ E) as [[N1 N2]|L]; [|pose proof (ord_lt c); lia]. rewrite chr_ord in N1, N2.
      destruct (N.leb_spec 32 (ord c)); [now apply pstr_plain|].
      rewrite pstr_uesc by lia. f_equal. unfold utf8. destruct (N.ltb_spec (ord c) 128); [now rewrite chr_ord|lia].
  Qed.
End Arith.

Lemma pstr_quote a s r : is_text s = true -> pstr (esc a s +++ String """" r) = Some (s, r).
Proof.
  intros H. unfold esc. destruct a.
  - unfold is_text in H. destruct (decode s) as [cps|] eqn:D; [|discriminate].
    destruct (decode_sound _ _ _ (le_n _) D) as [<- F]. clear D H. induction F as [|cp l Hc F IH]; [reflexivity|].
    cbn [map cat]. rewrite sapp_assoc, pstr_cp by assumption. rewrite IH. reflexivity.
  - clear H. induction s as [|c s IH]; [reflexivity|]. cbn [list_ascii_of_string map cat]. rewrite sapp_assoc, pstr_byte, IH. reflexivity.
Qed.

(** ** whitespace and tokens *)
Definition ws_only (s : string) : Prop := forall r, skip (s +++ r) = skip r.
Definition good_style (st : style) : Prop := (forall d, ws_only (after_open st d)) /\ (forall d, ws_only (after_comma st d)) /\ ws_only (after_colon st).
Lemma ws_nil : ws_only "". Proof. intros r. reflexivity. Qed.
Lemma ws_spaces n : ws_only (spaces n).
Proof. intros r. induction n; [reflexivity|]. unfold spaces in *. cbn [repeat cat]. cbn [append]. exact IHn. Qed.
Lemma ws_newline s : ws_only s -> ws_only (newline +++ s).
Proof. intros H r. exact (H r). Qed.
Lemma good_compact a : good_style (compact a). Proof. split; [|split]; [intros d|intros d|]; apply ws_nil. Qed.
Lemma good_indented a : good_style (indented a).
Proof. split; [|split]; [intros d; apply ws_newline, ws_spaces|intros d; apply ws_newline, ws_spaces|exact (ws_spaces 1)]. Qed.
Lemma good_default : good_style default_style.
Proof. split; [|split]; [intros d; apply ws_nil|intros d; exact (ws_spaces 1)|exact (ws_spaces 1)]. Qed.

Definition stops (r : string) : Prop := match r with "" => True | String c _ => is_tok c = false end.
Lemma token_span s r : all_tok s = true -> stops r -> token (s +++ r) = (s, r).
Proof.
  intros H S. induction s as [|c s IH]; cbn in *.
  - destruct r as [|c r]; [reflexivity|]. cbn in S. cbn. now rewrite S.
  - apply andb_true_iff in H. destruct H as [-> H]. rewrite (IH H). reflexivity.
Qed.
Lemma tok_start c : is_tok c = true -> is_ws c = false /\ c <> """"%char /\ c <> "["%char /\ c <> "{"%char.
Proof. destruct c as [[] [] [] [] [] [] [] []]; intros H; try discriminate H; repeat split; discriminate. Qed.
Lemma pval_token fparse n s j r : reads fparse s j -> stops r -> pval fparse (S n) (s +++ r) = Some (j, r).
Proof.
  intros (Hn & Ht & Hw) S. destruct s as [|c s]; [now destruct Hn|].
  assert (C : is_tok c = true) by (cbn in Ht; apply andb_true_iff in Ht; tauto). destruct (tok_start c C) as (W & N1 & N2 & N3).
  cbn [append pval skip]. rewrite W. destruct (ascii_dec c """"); [contradiction|]. destruct (ascii_dec c "["); [contradiction|]. destruct (ascii_dec c "{"); [contradiction|].
  pose proof (token_span (String c s) r Ht S) as T. cbn [append] in T. rewrite T. cbn [fst snd]. now rewrite Hw.
Qed.

(** integers *)
Lemma uint_digits u : all_tok (NilEmpty.string_of_uint u) = true.
Proof. induction u; cbn; auto. Qed.
Lemma uint_beq_refl u : Decimal.uint_beq u u = true.
Proof. apply Decimal.internal_uint_dec_lb. reflexivity. Qed.
Lemma nat_lit_show n : nat_lit (NilEmpty.string_of_uint (N.to_uint n)) = Some n.
Proof.
  unfold nat_lit. rewrite NilEmpty.usu. rewrite <- DecimalN.Unsigned.to_of at 1. rewrite DecimalN.Unsigned.of_to, uint_beq_refl. reflexivity.
Qed.
Lemma uint_nonnil n : N.to_uint n <> Nil.
Proof. intros E. pose proof (DecimalN.Unsigned.to_of (N.to_uint n)) as H. rewrite DecimalN.Unsigned.of_to, E in H. discriminate H. Qed.
Lemma uint_first u : u <> Nil -> exists c s, NilEmpty.string_of_uint u = String c s /\ c <> "-"%char /\ c <> "n"%char /\ c <> "t"%char /\ c <> "f"%char.
Proof. intros H. destruct u; [now destruct H|..]; cbn; do 2 eexists; (split; [reflexivity|]); repeat split; discriminate. Qed.
Lemma reads_int fparse z : reads fparse (show_int z) (JInt z).
Proof.
  unfold show_int. destruct (uint_first _ (uint_nonnil (Z.abs_N z))) as (c & s & E & N1 & N2 & N3 & N4).
  pose proof (uint_digits (N.to_uint (Z.abs_N z))) as D. pose proof (nat_lit_show (Z.abs_N z)) as L. rewrite E in *.
  destruct (Z.ltb_spec z 0) as [H|H]; cbn [append].
  - split; [discriminate|]. split; [exact D|]. unfold word. cbn [String.eqb Ascii.eqb Bool.eqb]. unfold int_lit. rewrite L. cbn. do 2 f_equal. lia.
  - split; [discriminate|]. split; [exact D|]. unfold word.
    assert (I : int_lit (String c s) = Some z).
    { unfold int_lit. rewrite L. cbn. replace (Z.of_N (Z.abs_N z)) with z by lia. destruct c as [[] [] [] [] [] [] [] []]; try reflexivity. now destruct N1. }
    rewrite I. destruct (String.eqb_spec (String c s) "null") as [Q|_]; [injection Q as -> _; now destruct N2|].
    destruct (String.eqb_spec (String c s) "true") as [Q|_]; [injection Q as -> _; now destruct N3|].
    destruct (String.eqb_spec (String c s) "false") as [Q|_]; [injection Q as -> _; now destruct N4|]. reflexivity.
Qed.

Lemma ws_stops w c r : ws_only w -> is_tok c = false -> stops (w +++ String c r).
Proof.
  intros H C. destruct w as [|a w]; [exact C|]. cbn. specialize (H ""). cbn in H. destruct (is_ws a) eqn:A.
  - destruct a as [[] [] [] [] [] [] [] []]; try discriminate A; reflexivity.
  - discriminate H.
Qed.

Section Main.
  Variable fprint : Z -> string.
  Variable fparse : string -> option Z.
  Variable st : style.
  Hypothesis Hst : good_style st.
  Hypothesis Hf : forall f, reads fparse (fprint f) (JFloat f).
  Notation pr := (pr fprint st).
  Notation pval := (pval fparse).
  Notation pitems := (pitems fparse).
  Notation pmembers := (pmembers fparse).

  Lemma pval_ws n w s : ws_only w -> pval n (w +++ s) = pval n s.
  Proof. intros H. destruct n; [reflexivity|]. cbn [JsonText.pval]. now rewrite (H s). Qed.
  Lemma pitems_ws n w s : ws_only w -> pitems n (w +++ s) = pitems n s.
  Proof. intros H. destruct n; [reflexivity|]. cbn [JsonText.pitems]. now rewrite pval_ws. Qed.
  Lemma pmembers_ws n w s : ws_only w -> pmembers n (w +++ s) = pmembers n s.
  Proof. intros H. destruct n; [reflexivity|]. cbn [JsonText.pmembers]. now rewrite (H s). Qed.
  Lemma skip_close w c r : ws_only w -> is_ws c = false -> skip (w +++ String c r) = String c r.
  Proof. intros H C. rewrite (H _). cbn. now rewrite C. Qed.

  Lemma pr_first d j : exists c s, pr d j = String c s /\ is_ws c = false /\ c <> "]"%char /\ c <> "}"%char.
  Proof.
    assert (T : forall s v, reads fparse s v -> exists c s', s = String c s' /\ is_ws c = false /\ c <> "]"%char /\ c <> "}"%char).
    { intros s v (N & A & _). destruct s as [|c s]; [now destruct N|]. exists c, s. split; [reflexivity|]. cbn in A. apply andb_true_iff in A. destruct A as [A _].
      destruct c as [[] [] [] [] [] [] [] []]; try discriminate A; repeat split; discriminate. }
    destruct j as [|b|z|f|s|l|l].
    - eexists _, _. cbn. split; [reflexivity|]. repeat split; discriminate.
    - destruct b; eexists _, _; cbn; (split; [reflexivity|]); repeat split; discriminate.
    - apply (T _ _ (reads_int fparse z)).
    - apply (T _ _ (Hf f)).
    - eexists _, _. cbn. split; [reflexivity|]. repeat split; discriminate.
    - destruct l; eexists _, _; cbn; (split; [reflexivity|]); repeat split; discriminate.
    - destruct l; eexists _, _; cbn; (split; [reflexivity|]); repeat split; discriminate.
  Qed.
  Lemma pr_pos d j : (1 <= String.length (pr d j))%nat.
  Proof. destruct (pr_first d j) as (c & s & -> & _). cbn. lia. Qed.

  Definition ok_at (x : json) : Prop := forall d n r, (String.length (pr d x) <= n)%nat -> stops r -> pval n (pr d x +++ r) = Some (x, r).

  Lemma pitems_step n s : pitems (S n) s = match pval n s with
        | None => None
        | Some (x, r) =>
            match skip r with
            | String "," r' => option_map (fun p => (x :: fst p, snd p)) (pitems n r')
            | String "]" r' => Some ([x], r')
            | _ => None
            end
        end.
  Proof. reflexivity. Qed.
  Lemma items_ok d w r : ws_only w -> forall l n, (forall x, In x l -> ok_at x) -> l <> [] -> (S (String.length (items st (pr d) d l)) <= n)%nat ->
    pitems n (items st (pr d) d l +++ (w +++ String "]" r)) = Some (l, r).
  Proof.
    intros W. induction l as [|x l IH]; intros n Hx Hl Hn; [now destruct Hl|]. destruct n as [|n]; [lia|]. cbn [items] in *. rewrite slength_app in Hn.
    pose proof (pr_pos d x) as Px. rewrite pitems_step. rewrite sapp_assoc. destruct l as [|y l].
    - cbn [append]. rewrite (Hx x (or_introl eq_refl)); [|lia|apply ws_stops; auto]. rewrite skip_close by auto. reflexivity.
    - cbn [append]. rewrite (Hx x (or_introl eq_refl)); [|lia|reflexivity]. cbn [skip is_ws]. change (is_ws ",") with false. cbv match beta.
      cbn [String.length] in Hn. rewrite slength_app in Hn. rewrite sapp_assoc. rewrite pitems_ws by apply Hst. rewrite (IH n); [reflexivity| |discriminate|lia].
      intros z Hz. apply Hx. right. exact Hz.
  Qed.

  Lemma pmembers_step n k s : is_text k = true -> pmembers (S n) (quote (ensure_ascii st) k +++ String ":" s) =
                    match pval n s with
                    | None => None
                    | Some (x, r) =>
                        match skip r with
                        | String "," r' => option_map (fun p => ((k, x) :: fst p, snd p)) (pmembers n r')
                        | String "}" r' => Some ([(k, x)], r')
                        | _ => None
                        end
                    end.
  Proof.
    intros T. unfold quote. cbn [append JsonText.pmembers]. rewrite sapp_assoc. cbn [append]. change (skip (String """" ?s)) with (String """" s). cbv match beta.
    rewrite pstr_quote by exact T. reflexivity.
  Qed.
  Lemma members_ok d w r : ws_only w -> forall l n, (forall k x, In (k, x) l -> is_text k = true /\ ok_at x) -> l <> [] -> (S (String.length (members st (pr d) d l)) <= n)%nat ->
    pmembers n (members st (pr d) d l +++ (w +++ String "}" r)) = Some (l, r).
  Proof.
    intros W. induction l as [|[k x] l IH]; intros n Hx Hl Hn; [now destruct Hl|]. destruct n as [|n]; [lia|]. cbn [members] in *. unfold json_member in *. cbn [fst snd] in *.
    rewrite !slength_app in Hn. cbn [String.length] in Hn. rewrite slength_app in Hn.
    destruct (Hx k x (or_introl eq_refl)) as [Tk Ox]. rewrite !sapp_assoc. cbn [append]. rewrite !sapp_assoc. rewrite pmembers_step by auto. rewrite pval_ws by apply Hst.
    destruct l as [|y l].
    - cbn [append]. rewrite Ox; [|lia|apply ws_stops; auto]. rewrite skip_close by auto. reflexivity.
    - cbn [append]. rewrite Ox; [|lia|reflexivity]. cbn [skip is_ws]. change (is_ws ",") with false. cbv match beta.
      cbn [String.length] in Hn. rewrite slength_app in Hn. rewrite sapp_assoc. rewrite pmembers_ws by apply Hst. rewrite (IH n); [reflexivity| |discriminate|lia].
      intros k' z Hz. apply Hx. right. exact Hz.
  Qed.

  Lemma pval_arr n s : pval (S n) (String "[" s) = match skip s with
              | String "]" r' => Some (JArr [], r')
              | _ => option_map (fun p => (JArr (fst p), snd p)) (pitems n s)
              end.
  Proof. reflexivity. Qed.
  Lemma pval_obj n s : pval (S n) (String "{" s) = match skip s with
              | String "}" r' => Some (JObj [], r')
              | _ => option_map (fun p => (JObj (sdict (fst p)), snd p)) (pmembers n s)
              end.
  Proof. reflexivity. Qed.
  Theorem pr_ok : forall j, json_ok j -> ok_at j.
  Proof.
    apply (json_ind' (fun j => json_ok j -> ok_at j)); unfold ok_at.
    - intros _ d n r L S. destruct n; [cbn in L; lia|]. apply pval_token; auto. repeat split; discriminate.
    - intros b _ d n r L S. destruct n; [destruct b; cbn in L; lia|]. destruct b; apply pval_token; auto; repeat split; discriminate.
    - intros z _ d n r L S. pose proof (pr_pos d (JInt z)). destruct n; [lia|]. apply pval_token; auto. apply reads_int.
    - intros f _ d n r L S. pose proof (pr_pos d (JFloat f)). destruct n; [lia|]. apply pval_token; [exact (Hf f)|exact S].
    - intros s T d n r L S. destruct n; [cbn in L; lia|]. cbn [JsonText.pr]. unfold quote. cbn [append JsonText.pval].
      change (skip (String """" ?s)) with (String """" s). cbv match beta. destruct (ascii_dec """" """") as [_|Q]; [|now destruct Q].
      cbn in T. rewrite sapp_assoc. cbn [append]. rewrite pstr_quote by exact T. reflexivity.
    - intros l IH W d n r L S. destruct l as [|x l].
      { destruct n; [cbn in L; lia|]. reflexivity. }
      assert (Ox : forall y, In y (x :: l) -> ok_at y).
      { intros y Hy. unfold ok_at. apply IH; [exact Hy|]. clear -W Hy. change (all json_ok (x :: l)) in W.
        induction (x :: l) as [|z l' IHl]; [destruct Hy|]. destruct W as [Wz W]. destruct Hy as [<-|Hy]; auto. }
      change (pr d (JArr (x :: l))) with (String "[" (after_open st (Datatypes.S d) +++ (items st (pr (Datatypes.S d)) (Datatypes.S d) (x :: l) +++ (after_open st d +++ String "]" "")))) in *.
      cbn [String.length] in L. rewrite !slength_app in L. cbn [String.length] in L. destruct n as [|n]; [lia|]. cbn [append]. rewrite pval_arr, !sapp_assoc. cbn [append].
      rewrite pitems_ws by apply Hst. rewrite items_ok; [|apply Hst|exact Ox|discriminate|lia]. rewrite (proj1 Hst).
      cbn [items]. rewrite sapp_assoc. destruct (pr_first (Datatypes.S d) x) as (c & s & -> & Wc & N1 & _). cbn [append skip]. rewrite Wc.
      destruct c as [[] [] [] [] [] [] [] []]; try reflexivity. now destruct N1.
    - intros l IH W d n r L S. destruct l as [|[k x] l].
      { destruct n; [cbn in L; lia|]. reflexivity. }
      assert (Ox : forall k' y, In (k', y) ((k, x) :: l) -> is_text k' = true /\ ok_at y).
      { intros k' y Hy. destruct W as [_ W]. 
        assert (is_text k' = true /\ json_ok y) as [T J].
        { clear -W Hy. induction ((k, x) :: l) as [|z l' IHl]; [destruct Hy|]. destruct W as [Wz W]. destruct Hy as [->|Hy]; auto. }
        split; [exact T|]. unfold ok_at. eapply IH; [exact Hy|exact J]. }
      change (pr d (JObj ((k, x) :: l))) with (String "{" (after_open st (Datatypes.S d) +++ (members st (pr (Datatypes.S d)) (Datatypes.S d) ((k, x) :: l) +++ (after_open st d +++ String "}" "")))) in *.
      cbn [String.length] in L. rewrite !slength_app in L. cbn [String.length] in L. destruct n as [|n]; [lia|]. cbn [append]. rewrite pval_obj, !sapp_assoc. cbn [append].
      rewrite pmembers_ws by apply Hst. rewrite members_ok; [|apply Hst|exact Ox|discriminate|lia]. rewrite (proj1 Hst).
      cbn [option_map fst snd]. rewrite sdict_nodup by apply W. reflexivity.
  Qed.

  Theorem loads_dumps j : json_ok j -> json_loads fparse (json_dumps fprint st j) = Some j.
  Proof.
    intros W. unfold json_loads, json_dumps. pose proof (pr_ok j W O (Datatypes.S (String.length (pr 0 j))) "" ltac:(lia) I) as H.
    rewrite sapp_nil in H. rewrite H. reflexivity.
  Qed.
End Main.

Lemma hexval_spec : forall (c : ascii) (v : nat),
  hexval c = Some (N.of_nat v) <-> (String.get v "0123456789abcdef" = Some c \/ String.get v "0123456789ABCDEF" = Some c).
Proof.
  assert (A : forall c v, (v < 16)%nat -> Bool.eqb (match hexval c with Some n => N.eqb n (N.of_nat v) | None => false end)
     (match String.get v "0123456789abcdef" with Some d => Ascii.eqb d c | None => false end || match String.get v "0123456789ABCDEF" with Some d => Ascii.eqb d c | None => false end) = true).
  { assert (B : forallb (fun c => forallb (fun v => Bool.eqb (match hexval c with Some n => N.eqb n (N.of_nat v) | None => false end)
     (match String.get v "0123456789abcdef" with Some d => Ascii.eqb d c | None => false end || match String.get v "0123456789ABCDEF" with Some d => Ascii.eqb d c | None => false end)) (seq 0 16)) (map ascii_of_nat (seq 0 256)) = true) by (vm_compute; reflexivity).
    intros c v L. assert (I : In c (map ascii_of_nat (seq 0 256))).
    { rewrite <- (ascii_nat_embedding c). apply in_map, in_seq. pose proof (nat_ascii_bounded c). lia. }
    exact (proj1 (forallb_forall _ _) (proj1 (forallb_forall _ _) B c I) v (proj2 (in_seq 16 0 v) ltac:(lia))). }
  assert (R : forall c n, hexval c = Some n -> (n < 16)%N).
  { intros c n H. unfold hexval in H. cbv zeta in H. destruct ((48 <=? ord c)%N && (ord c <? 58)%N)%bool eqn:E1.
    - apply andb_true_iff in E1. rewrite N.leb_le, N.ltb_lt in E1. injection H as <-. lia.
    - destruct ((97 <=? ord c)%N && (ord c <? 103)%N)%bool eqn:E2.
      + apply andb_true_iff in E2. rewrite N.leb_le, N.ltb_lt in E2. injection H as <-. lia.
      + destruct ((65 <=? ord c)%N && (ord c <? 71)%N)%bool eqn:E3; [|discriminate H].
        apply andb_true_iff in E3. rewrite N.leb_le, N.ltb_lt in E3. injection H as <-. lia. }
  intros c v. destruct (Nat.ltb_spec v 16) as [L|L].
  - specialize (A c v L). apply Bool.eqb_prop in A. assert (E : hexval c = Some (N.of_nat v) <-> match hexval c with Some n => N.eqb n (N.of_nat v) | None => false end = true).
    { destruct (hexval c) as [n|]; [|split; discriminate]. rewrite N.eqb_eq. split; [intros K; injection K as K; exact K|intros ->; reflexivity]. }
    rewrite E, A, orb_true_iff. split; (intros [H|H]; [left|right]).
    + destruct (String.get v "0123456789abcdef") as [d|]; [|discriminate H]. apply Ascii.eqb_eq in H. now subst.
    + destruct (String.get v "0123456789ABCDEF") as [d|]; [|discriminate H]. apply Ascii.eqb_eq in H. now subst.
    + rewrite H. apply Ascii.eqb_refl.
    + rewrite H. apply Ascii.eqb_refl.
  - split.
    + intros H. apply R in H. lia.
    + intros H. exfalso. assert (G : forall s, String.get v s = Some c -> (v < String.length s)%nat).
      { clear. induction v as [|v IH]; intros [|d s] H; cbn in *; try discriminate; [lia|]. apply IH in H. lia. }
      destruct H as [H|H]; apply G in H; cbn in H; lia.
Qed.
