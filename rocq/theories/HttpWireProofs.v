(** Proofs about HttpWireModel. *)
From Coq Require Import String Ascii List Bool Arith NArith ZArith Lia.
From Coq Require Import DecimalString DecimalNat.
From Verif Require Import Base64Model CtxModel SerdeModel BinModel JsonText HttpWireModel HttpWireSpec.
Import ListNotations.
Local Open Scope string_scope.
Local Open Scope list_scope.
Local Open Scope nat_scope.

Lemma unquote_percent c s : unquote (percent c +++ s) = String c (unquote s).
Proof. destruct c as [[] [] [] [] [] [] [] []]; reflexivity. Qed.
Lemma app_s a b c : (a +++ b) +++ c = a +++ (b +++ c).
Proof. induction a as [|x a IH]; [reflexivity|]. cbn. now rewrite IH. Qed.

Lemma hex_some a : is_hex a = true -> exists x, hex_value a = Some x.
Proof. unfold is_hex. destruct (hex_value a); [eauto|discriminate]. Qed.
Lemma hex_none a : is_hex a = false -> hex_value a = None.
Proof. unfold is_hex. destruct (hex_value a); [discriminate|reflexivity]. Qed.
Lemma hexadecimal_iff a : is_hex a = true <-> hexadecimal a.
Proof.
  split.
  - intros H. unfold hexadecimal. destruct a as [[] [] [] [] [] [] [] []]; try discriminate H; cbn; tauto.
  - unfold hexadecimal. cbn. intros H. repeat (destruct H as [<-|H]; [reflexivity|]). destruct H.
Qed.

Lemma unquote_other c r : (c =? "%")%char = false -> unquote (String c r) = String c (unquote r).
Proof. intros H. cbn [unquote]. now rewrite H. Qed.
Lemma unquote_escape a b x y r : hex_value a = Some x -> hex_value b = Some y ->
  unquote (String "%" (String a (String b r))) = String (ascii_of_nat (16 * x + y)) (unquote r).
Proof. intros Ha Hb. cbn [unquote]. change ("%" =? "%")%char with true. cbv iota. now rewrite Ha, Hb. Qed.
Lemma unquote_no_escape r : (forall a b r', r = String a (String b r') -> is_hex a && is_hex b = false) -> unquote (String "%" r) = String "%" (unquote r).
Proof.
  intros H. destruct r as [|a [|b r']]; try reflexivity. specialize (H a b r' eq_refl).
  cbn [unquote]. change ("%" =? "%")%char with true. cbv iota.
  apply andb_false_iff in H. destruct H as [H|H]; rewrite (hex_none _ H); [|destruct (hex_value a)]; reflexivity.
Qed.

Lemma unquote_quote_n n : forall s, String.length s <= n -> unquote (quote s) = unquote s.
Proof.
  induction n as [|n IH]; intros [|c r] L; cbn [String.length] in L; try lia; try reflexivity.
  cbn [quote]. destruct (c =? "%")%char eqn:Ec.
  - apply Ascii.eqb_eq in Ec. subst c.
    assert (G : (forall a b r', r = String a (String b r') -> is_hex a && is_hex b = false) -> unquote (percent "%" +++ quote r) = unquote (String "%" r)).
    { intros H. rewrite unquote_percent, unquote_no_escape by exact H. now rewrite IH by lia. }
    destruct r as [|a [|b r']]; try (apply G; intros ? ? ? X; discriminate X).
    destruct (is_hex a && is_hex b) eqn:Hh.
    + apply andb_true_iff in Hh. destruct Hh as [Ha Hb]. apply hex_some in Ha, Hb. destruct Ha as [x Ha], Hb as [y Hb].
      rewrite !(unquote_escape _ _ x y) by assumption. rewrite IH; [reflexivity|cbn in L; lia].
    + apply G. intros a0 b0 r0 X. injection X as <- <- <-. exact Hh.
  - destruct (path_safe c); [|rewrite unquote_percent]; rewrite (unquote_other _ _ Ec), ?(unquote_other _ _ Ec), IH by lia; reflexivity.
Qed.
Lemma unquote_quote s : unquote (quote s) = unquote s.
Proof. apply (unquote_quote_n (String.length s)). lia. Qed.

Definition escapes (s : string) : Prop := exists p a b q, list_ascii_of_string s = p ++ "%"%char :: a :: b :: q /\ is_hex a = true /\ is_hex b = true.
Lemma unquote_len_n n : forall s, String.length s <= n -> String.length (unquote s) <= String.length s /\ (unquote s = s \/ (String.length (unquote s) < String.length s /\ escapes s)).
Proof.
  induction n as [|n IH]; intros [|c r] L; cbn [String.length] in L; try lia; try (split; [apply le_n|left; reflexivity]).
  assert (K : unquote (String c r) = String c (unquote r) ->
    String.length (unquote (String c r)) <= String.length (String c r) /\ (unquote (String c r) = String c r \/ (String.length (unquote (String c r)) < String.length (String c r) /\ escapes (String c r)))).
  { intros ->. destruct (IH r ltac:(lia)) as [I1 I2]. cbn [String.length]. split; [lia|]. destruct I2 as [->|[I2 (p & a & b & q & E & Ha & Hb)]]; [left; reflexivity|right]. split; [lia|].
    exists (c :: p), a, b, q. cbn. rewrite E. auto. }
  destruct (c =? "%")%char eqn:Ec; [|apply K, unquote_other, Ec]. apply Ascii.eqb_eq in Ec. subst c.
  destruct r as [|a [|b r']]; try (apply K; apply unquote_no_escape; intros ? ? ? X; discriminate X).
  destruct (is_hex a && is_hex b) eqn:Hh.
  - apply andb_true_iff in Hh. destruct Hh as [Ha Hb]. pose proof Ha as Ha'. pose proof Hb as Hb'. apply hex_some in Ha, Hb. destruct Ha as [x Ha], Hb as [y Hb].
    rewrite (unquote_escape _ _ x y) by assumption. destruct (IH r') as [I1 _]; [cbn in L; lia|]. cbn [String.length]. split; [lia|]. right. split; [lia|].
    exists [], a, b, (list_ascii_of_string r'). auto.
  - apply K, unquote_no_escape. intros a0 b0 r0 X. injection X as <- <- <-. exact Hh.
Qed.
Lemma unquote_len s : String.length (unquote s) <= String.length s.
Proof. apply (unquote_len_n (String.length s)). lia. Qed.
Lemma unquote_same s : ~ escapes s -> unquote s = s.
Proof. intros H. destruct (unquote_len_n (String.length s) s (le_n _)) as [_ [E|[_ E]]]; [exact E|contradiction]. Qed.
Lemma unquote_changes_n n : forall s, String.length s <= n -> escapes s -> String.length (unquote s) < String.length s.
Proof.
  induction n as [|n IH]; intros [|c r] L (p & a & b & q & E & Ha & Hb); cbn [String.length] in L; try lia; try (destruct p; discriminate E).
  destruct p as [|c' p]; cbn in E; injection E as Ec E.
  - subst c. destruct r as [|a' [|b' r']]; try discriminate E. cbn in E. injection E as <- <- <-.
    apply hex_some in Ha, Hb. destruct Ha as [x Ha], Hb as [y Hb]. rewrite (unquote_escape _ _ x y) by assumption. pose proof (unquote_len r'). cbn [String.length]. lia.
  - subst c'. assert (Er : escapes r) by (exists p, a, b, q; auto).
    assert (K : unquote (String c r) = String c (unquote r) -> String.length (unquote (String c r)) < String.length (String c r)).
    { intros ->. cbn [String.length]. specialize (IH r ltac:(lia) Er). lia. }
    destruct (c =? "%")%char eqn:Ec; [|apply K, unquote_other, Ec]. apply Ascii.eqb_eq in Ec. subst c.
    destruct r as [|a1 [|b1 r']]; try (apply K; apply unquote_no_escape; intros ? ? ? X; discriminate X).
    destruct (is_hex a1 && is_hex b1) eqn:Hh.
    + apply andb_true_iff in Hh. destruct Hh as [H1 H2]. apply hex_some in H1, H2. destruct H1 as [x H1], H2 as [y H2].
      rewrite (unquote_escape _ _ x y) by assumption. pose proof (unquote_len r'). cbn [String.length]. lia.
    + apply K, unquote_no_escape. intros a0 b0 r0 X. injection X as <- <- <-. exact Hh.
Qed.
Lemma unquote_changes s : escapes s -> unquote s <> s.
Proof. intros H E. pose proof (unquote_changes_n _ s (le_n _) H). rewrite E in H0. lia. Qed.

Lemma all_chars_in p s : all_chars p s = true <-> forall c, In c (list_ascii_of_string s) -> p c = true.
Proof.
  induction s as [|c s IH]; cbn; [split; [intros _ c []|reflexivity]|]. rewrite andb_true_iff, IH. split.
  - intros [H1 H2] x [<-|Hx]; auto.
  - intros H. split; auto.
Qed.
Definition noslash (c : ascii) : bool := negb (Ascii.eqb c "/").
Definition noq (c : ascii) : bool := negb (Ascii.eqb c "?" || Ascii.eqb c "#").
Lemma url_path_same s : all_chars noq s = true -> url_path s = s.
Proof. induction s as [|c s IH]; [reflexivity|]. cbn. unfold noq at 1. intros H. apply andb_true_iff in H. destruct H as [H1 H2]. apply negb_true_iff in H1. rewrite H1. now rewrite IH. Qed.
Lemma url_path_len s : String.length (url_path s) <= String.length s.
Proof. induction s as [|c s IH]; [apply le_n|]. cbn. destruct (_ || _); cbn; lia. Qed.
Lemma url_path_shorter s : all_chars noq s = false -> String.length (url_path s) < String.length s.
Proof.
  induction s as [|c s IH]; [discriminate|]. cbn. unfold noq at 1. destruct (Ascii.eqb c "?" || Ascii.eqb c "#"); cbn; intros H; [lia|]. specialize (IH H). lia.
Qed.
Lemma url_path_chars p s : all_chars p s = true -> all_chars p (url_path s) = true.
Proof. induction s as [|c s IH]; [reflexivity|]. cbn. intros H. apply andb_true_iff in H. destruct H as [H1 H2]. destruct (_ || _); [reflexivity|]. cbn. now rewrite H1, IH. Qed.
Lemma split_noslash s : all_chars noslash s = true -> split_slash s = [s].
Proof. induction s as [|c s IH]; [reflexivity|]. cbn. unfold noslash at 1. intros H. apply andb_true_iff in H. destruct H as [H1 H2]. apply negb_true_iff in H1. rewrite H1, IH by exact H2. reflexivity. Qed.
Lemma normalize_plain s : all_chars noslash s = true -> s <> "." -> s <> ".." -> normalize_path ("/comm/" +++ s) = "/comm/" +++ s.
Proof.
  intros H H1 H2. unfold normalize_path. change (split_slash ("/comm/" +++ s)) with ("" :: "comm" :: split_slash s). rewrite (split_noslash _ H).
  change (dots [] ["" ; "comm"; s]) with (dots ["comm"; ""] [s]). cbn [dots]. rewrite (proj2 (String.eqb_neq _ _) H1), (proj2 (String.eqb_neq _ _) H2). reflexivity.
Qed.
Lemma deliver_plain k : all_chars printable k = true -> all_chars noq k = true -> all_chars noslash k = true -> k <> "." -> k <> ".." ->
  deliver_key k = route ("/comm/" +++ unquote k).
Proof.
  intros H1 H2 H3 H4 H5. unfold deliver_key. rewrite H1. change (url_path ("/comm/" +++ k)) with ("/comm/" +++ url_path k).
  rewrite (url_path_same _ H2), (normalize_plain _ H3 H4 H5), unquote_quote. reflexivity.
Qed.
Lemma route_ok k : k <> "" -> all_chars noslash k = true -> route ("/comm/" +++ k) = Some k.
Proof. intros H1 H2. unfold route. change (strip "/comm/" ("/comm/" +++ k)) with (Some k). cbv iota. change (all_chars _ k) with (all_chars noslash k). rewrite H2, (proj2 (String.eqb_neq _ _) H1). reflexivity. Qed.
Lemma route_noslash p k : route p = Some k -> all_chars noslash k = true /\ k <> "".
Proof.
  unfold route. destruct (strip "/comm/" p) as [x|]; [|discriminate]. change (all_chars _ x) with (all_chars noslash x). destruct (String.eqb_spec x ""); [discriminate|].
  destruct (all_chars noslash x) eqn:E; [|discriminate]. cbn. intros H. injection H as <-. auto.
Qed.

Lemma deliver_same_iff key : deliver_key key = Some key <-> no_url_meaning key.
Proof.
  assert (NE : ~ escapes key <-> (forall p a b s, list_ascii_of_string key = p ++ "%"%char :: a :: b :: s -> ~ (hexadecimal a /\ hexadecimal b))).
  { split.
    - intros H p a b s E [Ha Hb]. apply H. exists p, a, b, s. rewrite !hexadecimal_iff. auto.
    - intros H (p & a & b & s & E & Ha & Hb). apply (H p a b s E). rewrite <- !hexadecimal_iff. auto. }
  assert (CH : (all_chars printable key = true /\ all_chars noq key = true /\ all_chars noslash key = true) <->
    (forall c, In c (list_ascii_of_string key) -> 32 <= nat_of_ascii c /\ nat_of_ascii c <> 127 /\ c <> "/"%char /\ c <> "?"%char /\ c <> "#"%char)).
  { rewrite !all_chars_in. split.
    - intros (P1 & P2 & P3) c Hc. specialize (P1 c Hc). specialize (P2 c Hc). specialize (P3 c Hc). unfold printable, noq, noslash in *.
      apply andb_true_iff in P1. destruct P1 as [P1 P1']. apply Nat.leb_le in P1. apply negb_true_iff, Nat.eqb_neq in P1'. apply negb_true_iff, orb_false_iff in P2. apply negb_true_iff, Ascii.eqb_neq in P3. destruct P2 as [P2 P2']. apply Ascii.eqb_neq in P2, P2'. auto.
    - intros H. repeat split; intros c Hc; destruct (H c Hc) as (P1 & P2 & P3 & P4 & P5); unfold printable, noq, noslash.
      + apply andb_true_iff. split; [apply Nat.leb_le; exact P1|apply negb_true_iff, Nat.eqb_neq; exact P2].
      + apply negb_true_iff, orb_false_iff. split; apply Ascii.eqb_neq; assumption.
      + apply negb_true_iff, Ascii.eqb_neq; assumption. }
  unfold no_url_meaning. rewrite <- NE, <- CH. split.
  - intros H. pose proof H as H0. unfold deliver_key in H0. destruct (all_chars printable key) eqn:E1; [|discriminate].
    destruct (route_noslash _ _ H0) as [E3 E4]. change (url_path ("/comm/" +++ key)) with ("/comm/" +++ url_path key) in H0.
    assert (E5 : all_chars noslash (url_path key) = true) by (apply url_path_chars, E3).
    assert (D : url_path key <> "." /\ url_path key <> "..").
    { split; intros D; rewrite D in H0; discriminate H0. }
    destruct D as [D1 D2]. rewrite (normalize_plain _ E5 D1 D2), unquote_quote in H0.
    change (unquote ("/comm/" +++ url_path key)) with ("/comm/" +++ unquote (url_path key)) in H0.
    assert (X : unquote (url_path key) = key).
    { unfold route in H0. change (strip "/comm/" ("/comm/" +++ unquote (url_path key))) with (Some (unquote (url_path key))) in H0. cbv iota in H0.
      destruct (_ || _) in H0; [discriminate|]. injection H0 as H0. exact H0. }
    assert (E2 : all_chars noq key = true).
    { destruct (all_chars noq key) eqn:E; [reflexivity|]. apply url_path_shorter in E. pose proof (unquote_len (url_path key)). rewrite X in H1. lia. }
    rewrite (url_path_same _ E2) in *. split; [auto|]. split; [intros Q; exact (unquote_changes _ Q X)|].
    intros [Q|[Q|[Q|[]]]]; subst key; contradiction.
  - intros ((E1 & E2 & E3) & E4 & E5). cbn [In] in E5. rewrite deliver_plain by (assumption || (intros Q; apply E5; subst; auto)).
    rewrite (unquote_same _ E4). apply route_ok; [|exact E3]. intros Q. apply E5. subst. auto.
Qed.

(** Names made of simple characters *)
Lemma list_app a b : list_ascii_of_string (a +++ b) = list_ascii_of_string a ++ list_ascii_of_string b.
Proof. induction a as [|c a IH]; [reflexivity|]. cbn. now rewrite IH. Qed.
Lemma simple_app a b : simple a -> simple b -> simple (a +++ b).
Proof. intros Ha Hb c Hc. rewrite list_app in Hc. apply in_app_or in Hc. destruct Hc; auto. Qed.
Lemma digits_simple u : simple (NilEmpty.string_of_uint u).
Proof. induction u; intros c Hc; cbn in Hc; try destruct Hc as [<-|Hc]; try (apply IHu; exact Hc); try destruct Hc; unfold simple_char; cbn; tauto. Qed.
Lemma show_simple n : simple (show n).
Proof. apply digits_simple. Qed.
Lemma dot_simple : simple ".".
Proof. intros c [<-|[]]. unfold simple_char. cbn. tauto. Qed.
Lemma simple_facts c : simple_char c -> printable c = true /\ noq c = true /\ noslash c = true /\ c <> "%"%char.
Proof. unfold simple_char. cbn. intros H. repeat (destruct H as [<-|H]; [repeat split; discriminate|]). destruct H. Qed.
Lemma show_nonempty n : show n <> "".
Proof. intros H. assert (P : NilEmpty.uint_of_string (show n) = NilEmpty.uint_of_string "") by now rewrite H. unfold show in P. rewrite NilEmpty.usu in P. cbn in P. injection P as P. destruct n; [discriminate P|]. apply (f_equal Nat.of_uint) in P. rewrite DecimalNat.Unsigned.of_to in P. discriminate P. Qed.

Lemma key_chars j n c : In c (list_ascii_of_string (msg_key j n)) -> In c (list_ascii_of_string j) \/ c = ":"%char \/ simple_char c.
Proof. unfold msg_key. rewrite !list_app. intros H. apply in_app_or in H. destruct H as [H|[H|H]]; auto. right. right. apply (show_simple n). exact H. Qed.
Lemma key_dots j n : ~ In (msg_key j n) [""; "."; ".."].
Proof.
  assert (C : In ":"%char (list_ascii_of_string (msg_key j n))) by (unfold msg_key; rewrite !list_app; apply in_or_app; right; left; reflexivity).
  intros [E|[E|[E|[]]]]; rewrite <- E in C; cbn in C; repeat (destruct C as [C|C]; [discriminate C|]); exact C.
Qed.
Lemma simple_key j n : simple j -> no_url_meaning (msg_key j n).
Proof.
  intros H.
  assert (F : forall c, In c (list_ascii_of_string (msg_key j n)) -> printable c = true /\ noq c = true /\ noslash c = true /\ c <> "%"%char).
  { intros c Hc. destruct (key_chars _ _ _ Hc) as [C|[->|C]]; [apply simple_facts, H, C|repeat split; discriminate|apply simple_facts, C]. }
  split; [|split; [|apply key_dots]].
  - intros c Hc. destruct (F c Hc) as (P1 & P2 & P3 & _). unfold printable, noq, noslash in *.
    apply andb_true_iff in P1. destruct P1 as [P1 P1']. apply Nat.leb_le in P1. apply negb_true_iff, Nat.eqb_neq in P1'. apply negb_true_iff, orb_false_iff in P2. apply negb_true_iff, Ascii.eqb_neq in P3. destruct P2 as [P2 P2']. apply Ascii.eqb_neq in P2, P2'. auto.
  - intros p a b s E. exfalso. apply (F "%"%char); [rewrite E; apply in_or_app; right; left; reflexivity|reflexivity].
Qed.

Lemma Forall_upd {A} (P : A -> Prop) l i x : Forall P l -> P x -> Forall P (upd l i x).
Proof. revert i. induction l as [|a l IH]; intros [|i] H Hx; cbn; try exact H; inversion H; subst; constructor; auto. Qed.
Lemma crun_simple root ops : simple root -> Forall suffix_ok ops ->
  Forall (fun c => simple (cid c)) (fst (crun root ops)) /\ Forall (fun u => exists j n, simple j /\ snd u = msg_key j n) (snd (crun root ops)).
Proof.
  intros Hr Ho. unfold crun.
  assert (G : forall st, Forall (fun c => simple (cid c)) (fst st) -> Forall (fun u : use => exists j n, simple j /\ snd u = msg_key j n) (snd st) ->
    Forall (fun c => simple (cid c)) (fst (fold_left cexec ops st)) /\ Forall (fun u => exists j n, simple j /\ snd u = msg_key j n) (snd (fold_left cexec ops st))).
  { induction Ho as [|o ops Hs Ho IH]; intros [h log] H1 H2; [auto|]. cbn [fold_left]. apply IH; destruct o as [i s|i p]; cbn [cexec fst snd] in *; destruct (nth_error h i) as [c|] eqn:E; cbn [fst snd]; try assumption.
    - assert (Hc : simple (cid c)) by (rewrite Forall_forall in H1; apply H1, (nth_error_In _ _ E)).
      apply Forall_app. split; [apply Forall_upd; [exact H1|exact Hc]|]. constructor; [|constructor]. cbn. unfold child_id. destruct s as [s|]; cbn in Hs; repeat apply simple_app; auto using show_simple, dot_simple.
    - assert (Hc : simple (cid c)) by (rewrite Forall_forall in H1; apply H1, (nth_error_In _ _ E)). apply Forall_upd; [exact H1|exact Hc].
    - assert (Hc : simple (cid c)) by (rewrite Forall_forall in H1; apply H1, (nth_error_In _ _ E)). apply Forall_app. split; [exact H2|]. constructor; [|constructor]. cbn. eauto. }
  apply G; [constructor; [exact Hr|constructor]|constructor].
Qed.

(** Escaped job ids *)
Fixpoint escape_all (s : string) : string := match s with "" => "" | String c r => percent c +++ escape_all r end.
Lemma unquote_escape_all s t : unquote (escape_all s +++ t) = s +++ unquote t.
Proof. induction s as [|c s IH]; [reflexivity|]. cbn [escape_all]. rewrite app_s, unquote_percent, IH. reflexivity. Qed.
Lemma percent_facts c x : In x (list_ascii_of_string (percent c)) -> printable x = true /\ noq x = true /\ noslash x = true.
Proof. destruct c as [[] [] [] [] [] [] [] []]; cbn; intros [<-|[<-|[<-|[]]]]; repeat split. Qed.
Lemma escape_all_facts s x : In x (list_ascii_of_string (escape_all s)) -> printable x = true /\ noq x = true /\ noslash x = true.
Proof. induction s as [|c s IH]; [intros []|]. cbn [escape_all]. rewrite list_app. intros H. apply in_app_or in H. destruct H as [H|H]; [eapply percent_facts, H|auto]. Qed.
Lemma escape_all_len s : s <> "" -> String.length s < String.length (escape_all s).
Proof. induction s as [|c s IH]; [contradiction|]. intros _. cbn. destruct s as [|d s]; [cbn; lia|]. assert (H : String d s <> "") by discriminate. specialize (IH H). cbn [String.length] in *. lia. Qed.
Lemma simple_no_escape s : simple s -> ~ escapes s.
Proof. intros H (p & a & b & q & E & _). destruct (simple_facts "%"%char) as (_ & _ & _ & F); [apply H; rewrite E; apply in_or_app; right; left; reflexivity|]. apply F. reflexivity. Qed.
Lemma deliver_escaped j n : all_chars noslash j = true -> deliver_key (msg_key (escape_all j) n) = Some (msg_key j n).
Proof.
  intros Hj.
  assert (F : forall c, In c (list_ascii_of_string (msg_key (escape_all j) n)) -> printable c = true /\ noq c = true /\ noslash c = true).
  { intros c Hc. destruct (key_chars _ _ _ Hc) as [C|[->|C]]; [eapply escape_all_facts, C|repeat split|destruct (simple_facts c C) as (? & ? & ? & _); auto]. }
  assert (U : unquote (msg_key (escape_all j) n) = msg_key j n).
  { unfold msg_key. rewrite unquote_escape_all. f_equal. change (unquote (":" +++ show n)) with (String ":" (unquote (show n))). rewrite (unquote_same (show n)); [reflexivity|]. apply simple_no_escape, show_simple. }
  pose proof (key_dots (escape_all j) n) as D. cbn [In] in D.
  rewrite deliver_plain by ((apply all_chars_in; intros c Hc; apply (F c Hc)) || (intros Q; apply D; rewrite Q; auto)).
  rewrite U. apply route_ok; [intros Q; apply (key_dots j n); rewrite Q; left; reflexivity|].
  apply all_chars_in. intros c Hc. destruct (key_chars _ _ _ Hc) as [C|[->|C]]; [rewrite all_chars_in in Hj; auto|reflexivity|apply simple_facts in C; tauto].
Qed.

(** Job ids with a slash or a hash sign *)
Lemma split_app a r : all_chars noslash a = true -> split_slash (a +++ String "/" r) = a :: split_slash r.
Proof. induction a as [|c a IH]; [reflexivity|]. cbn. unfold noslash at 1. intros H. apply andb_true_iff in H. destruct H as [H1 H2]. apply negb_true_iff in H1. rewrite H1, IH by exact H2. reflexivity. Qed.
Lemma simple_chars p s : (forall c, simple_char c -> p c = true) -> simple s -> all_chars p s = true.
Proof. intros Hp Hs. apply all_chars_in. auto. Qed.
Lemma all_chars_app p a b : all_chars p (a +++ b) = all_chars p a && all_chars p b.
Proof. induction a as [|c a IH]; [reflexivity|]. cbn. now rewrite IH, andb_assoc. Qed.
Lemma sprint c : simple_char c -> printable c = true. Proof. intros H. apply (simple_facts c H). Qed.
Lemma snoq c : simple_char c -> noq c = true. Proof. intros H. apply (simple_facts c H). Qed.
Lemma snosl c : simple_char c -> noslash c = true. Proof. intros H. apply (simple_facts c H). Qed.
Lemma key_all p j n : p ":"%char = true -> (forall c, simple_char c -> p c = true) -> simple j -> all_chars p (msg_key j n) = true.
Proof. intros H1 H2 H3. unfold msg_key. rewrite all_chars_app. change (all_chars p (":" +++ show n)) with (p ":"%char && all_chars p (show n)). rewrite H1, !simple_chars by auto using show_simple. reflexivity. Qed.
Lemma deliver_slash a b n : simple a -> simple b -> a <> "." -> a <> ".." -> deliver_key (msg_key (a +++ "/" +++ b) n) = None.
Proof.
  intros Ha Hb N1 N2. assert (E : msg_key (a +++ "/" +++ b) n = a +++ String "/" (msg_key b n)) by (unfold msg_key; now rewrite !app_s).
  rewrite E. unfold deliver_key. rewrite all_chars_app. cbn [all_chars]. rewrite (simple_chars printable a sprint Ha). change (printable "/") with true. rewrite (key_all printable b n eq_refl sprint Hb). cbn [andb].
  change (url_path ("/comm/" +++ a +++ String "/" (msg_key b n))) with ("/comm/" +++ url_path (a +++ String "/" (msg_key b n))).
  rewrite url_path_same. 2:{ rewrite all_chars_app. cbn [all_chars]. rewrite (simple_chars noq a snoq Ha), (key_all noq b n eq_refl snoq Hb). reflexivity. }
  unfold normalize_path. change (split_slash ("/comm/" +++ a +++ String "/" (msg_key b n))) with ("" :: "comm" :: split_slash (a +++ String "/" (msg_key b n))).
  rewrite split_app by (apply simple_chars; [exact snosl|exact Ha]). rewrite split_noslash by (apply key_all; [reflexivity|exact snosl|exact Hb]).
  change (dots [] ["" ; "comm"; a; msg_key b n]) with (dots ["comm"; ""] [a; msg_key b n]). cbn [dots].
  rewrite (proj2 (String.eqb_neq _ _) N1), (proj2 (String.eqb_neq _ _) N2).
  pose proof (key_dots b n) as D. cbn [In] in D. rewrite (proj2 (String.eqb_neq _ _)) by (intros Q; apply D; auto). rewrite (proj2 (String.eqb_neq _ _)) by (intros Q; apply D; auto).
  rewrite unquote_quote. unfold route. change (unquote (join_slash (rev [msg_key b n; a; "comm"; ""]))) with ("/comm/" +++ unquote (a +++ String "/" (msg_key b n))).
  change (strip "/comm/" ("/comm/" +++ unquote (a +++ String "/" (msg_key b n)))) with (Some (unquote (a +++ String "/" (msg_key b n)))). cbv iota.
  assert (U : unquote (a +++ String "/" (msg_key b n)) = a +++ String "/" (msg_key b n)).
  { apply unquote_same. intros (p & x & y & q & Q & _). assert (I : In "%"%char (list_ascii_of_string (a +++ String "/" (msg_key b n)))) by (rewrite Q; apply in_or_app; right; left; reflexivity).
    rewrite list_app in I. apply in_app_or in I. destruct I as [I|[I|I]]; [|discriminate I|].
    - apply Ha, simple_facts in I. tauto.
    - destruct (key_chars _ _ _ I) as [C|[C|C]]; [apply Hb, simple_facts in C; tauto|discriminate C|apply simple_facts in C; tauto]. }
  rewrite U. rewrite all_chars_app. cbn [all_chars]. change (Ascii.eqb "/" "/") with true. cbn [negb andb]. rewrite andb_false_r, orb_true_r. reflexivity.
Qed.
Lemma deliver_hash j s n : simple j -> simple s -> ~ In j [""; "."; ".."] -> deliver_key (msg_key (j +++ "#" +++ s) n) = Some j.
Proof.
  intros Hj Hs D. cbn [In] in D. assert (E : msg_key (j +++ "#" +++ s) n = j +++ String "#" (msg_key s n)) by (unfold msg_key; now rewrite !app_s).
  assert (P : all_chars printable (j +++ String "#" (msg_key s n)) = true).
  { rewrite all_chars_app. cbn [all_chars]. rewrite (simple_chars printable j sprint Hj), (key_all printable s n eq_refl sprint Hs). reflexivity. }
  assert (U : url_path (j +++ String "#" (msg_key s n)) = j).
  { clear D E P Hs. generalize (msg_key s n). intros r. induction j as [|c j IH]; [reflexivity|]. cbn. assert (C : noq c = true) by (apply snoq, Hj; left; reflexivity). unfold noq in C. apply negb_true_iff in C. rewrite C. f_equal. apply IH. intros x Hx. apply Hj. right. exact Hx. }
  rewrite E. unfold deliver_key. rewrite P. change (url_path ("/comm/" +++ j +++ String "#" (msg_key s n))) with ("/comm/" +++ url_path (j +++ String "#" (msg_key s n))). rewrite U.
  rewrite normalize_plain by ((apply simple_chars; [exact snosl|exact Hj]) || (intros Q; apply D; rewrite Q; auto)). rewrite unquote_quote.
  change (unquote ("/comm/" +++ j)) with ("/comm/" +++ unquote j). rewrite (unquote_same j) by (apply simple_no_escape, Hj).
  apply route_ok; [intros Q; apply D; auto|apply simple_chars; [exact snosl|exact Hj]].
Qed.
