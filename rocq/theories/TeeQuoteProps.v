(** C176, C177: TEE quotes. *)
From Coq Require Import NArith List Arith Bool Lia.
From Verif Require Import TeeQuoteModel.
Import ListNotations.

Lemma firstn_exact (a b : bytes) : firstn (length a) (a ++ b) = a.
Proof. rewrite firstn_app, Nat.sub_diag, firstn_all, firstn_O, app_nil_r. reflexivity. Qed.
Lemma skipn_exact (a b : bytes) : skipn (length a) (a ++ b) = b.
Proof. rewrite skipn_app, Nat.sub_diag, skipn_all. reflexivity. Qed.

Lemma from_to utf8 q b : utf8 (platform q) = true -> utf8 (qsuite q) = true -> to_bytes q = Ok b ->
  from_bytes utf8 b = Ok (Quote (platform q) (firstn 32 (bound_pk q)) (qsuite q)).
Proof.
  intros Hp Hs Hb. unfold to_bytes in Hb. destruct ((length (platform q) <? 256) && (length (qsuite q) <? 256)) eqn:E; [|discriminate].
  assert (Hb' : b = N.of_nat (length (platform q)) :: platform q ++ N.of_nat (length (qsuite q)) :: qsuite q ++ bound_pk q) by congruence. subst b. clear Hb.
  unfold from_bytes. cbn [nth_error]. cbv zeta. rewrite Nnat.Nat2N.id.
  set (p := platform q) in *. set (s := qsuite q) in *.
  replace (slice 1 (length p) _) with p by (unfold slice; cbn [skipn]; rewrite firstn_exact; reflexivity).
  unfold decode at 1. rewrite Hp. cbn [plus nth_error]. rewrite nth_error_app2, Nat.sub_diag by lia. cbn [nth_error]. rewrite Nnat.Nat2N.id.
  replace (slice (S (length p + 1)) (length s) _) with s.
  2:{ unfold slice. cbn [skipn]. replace (length p + 1) with (1 + length p) by lia.
      assert (Es : forall l : bytes, skipn (1 + length p) (p ++ N.of_nat (length s) :: l) = l).
      { intros l. rewrite skipn_app. rewrite skipn_all2 by lia. replace (1 + length p - length p) with 1 by lia. reflexivity. }
      rewrite Es, firstn_exact. reflexivity. }
  unfold decode. rewrite Hs. do 2 f_equal. unfold slice. cbn [skipn].
  replace (length p + 1 + length s) with (length (p ++ N.of_nat (length s) :: s)) by (rewrite app_length; cbn; lia).
  replace (p ++ N.of_nat (length s) :: s ++ bound_pk q) with ((p ++ N.of_nat (length s) :: s) ++ bound_pk q) by (rewrite <- app_assoc; reflexivity).
  rewrite skipn_exact. reflexivity.
Qed.

(** C176.  Attesting the quote of a public key gives that key back, whatever its suite and length. *)
Theorem C176_attest_quote_gen : forall utf8 curve pk q, quote_gen (VKey pk) = Ok q -> attest utf8 curve (VQuote q) = Ok pk.
Proof. intros utf8 curve [s k] q H. cbn in H. injection H as <-. reflexivity. Qed.
Print Assumptions C176_attest_quote_gen.

(** C176.  Also when the quote travels as bytes, for 32-byte keys and suites of at most 255 bytes. *)
Theorem C176_attest_bytes : forall utf8 curve pk q, utf8 mock = true -> utf8 (suite pk) = true ->
  length (key_bytes pk) = 32 -> length (suite pk) <= 255 -> quote_gen (VKey pk) = Ok q ->
  exists b, to_bytes q = Ok b /\ attest utf8 curve (VBytes b) = Ok pk.
Proof.
  intros utf8 curve [s k] q Hm Hu Hk Hs H. cbn in H. injection H as <-. cbn [key_bytes suite] in *.
  unfold to_bytes. cbn [platform qsuite]. assert (E : (length s <? 256) = true) by (apply Nat.ltb_lt; lia). rewrite E. cbn [length mock Nat.ltb Nat.leb andb].
  eexists. split; [reflexivity|]. cbn [attest].
  rewrite (from_to utf8 (Quote mock k s)).
  - cbn [qsuite bound_pk]. rewrite firstn_all2 by lia. reflexivity.
  - exact Hm.
  - exact Hu.
  - unfold to_bytes. cbn [platform qsuite]. rewrite E. reflexivity.
Qed.
Print Assumptions C176_attest_bytes.

(** C176.  Only public keys can be quoted, at trace time and at run time. *)
Theorem C176_only_public_keys : (forall t r, quote_gen_ty t = Some r -> exists s, t = TPublicKey s) /\ (forall v q, quote_gen v = Ok q -> exists pk, v = VKey pk).
Proof.
  split; [intros t r H; destruct t; try discriminate; eauto|intros v q H; destruct v; try discriminate; eauto].
Qed.
Print Assumptions C176_only_public_keys.

Example C176_example :
  let pk := PublicKey [120; 50; 53]%N (repeat 7%N 32) in
  exists b, to_bytes (Quote mock (key_bytes pk) (suite pk)) = Ok b /\ attest (fun _ => true) [] (VBytes b) = Ok pk /\ length b = 41.
Proof. eexists. split; [reflexivity|]. split; reflexivity. Qed.

(** C177 (refuted): a quote for any key of the adversary's choice is accepted, although no TEE made it: *)
Theorem C177_forged_quote_refuted : forall utf8 curve pk, utf8 [] = true -> utf8 (suite pk) = true -> length (key_bytes pk) = 32 -> length (suite pk) <= 255 ->
  exists b, attest utf8 curve (VBytes b) = Ok pk /\ forall pk' q, quote_gen (VKey pk') = Ok q -> to_bytes q <> Ok b.
Proof.
  intros utf8 curve [s k] He Hu Hk Hs. cbn [suite key_bytes] in *.
  assert (E : to_bytes (Quote [] k s) = Ok (0%N :: N.of_nat (length s) :: s ++ k)).
  { unfold to_bytes. cbn [platform qsuite]. assert (El : (length s <? 256) = true) by (apply Nat.ltb_lt; lia). rewrite El. reflexivity. }
  exists (0%N :: N.of_nat (length s) :: s ++ k). split.
  - cbn [attest]. rewrite (from_to utf8 (Quote [] k s) _ He Hu E). cbn [qsuite bound_pk]. rewrite firstn_all2 by lia. reflexivity.
  - intros [s' k'] q H Hb. cbn in H. injection H as <-. unfold to_bytes in Hb. cbn [platform qsuite bound_pk mock length] in Hb.
    destruct ((4 <? 256) && (length s' <? 256)); [|discriminate]. discriminate.
Qed.
Print Assumptions C177_forged_quote_refuted.

(** C177 (refuted): a truncated quote is accepted, with a truncated key: *)
Theorem C177_truncated_quote_refuted : forall utf8 curve pk n, utf8 mock = true -> utf8 (suite pk) = true -> length (key_bytes pk) = 32 -> length (suite pk) <= 255 -> n <= 32 ->
  exists b, to_bytes (Quote mock (key_bytes pk) (suite pk)) = Ok b /\
  attest utf8 curve (VBytes (firstn (length b - n) b)) = Ok (PublicKey (suite pk) (firstn (32 - n) (key_bytes pk))).
Proof.
  intros utf8 curve [s k] n Hm Hu Hk Hs Hn. cbn [suite key_bytes] in *.
  assert (El : (length s <? 256) = true) by (apply Nat.ltb_lt; lia).
  assert (Eq : forall k', to_bytes (Quote mock k' s) = Ok (N.of_nat (length mock) :: mock ++ N.of_nat (length s) :: s ++ k')).
  { intros k'. unfold to_bytes. cbn [platform qsuite bound_pk]. rewrite El. reflexivity. }
  rewrite Eq. eexists. split; [reflexivity|].
  set (hdr := (N.of_nat (length mock) :: mock ++ N.of_nat (length s) :: s)).
  assert (Ea : forall k', N.of_nat (length mock) :: mock ++ N.of_nat (length s) :: s ++ k' = hdr ++ k') by (intros k'; unfold hdr; cbn [app mock]; reflexivity).
  rewrite Ea. rewrite firstn_app, app_length, Hk. rewrite (firstn_all2 (n := length hdr + 32 - n)) by lia.
  replace (length hdr + 32 - n - length hdr) with (32 - n) by lia. rewrite <- Ea. cbn [attest].
  rewrite (from_to utf8 (Quote mock (firstn (32 - n) k) s) _ Hm Hu (Eq _)). cbn [qsuite bound_pk]. rewrite firstn_firstn. replace (min 32 (32 - n)) with (32 - n) by lia. reflexivity.
Qed.
Print Assumptions C177_truncated_quote_refuted.

(** C177 (refuted): the expected curve is announced but never compared with the key: *)
Theorem C177_curve_unchecked_refuted : forall utf8 curve pk q, curve <> suite pk -> quote_gen (VKey pk) = Ok q ->
  attest_ty curve TQuote = Some (TAttestedKey curve) /\ attest utf8 curve (VQuote q) = Ok pk /\ suite pk <> curve.
Proof. intros utf8 curve [s k] q Hc H. cbn in H. injection H as <-. split; [reflexivity|]. split; [reflexivity|]. intros E. apply Hc. symmetry. exact E. Qed.
Print Assumptions C177_curve_unchecked_refuted.

(** C177 (refuted): anything can be attested when tracing, and the measurement of a quote cannot be run: *)
Theorem C177_trace_accepts_refuted : forall curve t, attest_ty curve t <> None /\ get_measurement_ty t <> None /\ (forall v, get_measurement v = NoHandler).
Proof. intros. split; [discriminate|]. split; [discriminate|reflexivity]. Qed.
Print Assumptions C177_trace_accepts_refuted.
Example C177_example : attest (fun _ => true) [] (VBytes [0; 1; 120; 9]%N) = Ok (PublicKey [120]%N [9]%N).
Proof. reflexivity. Qed.
