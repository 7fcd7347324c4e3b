(** The printed form of a clear type identifies it. *)
From Coq Require Import List ZArith String Ascii Bool Lia.
From Verif Require Import CtxModel CtxProofs SerdeModel SerdeSpec ExecKeyModel ExecKeySpec.
Import ListNotations.
Local Open Scope string_scope.
Local Open Scope list_scope.

Definition stops (s : string) : Prop := match s with EmptyString => True | String c _ => digit c = false end.
Lemma digits_stop d1 : forall d2 s1 s2, all_digits d1 = true -> all_digits d2 = true -> stops s1 -> stops s2 -> d1 +++ s1 = d2 +++ s2 -> d1 = d2 /\ s1 = s2.
Proof.
  induction d1 as [|a d1 IH]; intros [|b d2] s1 s2 H1 H2 N1 N2 E; cbn [append] in E.
  - auto.
  - exfalso. subst s1. cbn in H2, N1. apply andb_true_iff in H2. destruct H2. congruence.
  - exfalso. subst s2. cbn in H1, N2. apply andb_true_iff in H1. destruct H1. congruence.
  - cbn in H1, H2. apply andb_true_iff in H1, H2. destruct H1, H2. injection E as <- E2. destruct (IH d2 s1 s2) as [-> G]; auto.
Qed.
Lemma show_first n : exists c s, show n = String c s /\ digit c = true.
Proof.
  pose proof (show_digits n) as D. destruct (show n) as [|c s] eqn:E.
  - exfalso. unfold show in E. destruct n; [discriminate E|]. assert (show (S n) = show 0 -> False) by (intros Q; apply show_inj in Q; discriminate Q).
    destruct (Nat.to_uint (S n)) eqn:U; cbn in E; try discriminate E. pose proof (DecimalNat.Unsigned.of_to (S n)) as O. rewrite U in O. discriminate O.
  - cbn in D. apply andb_true_iff in D. destruct D. eauto.
Qed.
Lemma show_z_inj z z' r r' : stops r -> stops r' -> show_z z +++ r = show_z z' +++ r' -> z = z' /\ r = r'.
Proof.
  intros S S' H. unfold show_z in H. destruct (Z.ltb_spec z 0) as [L|L], (Z.ltb_spec z' 0) as [L'|L'].
  - cbn [append] in H. injection H as H. apply digits_stop in H; auto using show_digits. destruct H as [H ->]. apply show_inj in H. split; [lia|reflexivity].
  - exfalso. destruct (show_first (Z.to_nat z')) as (c & s & Ec & D). rewrite Ec in H. cbn [append] in H. injection H as <- _. discriminate D.
  - exfalso. destruct (show_first (Z.to_nat z)) as (c & s & Ec & D). rewrite Ec in H. cbn [append] in H. injection H as -> _. discriminate D.
  - apply digits_stop in H; auto using show_digits. destruct H as [H ->]. apply show_inj in H. split; [lia|reflexivity].
Qed.
Lemma show_z_first z : exists c s, show_z z = String c s /\ (digit c = true \/ c = "-"%char).
Proof. unfold show_z. destruct (z <? 0)%Z; [cbn; eauto|]. destruct (show_first (Z.to_nat z)) as (c & s & -> & D). eauto. Qed.
(** ", ".join(map(str, l)) ++ ")..." *)
Lemma join_z_inj l : forall l' r r', join ", " (map show_z l) +++ String ")" r = join ", " (map show_z l') +++ String ")" r' -> l = l' /\ r = r'.
Proof.
  assert (forall (x : Z) l s, join ", " (map show_z (x :: l)) +++ s = show_z x +++ match l with [] => s | _ => ", " +++ (join ", " (map show_z l) +++ s) end) as J.
  { intros x [|y m] s; [reflexivity|]. cbn [map join]. rewrite !app_assoc_s. reflexivity. }
  induction l as [|x l IH]; intros [|y l'] r r' H.
  - cbn in H. injection H as ->. auto.
  - exfalso. rewrite J in H. destruct (show_z_first y) as (c & s & Ec & D). rewrite Ec in H. cbn in H. injection H as <- _. destruct D as [D|D]; discriminate D.
  - exfalso. rewrite J in H. destruct (show_z_first x) as (c & s & Ec & D). rewrite Ec in H. cbn in H. injection H as -> _. destruct D as [D|D]; discriminate D.
  - rewrite !J in H. apply show_z_inj in H; [|destruct l; reflexivity|destruct l'; reflexivity]. destruct H as [<- H].
    destruct l as [|a l], l' as [|b l']; [injection H as ->; auto|discriminate H|discriminate H|].
    apply app_inv_l in H. destruct (IH _ _ _ H) as [<- ->]. auto.
Qed.
Lemma tuple_inj l l' r r' : repr_tuple l +++ String "]" r = repr_tuple l' +++ String "]" r' -> l = l' /\ r = r'.
Proof.
  assert (forall l s, (exists x, l = [x] /\ repr_tuple l +++ s = "(" +++ (show_z x +++ (",)" +++ s))) \/ (List.length l <> 1%nat /\ repr_tuple l +++ s = "(" +++ (join ", " (map show_z l) +++ (")" +++ s)))) as C.
  { intros [|x [|y m]] s; [right; split; [discriminate|reflexivity]|left; exists x; split; [reflexivity|]|right; split; [discriminate|]]; cbn [repr_tuple]; rewrite !app_assoc_s; reflexivity. }
  intros H. destruct (C l (String "]" r)) as [(x & -> & E)|[N E]], (C l' (String "]" r')) as [(y & -> & E')|[N' E']]; rewrite E, E' in H; apply app_inv_l in H.
  - apply show_z_inj in H; [|reflexivity|reflexivity]. destruct H as [-> H]. injection H as ->. auto.
  - exfalso. destruct l' as [|y [|z l']]; [|now elim N'|].
    + cbn in H. destruct (show_z_first x) as (c & s & Ec & D). rewrite Ec in H. cbn in H. injection H as -> _. destruct D as [D|D]; discriminate D.
    + cbn [map join] in H. rewrite !app_assoc_s in H. apply show_z_inj in H; [|reflexivity|reflexivity]. destruct H as [_ H]. discriminate H.
  - exfalso. destruct l as [|y' [|z l]]; [|now elim N|].
    + cbn in H. destruct (show_z_first y) as (c & s & Ec & D). rewrite Ec in H. cbn in H. injection H as <- _. destruct D as [D|D]; discriminate D.
    + cbn [map join] in H. rewrite !app_assoc_s in H. apply show_z_inj in H; [|reflexivity|reflexivity]. destruct H as [_ H]. discriminate H.
  - cbn [append] in H. apply join_z_inj in H. destruct H as [-> H]. injection H as ->. auto.
Qed.
Lemma label_inj c s : forall s' r r', has_char c s = false -> has_char c s' = false -> s +++ String c r = s' +++ String c r' -> s = s' /\ r = r'.
Proof.
  induction s as [|a s IH]; intros [|b s'] r r' H H' E; cbn in *.
  - injection E as ->. auto.
  - injection E as <- _. rewrite Ascii.eqb_refl in H'. discriminate H'.
  - injection E as -> _. rewrite Ascii.eqb_refl in H. discriminate H.
  - apply orb_false_iff in H, H'. injection E as <- E. destruct (IH s' r r') as [-> ->]; tauto.
Qed.

Definition inj_at (t : ty) : Prop := forall u r r', clear t -> clear u -> stops r -> stops r' -> ty_str t +++ r = ty_str u +++ r' -> t = u /\ r = r'.
Definition col (p : string * ty) : string := "'" +++ (fst p +++ ("': " +++ ty_str (snd p))).
Lemma cols_inj sch : Forall (fun p => inj_at (snd p)) sch ->
  forall sch' r r', all (fun p => has_char "'" (fst p) = false /\ clear (snd p)) sch -> all (fun p => has_char "'" (fst p) = false /\ clear (snd p)) sch' ->
  join ", " (map col sch) +++ String "}" r = join ", " (map col sch') +++ String "}" r' -> sch = sch' /\ r = r'.
Proof.
  assert (forall p l s, join ", " (map col (p :: l)) +++ s = "'" +++ (fst p +++ ("': " +++ (ty_str (snd p) +++ match l with [] => s | _ => ", " +++ (join ", " (map col l) +++ s) end)))) as J.
  { intros p [|y m] s; unfold col; cbn [map join]; rewrite !app_assoc_s; reflexivity. }
  intros HF. induction HF as [|[k t] sch Hp HF IH]; intros [|[k' t'] sch'] r r' C C' H; rewrite ?J in H.
  - cbn in H. injection H as ->. auto.
  - cbn in H. discriminate H.
  - cbn in H. discriminate H.
  - cbn [fst snd] in *. destruct C as [[C1 C2] C3], C' as [[C1' C2'] C3']. cbn [fst snd] in *. apply app_inv_l in H. cbn [append] in H.
    apply label_inj in H; auto. destruct H as [<- H]. injection H as H. apply Hp in H; [|auto|auto|destruct sch; reflexivity|destruct sch'; reflexivity]. destruct H as [<- H].
    destruct sch as [|p sch], sch' as [|p' sch']; [injection H as ->; auto|discriminate H|discriminate H|]. injection H as H. destruct (IH (p' :: sch') r r' C3 C3' H) as [<- ->]. auto.
Qed.

Ltac kinds H := destruct H as [-> |[-> |[-> | ->]]].
Lemma ty_str_inj : forall t, inj_at t.
Proof.
  fix IH 1. intros t u r r' C C' S S' H.
  destruct t; destruct u; cbn [clear] in C, C'; try contradiction; try (cbn in H; discriminate H);
    try (kinds C; cbn in H; discriminate H); try (kinds C'; cbn in H; discriminate H);
    try (destruct signed; cbn in H; discriminate H); try (destruct signed0; cbn in H; discriminate H); cbn [ty_str] in H; rewrite ?app_assoc_s in H.
  - assert (signed = signed0) as -> by (destruct signed, signed0; cbn in H; congruence). apply app_inv_l in H. apply show_z_inj in H; auto. destruct H as [-> ->]. auto.
  - apply app_inv_l in H. apply show_z_inj in H; auto. destruct H as [-> ->]. auto.
  - destruct C as (b & ->), C' as (b' & ->). apply app_inv_l in H. apply show_z_inj in H; auto. destruct H as [E ->]. cbn in E. assert (b = b') as -> by lia. auto.
  - apply app_inv_l in H. apply IH in H; auto; [|reflexivity|reflexivity]. destruct H as [-> H]. apply app_inv_l in H. cbn [append] in H. apply join_z_inj in H. destruct H as [-> H]. injection H as ->. auto.
  - apply app_inv_l in H. apply IH in H; auto; [|reflexivity|reflexivity]. destruct H as [-> H]. apply app_inv_l in H. apply show_z_inj in H; [|reflexivity|reflexivity]. destruct H as [-> H]. injection H as ->. auto.
  - apply app_inv_l in H. cbn [append] in H. apply (cols_inj schema) in H; auto.
    + destruct H as [-> H]. destruct (Z.eqb_spec nrows (-1)) as [-> |N], (Z.eqb_spec nrows0 (-1)) as [-> |N'].
      * cbn in H. injection H as ->. auto.
      * cbn in H. discriminate H.
      * cbn in H. discriminate H.
      * cbn [append] in H. injection H as H. apply show_z_inj in H; [|reflexivity|reflexivity]. destruct H as [-> H]. injection H as ->. auto.
    + clear - IH. induction schema as [|p sch IHs]; constructor; auto.
  - apply app_inv_l in H. apply label_inj in H; auto. destruct H as [-> ->]. auto.
  - apply app_inv_l in H. apply IH in H; auto; [|reflexivity|reflexivity]. destruct H as [-> H]. apply app_inv_l in H.
    destruct parties as [l|], parties0 as [l'|].
    + apply tuple_inj in H. destruct H as [-> ->]. auto.
    + exfalso. destruct l as [|x [|y l]]; cbn in H; discriminate H.
    + exfalso. destruct l' as [|x [|y l]]; cbn in H; discriminate H.
    + apply app_inv_l in H. injection H as ->. auto.
  - apply app_inv_l in H. apply label_inj in H; auto. destruct H as [-> ->]. auto.
  - apply app_inv_l in H. apply label_inj in H; auto. destruct H as [-> ->]. auto.
  - apply app_inv_l in H. apply label_inj in H; auto. destruct H as [-> ->]. auto.
  - apply app_inv_l in H. apply label_inj in H; auto. destruct H as [-> ->]. auto.
  - apply app_inv_l in H. apply label_inj in H; auto. destruct H as [-> ->]. auto.
  - assert (kind = kind0) as -> by (kinds C; kinds C'; cbn in H; congruence). do 3 apply app_inv_l in H. apply show_z_inj in H; [|reflexivity|reflexivity]. destruct H as [-> H]. injection H as ->. auto.
  - apply app_inv_l in H. apply IH in H; auto; [|reflexivity|reflexivity]. destruct H as [-> H]. injection H as ->. auto.
  - apply app_inv_l in H. apply IH in H; auto; [|reflexivity|reflexivity]. destruct H as [-> H]. injection H as ->. auto.
  - apply app_inv_l in H. apply show_z_inj in H; [|reflexivity|reflexivity]. destruct H as [-> H]. injection H as ->. auto.
  - apply app_inv_l in H. auto.
  - apply app_inv_l in H. apply label_inj in H; auto. destruct H as [-> ->]. auto.
  - apply app_inv_l in H. auto.
Qed.
Lemma ty_str_clear t u : clear t -> clear u -> ty_str t = ty_str u -> t = u.
Proof. intros C C' H. apply (ty_str_inj t u "" ""); cbn; auto. rewrite H. reflexivity. Qed.
