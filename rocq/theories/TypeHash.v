(** Model of __eq__ / __hash__ of the type classes (edsl/typing.py, dialects/crypto.py, bfv.py,
    tee.py) for C23.  Python's hash of strings, integers, None and tuples are parameters. *)
From Coq Require Import List ZArith String Ascii Bool Lia.
From Verif Require Import CtxModel SerdeModel SerdeSpec.
Import ListNotations.
Local Open Scope string_scope.
Local Open Scope list_scope.
Local Open Scope Z_scope.

Definition zlist_eqb (a b : list Z) : bool := if list_eq_dec Z.eq_dec a b then true else false.
(** dict.__eq__: same number of items, and each key of the first has an equal value in the second *)
Definition schema_eqb (f : ty -> ty -> bool) : list (string * ty) -> list (string * ty) -> bool :=
  fun a b => Nat.eqb (List.length a) (List.length b) &&
    (fix go (a : list (string * ty)) : bool :=
       match a with
       | [] => true
       | (k, t) :: a' => match sfind k b with Some u => f t u | None => false end && go a'
       end) a.

(** typing.py:226-229, 273-276, 320-323, 455-458, 540-543, 613-616, 696-700, 778-781, 845-848;
    crypto.py:43..162, bfv.py:117..237, tee.py:96..173 *)
Fixpoint ty_eqb (t u : ty) : bool :=
  match t, u with
  | TInt a b, TInt a' b' => Z.eqb a a' && Bool.eqb b b'
  | TFloat a, TFloat a' => Z.eqb a a'
  | TComplex a, TComplex a' => ty_eqb a a'
  | TTensor a s, TTensor a' s' => ty_eqb a a' && zlist_eqb s s'
  | TVector a n, TVector a' n' => ty_eqb a a' && Z.eqb n n'
  | TTable s n, TTable s' n' => schema_eqb ty_eqb s s' && Z.eqb n n'
  | TCustom k, TCustom k' => String.eqb k k'
  | TSS p s, TSS p' s' => ty_eqb p p' && String.eqb s s'
  | TMP v p, TMP v' p' => ty_eqb v v' && match p, p' with None, None => true | Some l, Some l' => zlist_eqb l l' | _, _ => false end
  | TPoint c, TPoint c' | TScalar c, TScalar c' | TPrivateKey c, TPrivateKey c' | TPublicKey c, TPublicKey c'
  | TSymmetricKey c, TSymmetricKey c' | TAttestedKey c, TAttestedKey c' => String.eqb c c'
  | TBfvKey k n, TBfvKey k' n' => String.eqb k k' && Z.eqb n n'
  | TBfvPlain v, TBfvPlain v' | TBfvCipher v, TBfvCipher v' => ty_eqb v v'
  | TBfvEncoder n, TBfvEncoder n' => Z.eqb n n'
  | TQuote, TQuote | TMeasurement, TMeasurement => true
  | _, _ => false
  end.

Section Hash.
  Variables (hstr : string -> Z) (hint : Z -> Z) (htuple : list Z -> Z) (hnone : Z).
  Definition hints (l : list Z) : Z := htuple (map hint l).
  (** typing.py:231-232, 278-279, 325-326, 460-461, 545-546, 618-619, 702-704, 783-784, 850-851;
      crypto.py:48..165, bfv.py:125..240, tee.py:99..177 *)
  Fixpoint ty_hash (t : ty) : Z :=
    match t with
    | TInt b s => htuple [hstr "IntegerType"; hint b; hint (if s then 1 else 0)]
    | TFloat b => htuple [hstr "FloatType"; hint b]
    | TComplex i => htuple [hstr "ComplexType"; ty_hash i]
    | TTensor e sh => htuple [ty_hash e; hints sh]
    | TVector e n => htuple [hstr "VectorType"; ty_hash e; hint n]
    | TTable sch n => htuple [hstr "TableType"; htuple (map (fun p => htuple [hstr (fst p); ty_hash (snd p)]) sch); hint n]
    | TCustom k => htuple [hstr "CustomType"; hstr k]
    | TSS p s => htuple [hstr "SSType"; ty_hash p; hstr s]
    | TMP v ps => htuple [hstr "MPType"; ty_hash v; match ps with None => hnone | Some l => hints l end]
    | TPoint c => htuple [hstr "PointType"; hstr c]
    | TScalar c => htuple [hstr "ScalarType"; hstr c]
    | TPrivateKey c => htuple [hstr "PrivateKeyType"; hstr c]
    | TPublicKey c => htuple [hstr "PublicKeyType"; hstr c]
    | TSymmetricKey c => htuple [hstr "SymmetricKeyType"; hstr c]
    | TBfvKey k n => htuple [hstr "BFVKeyType"; hstr k; hint n]
    | TBfvPlain v => htuple [hstr "BFVPlaintextType"; ty_hash v]
    | TBfvCipher v => htuple [hstr "BFVCiphertextType"; ty_hash v]
    | TBfvEncoder n => htuple [hstr "BFVEncoder"; hint n]
    | TQuote => hstr "QuoteType"
    | TAttestedKey c => htuple [hstr "AttestedKeyType"; hstr c]
    | TMeasurement => hstr "MeasurementType"
    end.

  (** no table with two or more columns inside *)
  Fixpoint narrow (t : ty) : Prop :=
    match t with
    | TComplex i => narrow i
    | TTensor e _ => narrow e
    | TVector e _ => narrow e
    | TTable sch _ => (List.length sch <= 1)%nat /\ all (fun p => narrow (snd p)) sch
    | TSS p _ => narrow p
    | TMP v _ => narrow v
    | TBfvPlain v | TBfvCipher v => narrow v
    | _ => True
    end.

  (** the tables at corresponding places of t and u list the same columns in the same order *)
  Fixpoint same_order (t u : ty) : Prop :=
    match t, u with
    | TTable s _, TTable s' _ =>
        (fix go (a b : list (string * ty)) : Prop :=
           match a, b with
           | [], [] => True
           | (k, t) :: a', (k', u) :: b' => k = k' /\ same_order t u /\ go a' b'
           | _, _ => False
           end) s s'
    | TComplex i, TComplex j | TTensor i _, TTensor j _ | TVector i _, TVector j _ | TSS i _, TSS j _ | TMP i _, TMP j _
    | TBfvPlain i, TBfvPlain j | TBfvCipher i, TBfvCipher j => same_order i j
    | _, _ => True
    end.

  Lemma zlist_eqb_eq a b : zlist_eqb a b = true -> a = b.
  Proof using Type. unfold zlist_eqb. destruct (list_eq_dec Z.eq_dec a b); [auto|discriminate]. Qed.

  Lemma narrow_hash : forall t u, narrow t -> ty_eqb t u = true -> ty_hash t = ty_hash u.
  Proof using Type.
    fix IH 1. intros t u N E. destruct t; destruct u; try discriminate E; cbn in N, E |- *;
      repeat match goal with
      | H : andb _ _ = true |- _ => apply andb_prop in H; destruct H
      | H : String.eqb _ _ = true |- _ => apply String.eqb_eq in H; subst
      | H : Z.eqb _ _ = true |- _ => apply Z.eqb_eq in H; subst
      | H : Bool.eqb _ _ = true |- _ => apply Bool.eqb_prop in H; subst
      | H : zlist_eqb _ _ = true |- _ => apply zlist_eqb_eq in H; subst
      end; auto; try (erewrite (IH _ _ N) by eassumption; reflexivity).
    - do 4 f_equal. destruct schema as [|[k t] [|]], schema0 as [|[k' t'] [|]]; cbn in N; try lia; try discriminate; auto.
      destruct N as [_ [N _]]. cbn in *.
      destruct (String.eqb_spec k' k) as [->|]; [|cbn in *; congruence]. rewrite andb_true_r in *. erewrite (IH t t'); eauto.
    - match goal with H : match parties with _ => _ end = true |- _ => rename H into HP end.
      assert (parties = parties0) as -> .
      { destruct parties, parties0; try discriminate; auto. apply zlist_eqb_eq in HP. now subst. }
      erewrite (IH t u); auto.
  Qed.

  Lemma same_order_eq : forall t u, wf_ty u -> same_order t u -> ty_eqb t u = true -> t = u.
  Proof using Type.
    fix IH 1. intros t u W N E. destruct t; destruct u; try discriminate E; cbn [ty_eqb same_order wf_ty] in N, E, W |- *;
      repeat match goal with
      | H : andb _ _ = true |- _ => apply andb_prop in H; destruct H
      | H : String.eqb _ _ = true |- _ => apply String.eqb_eq in H; subst
      | H : Z.eqb _ _ = true |- _ => apply Z.eqb_eq in H; subst
      | H : Bool.eqb _ _ = true |- _ => apply Bool.eqb_prop in H; subst
      | H : zlist_eqb _ _ = true |- _ => apply zlist_eqb_eq in H; subst
      end; try reflexivity; try (f_equal; apply IH; [first [exact W | apply W]|assumption|assumption]; fail).
    - f_equal. destruct W as [ND [Wa _]].
      match goal with H : schema_eqb _ _ _ = true |- _ => unfold schema_eqb in H; apply andb_prop in H; destruct H as [_ HG] end.
      assert (G : forall a b pre, schema0 = pre ++ b -> all (fun p => wf_ty (snd p)) b ->
        (fix go (a b : list (string * ty)) : Prop := match a, b with [], [] => True | (k, t) :: a', (k', u) :: b' => k = k' /\ same_order t u /\ go a' b' | _, _ => False end) a b ->
        (fix go (a : list (string * ty)) : bool := match a with [] => true | (k, t) :: a' => match sfind k schema0 with Some u => ty_eqb t u | None => false end && go a' end) a = true -> a = b).
      { fix go 1. intros a b pre Es Wb HO HE. destruct a as [|[k t] a], b as [|[k' u] b]; try (destruct HO; fail); [reflexivity|].
        destruct HO as [<- [Ho HO]]. apply andb_prop in HE. destruct HE as [HE1 HE2]. destruct Wb as [Wu Wb].
        assert (Ef : sfind k schema0 = Some u).
        { rewrite Es in ND |- *. clear -ND. induction pre as [|[k0 t0] pre IHp]; cbn; [rewrite String.eqb_refl; reflexivity|].
          cbn in ND. inversion ND; subst. destruct (String.eqb_spec k0 k) as [->|]; [|apply IHp; assumption].
          exfalso. match goal with H : ~ In _ _ |- _ => apply H end. rewrite map_app. apply in_or_app. right. left. reflexivity. }
        rewrite Ef in HE1. rewrite (IH t u Wu Ho HE1). f_equal. apply (go a b (pre ++ [(k, u)])); [rewrite <- app_assoc; exact Es|exact Wb|exact HO|exact HE2]. }
      apply (G schema schema0 []); [reflexivity|exact Wa|exact N|exact HG].
    - match goal with H : match parties with _ => _ end = true |- _ => rename H into HP end.
      assert (parties = parties0) as -> .
      { destruct parties, parties0; try discriminate; try reflexivity. apply zlist_eqb_eq in HP. now subst. }
      f_equal. apply IH; assumption.
  Qed.
End Hash.

Lemma sfind_middle (pre b : list (string * ty)) k t : NoDup (map fst (pre ++ (k, t) :: b)) -> sfind k (pre ++ (k, t) :: b) = Some t.
Proof.
  intros ND. induction pre as [|[k0 t0] pre IHp]; cbn; [rewrite String.eqb_refl; reflexivity|].
  cbn in ND. inversion ND; subst. destruct (String.eqb_spec k0 k) as [->|]; [|apply IHp; assumption].
  exfalso. match goal with H : ~ In _ _ |- _ => apply H end. rewrite map_app. apply in_or_app. right. left. reflexivity.
Qed.
Lemma ty_eqb_refl : forall t, wf_ty t -> ty_eqb t t = true.
Proof.
  assert (ZL : forall l, zlist_eqb l l = true) by (intros l; unfold zlist_eqb; destruct (list_eq_dec Z.eq_dec l l); congruence).
  fix IH 1. intros t W. destruct t; cbn [ty_eqb wf_ty] in *;
    rewrite ?Z.eqb_refl, ?String.eqb_refl, ?Bool.eqb_reflx, ?ZL; try reflexivity; rewrite ?andb_true_r;
    try (apply IH; first [exact W | apply W]).
  - destruct W as [ND [Wa _]]. unfold schema_eqb. rewrite Nat.eqb_refl. cbn [andb].
    assert (G : forall a pre, schema = pre ++ a -> all (fun p => wf_ty (snd p)) a ->
      (fix go (a : list (string * ty)) : bool := match a with [] => true | (k, t) :: a' => match sfind k schema with Some u => ty_eqb t u | None => false end && go a' end) a = true).
    { fix go 1. intros a pre Es Wb. destruct a as [|[k t] a]; [reflexivity|]. destruct Wb as [Wt Wb]. cbn [snd] in Wt.
      assert (Ef : sfind k schema = Some t) by (rewrite Es in ND |- *; apply sfind_middle; exact ND).
      rewrite Ef, (IH t Wt). cbn [andb]. apply (go a (pre ++ [(k, t)])); [rewrite <- app_assoc; exact Es|exact Wb]. }
    apply (G schema []); [reflexivity|exact Wa].
  - rewrite (IH t W). destruct parties; [apply ZL|reflexivity].
Qed.
