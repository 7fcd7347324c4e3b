(** Specification for C53: when two graphs are the same up to the names of their values and
    operations, and which graphs the execution key identifies. *)
From Coq Require Import List ZArith String Ascii Bool Permutation.
From Verif Require Import CtxModel SerdeModel SerdeSpec.
Import ListNotations.
Local Open Scope string_scope.
Local Open Scope list_scope.

(** [alpha g h]: h is g with the values renamed one to one (in every region separately), the
    operations renamed at will and the attribute dicts in any order *)
Inductive alpha : pv -> pv -> Prop :=
| Alpha (r : string -> string) (ins ins' : list (string * ty)) (ops ops' : list (gop pv)) (outs outs' : list string) :
    (forall x y, In x (map fst (graph_names ins ops) ++ flat_map g_ins ops ++ outs) -> In y (map fst (graph_names ins ops) ++ flat_map g_ins ops ++ outs) -> r x = r y -> x = y) ->
    ins' = map (fun v => (r (fst v), snd v)) ins ->
    Forall2 (fun o o' => g_opcode o' = g_opcode o /\ g_ins o' = map r (g_ins o) /\ g_outs o' = map (fun v => (r (fst v), snd v)) (g_outs o)
                         /\ Permutation (g_attrs o) (g_attrs o') /\ NoDup (map fst (g_attrs o)) /\ Forall2 alpha (g_regions o) (g_regions o')) ops ops' ->
    outs' = map r outs ->
    alpha (PGraph ins ops outs) (PGraph ins' ops' outs').

Fixpoint has_char (c : ascii) (s : string) : bool := match s with EmptyString => false | String d s => Ascii.eqb d c || has_char c s end.
(** types whose printed form identifies them: no SS (its printed form leaves out the encryption
    schema), no closing bracket in a label, no quote in a column name *)
Fixpoint clear (t : ty) : Prop :=
  match t with
  | TInt _ _ | TFloat _ | TQuote | TMeasurement | TBfvEncoder _ => True
  | TComplex i => exists b, i = TFloat b
  | TTensor e _ | TVector e _ => clear e
  | TTable sch _ => all (fun p => has_char "'" (fst p) = false /\ clear (snd p)) sch
  | TCustom s | TPoint s | TScalar s | TPrivateKey s | TPublicKey s | TSymmetricKey s | TAttestedKey s => has_char "]" s = false
  | TSS _ _ => False
  | TMP v _ => clear v
  | TBfvKey k _ => k = "Public" \/ k = "Private" \/ k = "Relin" \/ k = "Galois"
  | TBfvPlain v | TBfvCipher v => clear v
  end.
(** attribute values the fingerprint keeps exactly *)
Fixpoint exact (x : pv) : Prop :=
  match x with
  | PBool _ | PInt _ | PFloat _ | PStr _ => True
  | PNd d _ _ => d <> "object"
  | PBytes _ => True
  | PList l => all exact l
  | _ => False
  end.
(** graphs without forward references or duplicate names, with identifiable types and attributes
    (None is allowed as the whole value of an attribute) *)
Fixpoint good (g : pv) : Prop :=
  match g with
  | PGraph ins ops outs =>
      NoDup (map fst (graph_names ins ops)) /\ incl (flat_map g_ins ops ++ outs) (map fst (graph_names ins ops))
      /\ all (fun v => clear (snd v)) ins
      /\ all (fun o => all (fun v => clear (snd v)) (g_outs o) /\ NoDup (map fst (g_attrs o))
                       /\ all (fun p => snd p = PNone \/ exact (snd p)) (g_attrs o) /\ all good (g_regions o)) ops
  | _ => False
  end.
