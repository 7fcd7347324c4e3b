(** What C52 says, independently of the artifact code. *)
From Coq Require Import List ZArith String Ascii Bool Permutation.
From Verif Require Import CtxModel SerdeModel SerdeSpec MorphModel JsonText ProgramModel.
Import ListNotations.
Local Open Scope string_scope.
Local Open Scope list_scope.
Local Open Scope Z_scope.

(** an operation of the graph or of a region somewhere inside it *)
Inductive op_in : pv -> gop pv -> Prop :=
| OpHere : forall ins ops outs o, In o ops -> op_in (PGraph ins ops outs) o
| OpBelow : forall ins ops outs o r o', In o ops -> In r (g_regions o) -> op_in r o' -> op_in (PGraph ins ops outs) o'.
(** every region at every depth is a graph *)
Inductive graphs_only : pv -> Prop :=
| GraphsOnly : forall ins ops outs, (forall o r, In o ops -> In r (g_regions o) -> graphs_only r) -> graphs_only (PGraph ins ops outs).

(** a value with the items of every dict with string keys, the attributes of every operation and the
    columns of every table type put in the order of their names; nothing else is changed *)
Fixpoint canon_ty (t : ty) : ty :=
  match t with
  | TComplex i => TComplex (canon_ty i)
  | TTensor e s => TTensor (canon_ty e) s
  | TVector e n => TVector (canon_ty e) n
  | TTable sch n => TTable (sort_keys (map (fun p => (fst p, canon_ty (snd p))) sch)) n
  | TSS p s => TSS (canon_ty p) s
  | TMP v ps => TMP (canon_ty v) ps
  | TBfvPlain v => TBfvPlain (canon_ty v)
  | TBfvCipher v => TBfvCipher (canon_ty v)
  | _ => t
  end.
Fixpoint canon (x : pv) : pv :=
  match x with
  | PList l => PList (map canon l)
  | PTuple l => PTuple (map canon l)
  | PDict items =>
      if existsb (fun p => negb (is_str (fst p))) items
      then PDict (map (fun p => (fst p, canon (snd p))) items)
      else PDict (map (fun p => (PStr (fst p), snd p)) (sort_keys (map (fun p => (str_of (fst p), canon (snd p))) items)))
  | PNdObj sh l => PNdObj sh (map canon l)
  | PTensorObj sh l => PTensorObj sh (map canon l)
  | PType t => PType (canon_ty t)
  | PGraph ins ops outs =>
      PGraph (map (fun v => (fst v, canon_ty (snd v))) ins)
        (map (fun o => GOp (g_opcode o) (g_ins o) (map (fun v => (fst v, canon_ty (snd v))) (g_outs o))
                         (sort_keys (map (fun p => (fst p, canon (snd p))) (g_attrs o))) (map canon (g_regions o)) (g_name o)) ops) outs
  | PFunc g name => PFunc (canon g) name
  | _ => x
  end.
Definition canon_program (p : program) : program :=
  Program (norm (canon (p_graph p))) (p_inputs p) (p_outputs p) (p_opcodes p) (p_digest p) (p_world p) (p_created p) (p_version p) (p_schema p) (p_name p).

Section Spec.
  Variable float_trunc : Z -> res Z.
  Variable str_int : string -> res Z.
  (** party z is listed in a "parties" attribute somewhere in the graph *)
  Definition party_listed (g : pv) (z : Z) : Prop :=
    exists o l x, op_in g o /\ (sfind "parties" (g_attrs o) = Some (PList l) \/ sfind "parties" (g_attrs o) = Some (PTuple l))
                  /\ In x l /\ pv_int float_trunc str_int x = Ok z.
  (** the smallest number of parties in which all listed parties exist *)
  Definition world_of (g : pv) (w : Z) : Prop :=
    0 <= w /\ (forall z, party_listed g z -> 0 <= z < w) /\ (w = 0 \/ party_listed g (w - 1)).
  (** the program's description agrees with its graph; the digest and the world size may be left out *)
  Definition consistent (sha : json -> string) (p : program) : Prop :=
    graphs_only (p_graph p)
    /\ (exists ins ops outs, p_graph p = PGraph ins ops outs /\ p_inputs p = Z.of_nat (List.length ins) /\ p_outputs p = Z.of_nat (List.length outs))
    /\ (exists codes, p_opcodes p = map JStr codes /\ NoDup codes /\ forall c, In c codes <-> exists o, op_in (p_graph p) o /\ g_opcode o = c)
    /\ (p_digest p = "" \/ p_digest p = sha (sort_json (to_json (p_graph p))))
    /\ (p_world p = None \/ exists w, p_world p = Some w /\ world_of (p_graph p) w).
  (** the parties lists are lists of party numbers *)
  Definition parties_ok (g : pv) : Prop :=
    forall o, op_in g o ->
      match sfind "parties" (g_attrs o) with
      | None | Some PNone => True
      | Some (PList l) | Some (PTuple l) => forall x, In x l -> exists z, pv_int float_trunc str_int x = Ok z /\ 0 <= z
      | Some _ => False
      end.
End Spec.
(** a string or nothing *)
Definition text (j : json) : Prop := j = JNull \/ exists s, j = JStr s /\ is_text s = true.
(** party z holds one of the graph's values, by the value's type *)
Definition holds_value (g : pv) (z : Z) : Prop :=
  exists ins ops outs x t l, g = PGraph ins ops outs /\ In (x, TMP t (Some l)) (graph_names ins ops) /\ In z l.
