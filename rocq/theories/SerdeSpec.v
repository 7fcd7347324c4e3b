(** What the serialisation properties C20, C22, C25 say, independently of the encoder and decoder:
    which values are well formed, and which conversions the encoder is documented to make. *)
From Coq Require Import List ZArith String Ascii Bool.
From Verif Require Import CtxModel SerdeModel.
Import ListNotations.
Local Open Scope string_scope.
Local Open Scope list_scope.
Local Open Scope Z_scope.

(** every element satisfies P (a [Forall] that structural recursion can see through) *)
Definition all {A} (P : A -> Prop) (l : list A) : Prop := fold_right (fun x Q => P x /\ Q) True l.

(** ** Types: the documented parameter ranges *)
Fixpoint wf_ty (t : ty) : Prop :=
  match t with
  | TInt b _ => exists k, 0 <= k /\ b = 2 ^ k
  | TFloat b => b = 16 \/ b = 32 \/ b = 64 \/ b = 128
  | TComplex i => (exists b, i = TFloat b) /\ wf_ty i
  | TTensor e sh => wf_ty e /\ Forall (fun d => d = -1 \/ 0 < d) sh
  | TVector e n => wf_ty e /\ 0 < n /\ ((exists b s, e = TInt b s) \/ (exists b, e = TFloat b) \/ exists i, e = TComplex i)
  | TTable sch n => NoDup (map fst sch) /\ all (fun p => wf_ty (snd p)) sch /\ (n = -1 \/ 0 < n)
  | TCustom k => exists a c b, k = a +++ String c b /\ is_space c = false
  | TSS p _ => wf_ty p
  | TMP v _ => wf_ty v
  | TBfvPlain v | TBfvCipher v => wf_ty v /\ exists e n, v = TVector e n
  | _ => True
  end.

(** ** Values: the conversions to_json documents (numpy scalars become Python scalars, objects
    with __array__ become ndarrays, DataFrames become tables); everything else is kept. *)
Fixpoint norm (x : pv) : pv :=
  match x with
  | PNpInt z => PInt z
  | PNpFloat f => PFloat f
  | PArrayLike d sh data => PNd d sh data
  | PFrame ipc => PTable ipc
  | PList l => PList (map norm l)
  | PTuple l => PTuple (map norm l)
  | PDict items => PDict (map (fun p => (norm (fst p), norm (snd p))) items)
  | PNdObj sh items => PNdObj sh (map norm items)
  | PTensorObj sh items => PTensorObj sh (map norm items)
  | PGraph ins ops outs => PGraph ins
      (map (fun o => GOp (g_opcode o) (g_ins o) (g_outs o)
         (map (fun p => (fst p, norm (snd p))) (g_attrs o)) (map norm (g_regions o)) (g_name o)) ops) outs
  | PFunc g name => PFunc (norm g) name
  | _ => x
  end.

(** no value inside needs one of these conversions *)
Fixpoint plain (x : pv) : Prop :=
  match x with
  | PNpInt _ | PNpFloat _ | PArrayLike _ _ _ | PFrame _ => False
  | PList l | PTuple l | PNdObj _ l | PTensorObj _ l => all plain l
  | PDict items => all (fun p => plain (fst p) /\ plain (snd p)) items
  | PGraph _ ops _ => all (fun o => all (fun p => plain (snd p)) (g_attrs o) /\ all plain (g_regions o)) ops
  | PFunc g _ => plain g
  | _ => True
  end.

(** ** Graphs as the tracer and the add_* methods build them *)
(** all values, in creation order *)
Definition graph_names {A} (ins : list (string * ty)) (ops : list (gop A)) : list (string * ty) :=
  ins ++ flat_map g_outs ops.
(** every operation uses only values that exist before it *)
Fixpoint scoped {A} (known : list string) (ops : list (gop A)) : Prop :=
  match ops with
  | [] => True
  | o :: ops' => incl (g_ins o) known /\ scoped (known ++ map fst (g_outs o)) ops'
  end.
Definition built_graph {A} (ins : list (string * ty)) (ops : list (gop A)) (outs : list string) : Prop :=
  NoDup (map fst (graph_names ins ops))
  /\ scoped (map fst ins) ops
  /\ (* the operations' outputs are named %0, %1, ... in order *)
     map fst (flat_map g_outs ops) = map (fun k => "%" +++ show k) (seq 0 (List.length (flat_map g_outs ops)))
  /\ Forall (fun o => g_name o <> "") ops
  /\ incl outs (map fst (graph_names ins ops)).

Section WF.
  Variable float_int : Z -> option Z.
  Variable itemsize : string -> option Z.

  (** the bytes are exactly the elements of an array of this dtype and shape *)
  Definition array_ok (d : string) (sh : list Z) (data : string) : Prop :=
    exists k, itemsize d = Some k /\ 0 < k /\ Forall (fun x => 0 <= x) sh
              /\ Z.of_nat (String.length data) = prod sh * k.
  (** keys of a Python dict: hashable, pairwise different *)
  Definition keys_ok (ks : list pv) : Prop :=
    Forall (fun k => hashable k = true) ks /\ ForallOrdPairs (fun a b => key_eqb float_int a b = false) ks.

  Fixpoint wf_pv (x : pv) : Prop :=
    match x with
    | PNd d sh data | PArrayLike d sh data | PTensorVal d sh data => array_ok d sh data
    | PNdObj sh items | PTensorObj sh items =>
        all wf_pv items /\ Forall (fun x => 0 <= x) sh /\ prod sh = Z.of_nat (List.length items)
    | PList l | PTuple l => all wf_pv l
    | PDict items => all (fun p => wf_pv (fst p) /\ wf_pv (snd p)) items /\ keys_ok (map fst items)
    | PType t => wf_ty t
    | PGraph ins ops outs =>
        all (fun v => wf_ty (snd v)) ins
        /\ all (fun o => all (fun v => wf_ty (snd v)) (g_outs o) /\ all (fun p => wf_pv (snd p)) (g_attrs o)
                         /\ NoDup (map fst (g_attrs o)) /\ all wf_pv (g_regions o)) ops
        /\ built_graph ins ops outs
    | PKeyVal k _ _ => k = "PrivateKeyValue" \/ k = "PublicKeyValue" \/ k = "SymmetricKeyValue"
    | PFunc g _ => wf_pv g
    | _ => True
    end.
End WF.
