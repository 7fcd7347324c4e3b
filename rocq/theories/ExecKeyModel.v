(** Model of the printed form of types (edsl/typing.py:222,270,317,451,537,608,710,775,842;
    dialects/bfv.py:114,157,198,231; crypto.py:40-157; tee.py:90,134,167), of the structural
    execution key of graphs (runtime/interpreter.py:474-606) and of its cache on the graph object.

    Graphs are the values of SerdeModel: within a graph a Value object is identified with its name
    (names are unique per graph, C24).  sha256 is a function on strings, json.dumps(sort_keys=True)
    followed by sha256 one on JSON values. *)
From Coq Require Import List ZArith String Ascii Bool.
From Verif Require Import CtxModel SerdeModel MorphModel.
Import ListNotations.
Local Open Scope string_scope.
Local Open Scope list_scope.

(** ** str(type) *)
Definition show_z (z : Z) : string := if (z <? 0)%Z then "-" +++ show (Z.to_nat (- z)) else show (Z.to_nat z).
(** sep.join(l) *)
Fixpoint join (sep : string) (l : list string) : string :=
  match l with [] => "" | [x] => x | x :: l => x +++ (sep +++ join sep l) end.
(** repr of a tuple of ints *)
Definition repr_tuple (l : list Z) : string :=
  match l with [x] => "(" +++ (show_z x +++ ",)") | _ => "(" +++ (join ", " (map show_z l) +++ ")") end.
Definition bits_of (t : ty) : Z := match t with TInt b _ => b | TFloat b => b | _ => 0%Z end.
Fixpoint ty_str (t : ty) : string :=
  match t with
  | TInt b s => (if s then "i" else "u") +++ show_z b
  | TFloat b => "f" +++ show_z b
  | TComplex i => "c" +++ show_z (bits_of i * 2)
  | TTensor e sh => "Tensor[" +++ (ty_str e +++ (", (" +++ (join ", " (map show_z sh) +++ ")]")))
  | TVector e n => "Vector[" +++ (ty_str e +++ (", " +++ (show_z n +++ "]")))
  | TTable sch n => "Table[{" +++ (join ", " (map (fun p => "'" +++ (fst p +++ ("': " +++ ty_str (snd p)))) sch)
                      +++ ("}" +++ ((if (n =? -1)%Z then "" else ", nrows=" +++ show_z n) +++ "]")))
  | TCustom k => "Custom[" +++ (k +++ "]")
  | TSS p _ => "SS[" +++ (ty_str p +++ "]")
  | TMP v ps => "MP[" +++ (ty_str v +++ (", parties=" +++ (match ps with None => "None" | Some l => repr_tuple l end +++ "]")))
  | TPoint c => "Point[" +++ (c +++ "]")
  | TScalar c => "Scalar[" +++ (c +++ "]")
  | TPrivateKey s => "PrivateKey[" +++ (s +++ "]")
  | TPublicKey s => "PublicKey[" +++ (s +++ "]")
  | TSymmetricKey s => "SymmetricKey[" +++ (s +++ "]")
  | TBfvKey k n => "BFV" +++ (k +++ ("Key[N=" +++ (show_z n +++ "]")))
  | TBfvPlain v => "BFVPlaintext[" +++ (ty_str v +++ "]")
  | TBfvCipher v => "BFVCiphertext[" +++ (ty_str v +++ "]")
  | TBfvEncoder n => "BFVEncoder[N=" +++ (show_z n +++ "]")
  | TQuote => "TEEQuote"
  | TAttestedKey c => "AttestedKey[" +++ (c +++ "]")
  | TMeasurement => "TEEMeasurement"
  end.

Section Key.
  Variable sha : string -> string.             (* hashlib.sha256(bytes).hexdigest() *)
  Variable dump : json -> string.              (* json.dumps(x, sort_keys=True) *)
  Variable ptrs : list pv -> string.           (* the object pointers an object array holds *)

  Fixpoint all_some {A : Type} (l : list (option A)) : option (list A) :=
    match l with [] => Some [] | Some x :: l => option_map (cons x) (all_some l) | None :: _ => None end.
  (** 494-552 _stable_attr_value; None is both "unsupported" and the encoding of None *)
  Fixpoint stable (x : pv) : option json :=
    match x with
    | PBool b => Some (JBool b)
    | PInt z | PNpInt z => Some (JInt z)
    | PFloat f | PNpFloat f => Some (JFloat f)
    | PStr s => Some (JStr s)
    | PBytes s => Some (JObj [("_kind", JStr "bytes"); ("len", JInt (Z.of_nat (String.length s))); ("sha256", JStr (sha s))])
    | PNd d sh data => Some (JObj [("_kind", JStr "ndarray"); ("dtype", JStr d); ("shape", JArr (map JInt sh)); ("sha256", JStr (sha data))])
    | PNdObj sh items => Some (JObj [("_kind", JStr "ndarray"); ("dtype", JStr "object"); ("shape", JArr (map JInt sh)); ("sha256", JStr (sha (ptrs items)))])
    | PList l | PTuple l => option_map JArr (all_some (map stable l))
    | PDict items =>
        option_map (fun kvs => JObj [("_kind", JStr "dict"); ("items", JArr (map snd (sort_keys (map (fun kv => (dump (fst kv), JArr [fst kv; snd kv])) kvs))))])
          (all_some (map (fun p => match stable (fst p), stable (snd p) with Some k, Some v => Some (k, v) | _, _ => None end) items))
    | _ => None
    end.

  (** 556-562 _index: the position of a value in value_to_index, which grows *)
  Fixpoint find_pos (x : string) (env : list string) : option nat :=
    match env with [] => None | y :: env => if String.eqb y x then Some 0 else option_map S (find_pos x env) end.
  Definition index (env : list string) (x : string) : list string * nat :=
    match find_pos x env with Some i => (env, i) | None => (env ++ [x], List.length env) end.
  Fixpoint index_list (env : list string) (l : list string) : list string * list nat :=
    match l with [] => (env, []) | x :: l => let '(env, i) := index env x in let '(env, is) := index_list env l in (env, i :: is) end.
  Fixpoint index_lists (env : list string) (ls : list (list string)) : list string * list (list nat) :=
    match ls with [] => (env, []) | l :: ls => let '(env, i) := index_list env l in let '(env, is) := index_lists env ls in (env, i :: is) end.
  Definition jnats (l : list nat) : json := JArr (map (fun n => JInt (Z.of_nat n)) l).
  Definition jtypes (l : list (string * ty)) : json := JArr (map (fun v => JStr (ty_str (snd v))) l).
  (** 571-586 the entry of one operation, given the numbers of its inputs and its regions' fingerprints *)
  Definition op_fp (o : gop pv) (ins : list nat) (regions : list json) : json :=
    let sorted := sort_keys (g_attrs o) in
    JObj [("opcode", JStr (g_opcode o)); ("inputs", jnats ins); ("outputs", jtypes (g_outs o));
          ("attrs", JObj [("keys", JArr (map (fun p => JStr (fst p)) sorted));
                          ("stable", JArr (flat_map (fun p => match stable (snd p) with Some v => [JArr [JStr (fst p); v]] | None => [] end) sorted))]);
          ("regions", JArr regions)].
  Fixpoint zip3 {A B C D : Type} (f : A -> B -> C -> D) (a : list A) (b : list B) (c : list C) : list D :=
    match a, b, c with x :: a, y :: b, z :: c => f x y z :: zip3 f a b c | _, _, _ => [] end.
  (** 554-592 _graph_fingerprint *)
  Definition graph_env (ins : list (string * ty)) (ops : list (gop pv)) : list string :=
    fst (index_list [] (map fst ins ++ flat_map (fun o => map fst (g_outs o)) ops)).
  Fixpoint fingerprint (x : pv) : json :=
    match x with
    | PGraph ins ops outs =>
        let '(env, is) := index_lists (graph_env ins ops) (map g_ins ops) in
        JObj [("inputs", jtypes ins);
              ("ops", JArr (zip3 op_fp ops is (map (fun o => map fingerprint (g_regions o)) ops)));
              ("outputs", jnats (snd (index_list env outs)))]
    | _ => JNull
    end.
  Variable hash : json -> string.              (* 596-602: dumps, then sha256 *)
  Definition exec_key (g : pv) : string := hash (fingerprint g).

  (** 484-486, 605: a graph object carries its key after the first computation; [lift]
      (818-847) assigns graph.outputs of the same object and evaluates it *)
  Record gobj : Type := GObj { o_graph : pv; o_key : option string }.
  Definition key_of (g : gobj) : string * gobj :=
    match o_key g with Some k => (k, g) | None => let k := exec_key (o_graph g) in (k, GObj (o_graph g) (Some k)) end.
  Definition set_outputs (g : gobj) (outs : list string) : gobj :=
    match o_graph g with PGraph i o _ => GObj (PGraph i o outs) (o_key g) | _ => g end.
End Key.
