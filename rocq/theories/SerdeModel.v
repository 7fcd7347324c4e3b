(** Model of edsl/serde.py (to_json / from_json, lines 138-350), of the type classes'
    to_json/from_json and constructors (edsl/typing.py, dialects/crypto.py, bfv.py, tee.py),
    of Graph.to_json/from_json (edsl/graph.py:371-463) and of the value wrappers
    (backends/tensor_impl.py, table_impl.py, crypto_impl.py, func_impl.py).

    Python values are a datatype; a dict is the list of its items in insertion order.
    Strings and byte strings are Coq strings.  Floats are opaque 64-bit patterns; pyarrow
    tables are their IPC byte streams.  Not modelled: subclasses of builtin types other than
    numpy scalars, SPUConfig, CompiledProgram and the BFV/TEE value classes, RecursionError. *)
From Coq Require Import List ZArith String Ascii Bool.
From Verif Require Import Base64Model CtxModel.
Import ListNotations.
Local Open Scope string_scope.
Local Open Scope list_scope.
Local Open Scope Z_scope.

Inductive res (A : Type) : Type := Ok (a : A) | ValueErr | KeyErr | TypeErr | IndexErr.
Arguments Ok {A}. Arguments ValueErr {A}. Arguments KeyErr {A}. Arguments TypeErr {A}. Arguments IndexErr {A}.
Definition rbind {A B} (r : res A) (f : A -> res B) : res B :=
  match r with Ok a => f a | ValueErr => ValueErr | KeyErr => KeyErr | TypeErr => TypeErr | IndexErr => IndexErr end.
Notation "x <- a ;; b" := (rbind a (fun x => b)) (at level 61, a at next level, right associativity).
Fixpoint rmap {A B} (f : A -> res B) (l : list A) : res (list B) :=
  match l with [] => Ok [] | x :: l' => y <- f x ;; ys <- rmap f l' ;; Ok (y :: ys) end.

(** JSON values as json.dumps/json.loads see them. *)
Inductive json : Type :=
| JNull | JBool (b : bool) | JInt (z : Z) | JFloat (f : Z) | JStr (s : string)
| JArr (l : list json) | JObj (l : list (string * json)).

(** MPLang types *)
Inductive ty : Type :=
| TInt (bits : Z) (signed : bool) | TFloat (bits : Z) | TComplex (inner : ty)
| TTensor (elt : ty) (shape : list Z) | TVector (elt : ty) (size : Z)
| TTable (schema : list (string * ty)) (nrows : Z) | TCustom (kind : string)
| TSS (pt : ty) (schema : string) | TMP (v : ty) (parties : option (list Z))
| TPoint (c : string) | TScalar (c : string) | TPrivateKey (s : string) | TPublicKey (s : string) | TSymmetricKey (s : string)
| TBfvKey (kind : string) (n : Z) | TBfvPlain (v : ty) | TBfvCipher (v : ty) | TBfvEncoder (n : Z)
| TQuote | TAttestedKey (c : string) | TMeasurement.

(** Graph operation; [A] is the type of attribute values and of regions. *)
Record gop (A : Type) : Type := GOp {
  g_opcode : string; g_ins : list string; g_outs : list (string * ty);
  g_attrs : list (string * A); g_regions : list A; g_name : string }.
Arguments GOp {A}. Arguments g_opcode {A}. Arguments g_ins {A}. Arguments g_outs {A}.
Arguments g_attrs {A}. Arguments g_regions {A}. Arguments g_name {A}.

Inductive pv : Type :=
| PNone | PBool (b : bool) | PInt (z : Z) | PFloat (f : Z) | PStr (s : string)
| PNpInt (z : Z) | PNpFloat (f : Z)                        (* numpy scalars *)
| PNd (dtype : string) (shape : list Z) (data : string)    (* ndarray, raw bytes *)
| PNdObj (shape : list Z) (items : list pv)                (* ndarray of dtype object *)
| PArrayLike (dtype : string) (shape : list Z) (data : string) (* has __array__: jax arrays, numpy.bool_ *)
| PTable (ipc : string) | PFrame (ipc : string)            (* pyarrow.Table, pandas.DataFrame *)
| PList (l : list pv) | PTuple (l : list pv) | PDict (items : list (pv * pv)) | PBytes (s : string)
| PType (t : ty)
| PGraph (ins : list (string * ty)) (ops : list (gop pv)) (outs : list string)
| PTensorVal (dtype : string) (shape : list Z) (data : string) | PTensorObj (shape : list Z) (items : list pv)
| PTableVal (ipc : string) | PBytesVal (s : string) | PECPoint (s : string)
| PKeyVal (kind suite data : string)                       (* crypto_impl.{Private,Public,Symmetric}KeyValue *)
| PFunc (graph : pv) (name : string).

(** ** Encoding *)
Definition tag (kind : string) (fields : list (string * json)) : json :=
  JObj (fields ++ [("_kind", JStr kind)]).

(** edsl/typing.py:237,284,331,489,551,634,728,789,856; dialects/crypto.py:54..170,
    bfv.py:131..245, tee.py:105..182; serde.py:159-162 *)
Fixpoint ty_to_json (t : ty) : json :=
  match t with
  | TInt b s => tag "mplang.IntegerType" [("bitwidth", JInt b); ("signed", JBool s)]
  | TFloat b => tag "mplang.FloatType" [("bitwidth", JInt b)]
  | TComplex i => tag "mplang.ComplexType" [("inner_type", ty_to_json i)]
  | TTensor e sh => tag "mplang.TensorType" [("element_type", ty_to_json e); ("shape", JArr (map JInt sh))]
  | TVector e n => tag "mplang.VectorType" [("element_type", ty_to_json e); ("size", JInt n)]
  | TTable sch n => tag "mplang.TableType"
      (("schema", JObj (map (fun p => (fst p, ty_to_json (snd p))) sch)) :: if Z.eqb n (-1) then [] else [("nrows", JInt n)])
  | TCustom k => tag "mplang.CustomType" [("kind", JStr k)]
  | TSS p s => tag "mplang.SSType" [("secret_type", ty_to_json p); ("enc_schema", JStr s)]
  | TMP v ps => tag "mplang.MPType" [("value_type", ty_to_json v);
      ("parties", match ps with Some l => JArr (map JInt l) | None => JNull end)]
  | TPoint c => tag "crypto.PointType" [("curve", JStr c)]
  | TScalar c => tag "crypto.ScalarType" [("curve", JStr c)]
  | TPrivateKey s => tag "crypto.PrivateKeyType" [("suite", JStr s)]
  | TPublicKey s => tag "crypto.PublicKeyType" [("suite", JStr s)]
  | TSymmetricKey s => tag "crypto.SymmetricKeyType" [("suite", JStr s)]
  | TBfvKey k n => tag "bfv.KeyType" [("kind", JStr k); ("poly_modulus_degree", JInt n)]
  | TBfvPlain v => tag "bfv.PlaintextType" [("vector_type", ty_to_json v)]
  | TBfvCipher v => tag "bfv.CiphertextType" [("vector_type", ty_to_json v)]
  | TBfvEncoder n => tag "bfv.EncoderType" [("poly_modulus_degree", JInt n)]
  | TQuote => tag "tee.QuoteType" []
  | TAttestedKey c => tag "tee.AttestedKeyType" [("curve", JStr c)]
  | TMeasurement => tag "tee.MeasurementType" []
  end.

(** isinstance(k, str) *)
Definition is_str (x : pv) : bool := match x with PStr _ => true | _ => false end.
Definition str_of (x : pv) : string := match x with PStr s => s | _ => "" end.
Definition b64 (s : string) : json := JStr (b64enc s).
(** the builtin encodings put "_kind" first *)
Definition btag (kind : string) (fields : list (string * json)) : json := JObj (("_kind", JStr kind) :: fields).

(** serde.py:138-265 *)
Fixpoint to_json (x : pv) : json :=
  match x with
  | PNone => btag "_null" []
  | PBool b => btag "_bool" [("v", JBool b)]
  | PInt z | PNpInt z => btag "_int" [("v", JInt z)]
  | PFloat f | PNpFloat f => btag "_float" [("v", JFloat f)]
  | PStr s => btag "_str" [("v", JStr s)]
  | PNd d sh data | PArrayLike d sh data =>
      btag "_ndarray" [("dtype", JStr d); ("shape", JArr (map JInt sh)); ("data", b64 data)]
  | PNdObj sh items => btag "_ndarray_object" [("shape", JArr (map JInt sh)); ("items", JArr (map to_json items))]
  | PTable ipc | PFrame ipc => btag "_pa_table" [("data", b64 ipc)]
  | PList l => btag "_list" [("items", JArr (map to_json l))]
  | PTuple l => btag "_tuple" [("items", JArr (map to_json l))]
  | PDict items =>
      if existsb (fun p => negb (is_str (fst p))) items
      then btag "_dict_pairs" [("pairs", JArr (map (fun p => JArr [to_json (fst p); to_json (snd p)]) items))]
      else btag "_dict" [("items", JObj (map (fun p => (str_of (fst p), to_json (snd p))) items))]
  | PBytes s => btag "_bytes" [("data", b64 s)]
  | PType t => ty_to_json t
  | PGraph ins ops outs => tag "mplang.Graph"
      [("inputs", JArr (map (fun v => JObj [("name", JStr (fst v)); ("type", ty_to_json (snd v))]) ins));
       ("operations", JArr (map (fun o => JObj
          [("opcode", JStr (g_opcode o)); ("inputs", JArr (map JStr (g_ins o)));
           ("outputs", JArr (map (fun v => JObj [("name", JStr (fst v)); ("type", ty_to_json (snd v))]) (g_outs o)));
           ("attrs", JObj (map (fun p => (fst p, to_json (snd p))) (g_attrs o)));
           ("regions", JArr (map to_json (g_regions o))); ("name", JStr (g_name o))]) ops));
       ("outputs", JArr (map JStr outs))]
  | PTensorVal d sh data => tag "tensor_impl.TensorValue"
      [("kind", JStr "numeric"); ("dtype", JStr d); ("shape", JArr (map JInt sh)); ("data", b64 data)]
  | PTensorObj sh items => tag "tensor_impl.TensorValue"
      [("kind", JStr "object"); ("shape", JArr (map JInt sh)); ("items", JArr (map to_json items))]
  | PTableVal ipc => tag "table_impl.TableValue" [("ipc", b64 ipc)]
  | PBytesVal s => tag "crypto_impl.BytesValue" [("data", b64 s)]
  | PECPoint s => tag "crypto_impl.ECPointValue" [("data", b64 s)]
  | PKeyVal k suite data => tag ("crypto_impl." +++ k) [("suite", JStr suite); ("key_bytes", b64 data)]
  | PFunc g name => tag "func.FunctionValue" [("graph", to_json g); ("name", JStr name)]
  end.

(** ** Decoding *)
Fixpoint jfind (k : string) (l : list (string * json)) : option json :=
  match l with [] => None | (k', v) :: l' => if String.eqb k' k then Some v else jfind k l' end.
(** data[k] *)
Definition jget (k : string) (l : list (string * json)) : res json :=
  match jfind k l with Some v => Ok v | None => KeyErr end.
(** coercions of payload fields; a payload of the wrong JSON type is an error here (Python may
    coerce, e.g. int("3"), or fail later) *)
Definition as_str (j : json) : res string := match j with JStr s => Ok s | _ => TypeErr end.
Definition as_int (j : json) : res Z := match j with JInt z => Ok z | _ => TypeErr end.
Definition as_bool (j : json) : res bool := match j with JBool b => Ok b | _ => TypeErr end.
Definition as_arr (j : json) : res (list json) := match j with JArr l => Ok l | _ => TypeErr end.
Definition as_obj (j : json) : res (list (string * json)) := match j with JObj l => Ok l | _ => TypeErr end.
Definition as_ints (j : json) : res (list Z) := l <- as_arr j ;; rmap as_int l.
Definition as_b64 (j : json) : res string :=
  s <- as_str j ;; match b64dec s with Some b => Ok b | None => ValueErr end.

(** constructor checks, edsl/typing.py:217-218, 266-267, 311-312, 399-417, 519-524, 589-594, 684-687 *)
Definition is_pow2 (z : Z) : bool := (0 <? z) && (Z.land z (z - 1) =? 0).
Definition is_float (t : ty) : bool := match t with TFloat _ => true | _ => false end.
Definition is_scalar_ty (t : ty) : bool := match t with TInt _ _ | TFloat _ | TComplex _ => true | _ => false end.
Definition is_vector (t : ty) : bool := match t with TVector _ _ => true | _ => false end.
(** str.strip() removes whitespace; ASCII whitespace only *)
Definition is_space (c : ascii) : bool :=
  let n := nat_of_ascii c in ((Nat.leb 9 n && Nat.leb n 13) || (Nat.leb 28 n && Nat.leb n 32))%bool.
Fixpoint all_space (s : string) : bool := match s with EmptyString => true | String c s' => is_space c && all_space s' end.

Definition mk_int (bits : Z) (signed : bool) : res ty := if is_pow2 bits then Ok (TInt bits signed) else ValueErr.
Definition mk_float (bits : Z) : res ty :=
  if existsb (Z.eqb bits) [16; 32; 64; 128] then Ok (TFloat bits) else ValueErr.
Definition mk_complex (inner : ty) : res ty := if is_float inner then Ok (TComplex inner) else TypeErr.
Definition mk_tensor (e : ty) (shape : list Z) : res ty :=
  if existsb (fun d => (d <? -1) || (d =? 0)) shape then ValueErr else Ok (TTensor e shape).
Definition mk_vector (e : ty) (n : Z) : res ty :=
  if negb (is_scalar_ty e) then TypeErr else if n <=? 0 then ValueErr else Ok (TVector e n).
Definition mk_table (schema : list (string * ty)) (nrows : Z) : res ty :=
  if (nrows <? -1) || (nrows =? 0) then ValueErr else Ok (TTable schema nrows).
Definition mk_custom (k : string) : res ty := if all_space k then ValueErr else Ok (TCustom k).
(** bfv.py:176-179, 217-220 (the check is in from_json, not in the constructor) *)
Definition mk_plain (v : ty) : res ty := if is_vector v then Ok (TBfvPlain v) else TypeErr.
Definition mk_cipher (v : ty) : res ty := if is_vector v then Ok (TBfvCipher v) else TypeErr.

Definition kind_of (l : list (string * json)) : res json := match jfind "_kind" l with Some JNull | None => ValueErr | Some k => Ok k end.

(** dict comprehension {k: f v for k, v in items}: a repeated key keeps its first position
    and takes the last value *)
Fixpoint sput {A} (k : string) (v : A) (d : list (string * A)) : list (string * A) :=
  match d with [] => [(k, v)] | (k', v') :: d' => if String.eqb k' k then (k, v) :: d' else (k', v') :: sput k v d' end.
Definition sdict {A} (l : list (string * A)) : list (string * A) := fold_left (fun d p => sput (fst p) (snd p) d) l [].
Fixpoint rfields {A} (f : json -> res A) (l : list (string * json)) : res (list (string * A)) :=
  match l with [] => Ok [] | (k, j) :: l' => v <- f j ;; vs <- rfields f l' ;; Ok ((k, v) :: vs) end.

(** from_json for types; [n] bounds the nesting depth explored *)
Fixpoint ty_from_json (n : nat) (j : json) : res ty :=
  match n with
  | O => ValueErr
  | S n =>
      match j with
      | JObj d =>
          k <- kind_of d ;;
          match k with
          | JStr k =>
              if String.eqb k "mplang.IntegerType" then
                b <- jget "bitwidth" d ;; b <- as_int b ;; s <- jget "signed" d ;; s <- as_bool s ;; mk_int b s
              else if String.eqb k "mplang.FloatType" then b <- jget "bitwidth" d ;; b <- as_int b ;; mk_float b
              else if String.eqb k "mplang.ComplexType" then i <- jget "inner_type" d ;; i <- ty_from_json n i ;; mk_complex i
              else if String.eqb k "mplang.TensorType" then
                e <- jget "element_type" d ;; e <- ty_from_json n e ;; s <- jget "shape" d ;; s <- as_ints s ;; mk_tensor e s
              else if String.eqb k "mplang.VectorType" then
                e <- jget "element_type" d ;; e <- ty_from_json n e ;; s <- jget "size" d ;; s <- as_int s ;; mk_vector e s
              else if String.eqb k "mplang.TableType" then
                s <- jget "schema" d ;; s <- as_obj s ;; s <- rfields (ty_from_json n) s ;;
                match jfind "nrows" d with
                | None => mk_table (sdict s) (-1)
                | Some r => r <- as_int r ;; mk_table (sdict s) r
                end
              else if String.eqb k "mplang.CustomType" then c <- jget "kind" d ;; c <- as_str c ;; mk_custom c
              else if String.eqb k "mplang.SSType" then
                p <- jget "secret_type" d ;; p <- ty_from_json n p ;;
                match jfind "enc_schema" d with None => Ok (TSS p "ss") | Some s => s <- as_str s ;; Ok (TSS p s) end
              else if String.eqb k "mplang.MPType" then
                v <- jget "value_type" d ;; v <- ty_from_json n v ;; p <- jget "parties" d ;;
                match p with JNull => Ok (TMP v None) | _ => l <- as_ints p ;; Ok (TMP v (Some l)) end
              else if String.eqb k "crypto.PointType" then c <- jget "curve" d ;; c <- as_str c ;; Ok (TPoint c)
              else if String.eqb k "crypto.ScalarType" then c <- jget "curve" d ;; c <- as_str c ;; Ok (TScalar c)
              else if String.eqb k "crypto.PrivateKeyType" then c <- jget "suite" d ;; c <- as_str c ;; Ok (TPrivateKey c)
              else if String.eqb k "crypto.PublicKeyType" then c <- jget "suite" d ;; c <- as_str c ;; Ok (TPublicKey c)
              else if String.eqb k "crypto.SymmetricKeyType" then c <- jget "suite" d ;; c <- as_str c ;; Ok (TSymmetricKey c)
              else if String.eqb k "bfv.KeyType" then
                c <- jget "kind" d ;; c <- as_str c ;; m <- jget "poly_modulus_degree" d ;; m <- as_int m ;; Ok (TBfvKey c m)
              else if String.eqb k "bfv.PlaintextType" then v <- jget "vector_type" d ;; v <- ty_from_json n v ;; mk_plain v
              else if String.eqb k "bfv.CiphertextType" then v <- jget "vector_type" d ;; v <- ty_from_json n v ;; mk_cipher v
              else if String.eqb k "bfv.EncoderType" then m <- jget "poly_modulus_degree" d ;; m <- as_int m ;; Ok (TBfvEncoder m)
              else if String.eqb k "tee.QuoteType" then Ok TQuote
              else if String.eqb k "tee.AttestedKeyType" then c <- jget "curve" d ;; c <- as_str c ;; Ok (TAttestedKey c)
              else if String.eqb k "tee.MeasurementType" then Ok TMeasurement
              else ValueErr
          | _ => ValueErr
          end
      | _ => ValueErr
      end
  end.
Definition type_kinds : list string :=
  ["mplang.IntegerType"; "mplang.FloatType"; "mplang.ComplexType"; "mplang.TensorType"; "mplang.VectorType";
   "mplang.TableType"; "mplang.CustomType"; "mplang.SSType"; "mplang.MPType"; "crypto.PointType"; "crypto.ScalarType";
   "crypto.PrivateKeyType"; "crypto.PublicKeyType"; "crypto.SymmetricKeyType"; "bfv.KeyType"; "bfv.PlaintextType";
   "bfv.CiphertextType"; "bfv.EncoderType"; "tee.QuoteType"; "tee.AttestedKeyType"; "tee.MeasurementType"].

(** Python equality and hashability of dict keys (None, bool, int, float, str, bytes, tuples;
    other hashable objects are not modelled as keys).  [float_int f] is the integer equal to
    the float f, if there is one. *)
Section Decode.
  Variable float_int : Z -> option Z.
  (** np.dtype(s).itemsize *)
  Variable itemsize : string -> option Z.

  Inductive num : Type := NInt (z : Z) | NFloat (f : Z).
  Definition num_of (x : pv) : option num :=
    match x with
    | PBool b => Some (NInt (if b then 1 else 0))
    | PInt z | PNpInt z => Some (NInt z)
    | PFloat f | PNpFloat f => Some (match float_int f with Some z => NInt z | None => NFloat f end)
    | _ => None
    end.
  Definition num_eqb (a b : num) : bool :=
    match a, b with NInt x, NInt y => Z.eqb x y | NFloat x, NFloat y => Z.eqb x y | _, _ => false end.
  Fixpoint key_eqb (a b : pv) : bool :=
    match num_of a, num_of b with
    | Some x, Some y => num_eqb x y
    | _, _ =>
        match a, b with
        | PNone, PNone => true
        | PStr s, PStr t => String.eqb s t
        | PBytes s, PBytes t => String.eqb s t
        | PTuple l, PTuple m =>
            (fix go (l m : list pv) : bool :=
               match l, m with [], [] => true | x :: l', y :: m' => key_eqb x y && go l' m' | _, _ => false end) l m
        | _, _ => false
        end
    end.
  Fixpoint hashable (a : pv) : bool :=
    match a with
    | PNone | PBool _ | PInt _ | PNpInt _ | PFloat _ | PNpFloat _ | PStr _ | PBytes _ => true
    | PTuple l => forallb hashable l
    | _ => false
    end.
  (** d[k] = v *)
  Fixpoint dput (k v : pv) (d : list (pv * pv)) : list (pv * pv) :=
    match d with [] => [(k, v)] | (k', v') :: d' => if key_eqb k' k then (k', v) :: d' else (k', v') :: dput k v d' end.
  Fixpoint dict_of (l : list (pv * pv)) (d : list (pv * pv)) : res pv :=
    match l with
    | [] => Ok (PDict d)
    | (k, v) :: l' => if hashable k then dict_of l' (dput k v d) else TypeErr
    end.

  Definition prod (l : list Z) : Z := fold_right Z.mul 1 l.
  (** np.frombuffer(buffer, dtype).reshape(shape); negative dimensions are not produced *)
  Definition nd_ok (d : string) (sh : list Z) (data : string) : res unit :=
    match itemsize d with
    | None => TypeErr
    | Some k =>
        let n := Z.of_nat (String.length data) in
        if (k <=? 0) || negb (n mod k =? 0) then ValueErr
        else if existsb (fun x => x <? 0) sh || negb (prod sh =? n / k) then ValueErr else Ok tt
    end.
  Definition mk_nd (d : string) (sh : list Z) (data : string) : res pv := u <- nd_ok d sh data ;; Ok (PNd d sh data).
  Definition mk_ndobj (sh : list Z) (items : list pv) : res pv :=
    if existsb (fun x => x <? 0) sh || negb (prod sh =? Z.of_nat (List.length items)) then ValueErr else Ok (PNdObj sh items).

  (** ** Graph.from_json, graph.py:404-463, on the decoded fields.
      A Value object is a position in [vnames] (its current name); [vals] is graph.values. *)
  Record builder : Type := Builder {
    vnames : list (string * ty); vals : list (string * nat); vctr : nat }.
  Fixpoint sfind {A} (k : string) (l : list (string * A)) : option A :=
    match l with [] => None | (k', v) :: l' => if String.eqb k' k then Some v else sfind k l' end.
  Fixpoint sdel {A} (k : string) (l : list (string * A)) : list (string * A) :=
    match l with [] => [] | (k', v) :: l' => if String.eqb k' k then l' else (k', v) :: sdel k l' end.
  (** graph.py:222-240 *)
  Definition add_value (b : builder) (name : string) (t : ty) : res builder :=
    match sfind name (vals b) with
    | Some _ => ValueErr
    | None => Ok (Builder (vnames b ++ [(name, t)]) (vals b ++ [(name, List.length (vnames b))]) (vctr b))
    end.
  Definition fresh_name (b : builder) : string := "%" +++ show (vctr b).
  (** graph.py:216-220, 285: the outputs of add_op *)
  Fixpoint add_outputs (b : builder) (ts : list ty) : res builder :=
    match ts with
    | [] => Ok b
    | t :: ts' => b' <- add_value (Builder (vnames b) (vals b) (S (vctr b))) (fresh_name b) t ;; add_outputs b' ts'
    end.
  (** graph.py:447-453: out_val.name = original_name, with the dictionary updates *)
  Definition rename (b : builder) (i : nat) (new : string) : res builder :=
    match nth_error (vnames b) i with
    | None => Ok b
    | Some (old, t) =>
        if String.eqb old new then Ok b
        else match sfind old (vals b) with
             | None => KeyErr
             | Some _ => Ok (Builder (upd (vnames b) i (new, t)) (sput new i (sdel old (vals b))) (vctr b))
             end
    end.
  Fixpoint renames (b : builder) (i : nat) (names : list string) : res builder :=
    match names with [] => Ok b | x :: l => b' <- rename b i x ;; renames b' (S i) l end.
  Definition lookup (b : builder) (name : string) : res nat := match sfind name (vals b) with Some i => Ok i | None => KeyErr end.
  (** the operation as built: inputs and outputs are Value objects *)
  Definition bop : Type := (gop pv * list nat * list nat)%type.
  Definition build_op (b : builder) (k : nat) (o : gop pv) : res (builder * bop) :=
    ins <- rmap (lookup b) (g_ins o) ;;
    let base := List.length (vnames b) in
    b1 <- add_outputs b (map snd (g_outs o)) ;;
    b2 <- renames b1 base (map fst (g_outs o)) ;;
    (* graph.py:288, 456-457: "op{k}" unless the data carries a non-empty name *)
    let name := if String.eqb (g_name o) "" then "op" +++ show k else g_name o in
    Ok (b2, (GOp (g_opcode o) (g_ins o) (g_outs o) (g_attrs o) (g_regions o) name, ins, seq base (List.length (g_outs o)))).
  Fixpoint build_ops (b : builder) (k : nat) (ops : list (gop pv)) : res (builder * list bop) :=
    match ops with
    | [] => Ok (b, [])
    | o :: ops' => r <- build_op b k o ;; r' <- build_ops (fst r) (S k) ops' ;; Ok (fst r', snd r :: snd r')
    end.
  Fixpoint add_inputs (b : builder) (ins : list (string * ty)) : res builder :=
    match ins with [] => Ok b | (x, t) :: ins' => b' <- add_value b x t ;; add_inputs b' ins' end.
  (** graph.py:302-310  add_output: the value must be in graph.values *)
  Definition add_out (b : builder) (name : string) : res nat := lookup b name.
  Definition name_of (b : builder) (i : nat) : string * ty := nth i (vnames b) ("", TQuote).
  Definition rebuild (ins : list (string * ty)) (ops : list (gop pv)) (outs : list string) : res pv :=
    b0 <- add_inputs (Builder [] [] 0) ins ;;
    r <- build_ops b0 0 ops ;;
    os <- rmap (add_out (fst r)) outs ;;
    let b := fst r in
    Ok (PGraph (map (name_of b) (seq 0 (List.length ins)))
               (map (fun o => let '(g, i, u) := o in
                  GOp (g_opcode g) (map (fun x => fst (name_of b x)) i) (map (name_of b) u) (g_attrs g) (g_regions g) (g_name g)) (snd r))
               (map (fun x => fst (name_of b x)) os)).

  (** graph.py:423-457: the fields of one operation *)
  Definition var_from_json (n : nat) (j : json) : res (string * ty) :=
    d <- as_obj j ;; x <- jget "name" d ;; x <- as_str x ;; t <- jget "type" d ;; t <- ty_from_json n t ;; Ok (x, t).
  Definition op_from_json (n : nat) (rec : json -> res pv) (j : json) : res (gop pv) :=
    d <- as_obj j ;; c <- jget "opcode" d ;; c <- as_str c ;;
    i <- jget "inputs" d ;; i <- as_arr i ;; i <- rmap as_str i ;;
    o <- jget "outputs" d ;; o <- as_arr o ;; o <- rmap (var_from_json n) o ;;
    a <- (match jfind "attrs" d with None => Ok [] | Some a => as_obj a end) ;; a <- rfields rec a ;;
    r <- (match jfind "regions" d with None => Ok [] | Some r => as_arr r end) ;; r <- rmap rec r ;;
    m <- (match jfind "name" d with None => Ok "" | Some m => as_str m end) ;;
    Ok (GOp c i o (sdict a) r m).
  Definition graph_from_json (n : nat) (rec : json -> res pv) (d : list (string * json)) : res pv :=
    i <- jget "inputs" d ;; i <- as_arr i ;; i <- rmap (var_from_json n) i ;;
    o <- jget "operations" d ;; o <- as_arr o ;; o <- rmap (op_from_json n rec) o ;;
    u <- jget "outputs" d ;; u <- as_arr u ;; u <- rmap as_str u ;;
    rebuild i o u.

  Definition pair_from_json (rec : json -> res pv) (j : json) : res (pv * pv) :=
    match j with JArr (a :: b :: _) => x <- rec a ;; y <- rec b ;; Ok (x, y) | JArr _ => IndexErr | _ => TypeErr end.

  (** serde.py:268-350; [n] bounds the nesting depth explored *)
  Fixpoint from_json_at (n : nat) (j : json) : res pv :=
    match n with
    | O => ValueErr
    | S n =>
        let rec := from_json_at n in
        match j with
        | JObj d =>
            k <- kind_of d ;;
            match k with
            | JStr k =>
                if String.eqb k "_null" then Ok PNone
                else if String.eqb k "_bool" then v <- jget "v" d ;; v <- as_bool v ;; Ok (PBool v)
                else if String.eqb k "_int" then v <- jget "v" d ;; v <- as_int v ;; Ok (PInt v)
                else if String.eqb k "_float" then v <- jget "v" d ;; match v with JFloat f => Ok (PFloat f) | _ => TypeErr end
                else if String.eqb k "_str" then v <- jget "v" d ;; v <- as_str v ;; Ok (PStr v)
                else if String.eqb k "_list" then l <- jget "items" d ;; l <- as_arr l ;; l <- rmap rec l ;; Ok (PList l)
                else if String.eqb k "_tuple" then l <- jget "items" d ;; l <- as_arr l ;; l <- rmap rec l ;; Ok (PTuple l)
                else if String.eqb k "_dict" then
                  l <- jget "items" d ;; l <- as_obj l ;; l <- rfields rec l ;;
                  Ok (PDict (map (fun p => (PStr (fst p), snd p)) (sdict l)))
                else if String.eqb k "_dict_pairs" then
                  l <- jget "pairs" d ;; l <- as_arr l ;; l <- rmap (pair_from_json rec) l ;; dict_of l []
                else if String.eqb k "_bytes" then v <- jget "data" d ;; v <- as_b64 v ;; Ok (PBytes v)
                else if String.eqb k "_ndarray" then
                  t <- jget "dtype" d ;; t <- as_str t ;; s <- jget "shape" d ;; s <- as_ints s ;;
                  v <- jget "data" d ;; v <- as_b64 v ;; mk_nd t s v
                else if String.eqb k "_ndarray_object" then
                  s <- jget "shape" d ;; s <- as_ints s ;; l <- jget "items" d ;; l <- as_arr l ;; l <- rmap rec l ;; mk_ndobj s l
                else if String.eqb k "_pa_table" then v <- jget "data" d ;; v <- as_b64 v ;; Ok (PTable v)
                else if String.eqb k "mplang.Graph" then graph_from_json n rec d
                else if String.eqb k "tensor_impl.TensorValue" then
                  (* tensor_impl.py:184-199 *)
                  s <- jget "shape" d ;; s <- as_ints s ;;
                  match jfind "kind" d with
                  | Some (JStr c) =>
                      if String.eqb c "object" then
                        l <- jget "items" d ;; l <- as_arr l ;; l <- rmap rec l ;; a <- mk_ndobj s l ;; Ok (PTensorObj s l)
                      else t <- jget "dtype" d ;; t <- as_str t ;; v <- jget "data" d ;; v <- as_b64 v ;; u <- nd_ok t s v ;; Ok (PTensorVal t s v)
                  | _ => t <- jget "dtype" d ;; t <- as_str t ;; v <- jget "data" d ;; v <- as_b64 v ;; u <- nd_ok t s v ;; Ok (PTensorVal t s v)
                  end
                else if String.eqb k "table_impl.TableValue" then v <- jget "ipc" d ;; v <- as_b64 v ;; Ok (PTableVal v)
                else if String.eqb k "crypto_impl.BytesValue" then v <- jget "data" d ;; v <- as_b64 v ;; Ok (PBytesVal v)
                else if String.eqb k "crypto_impl.ECPointValue" then v <- jget "data" d ;; v <- as_b64 v ;; Ok (PECPoint v)
                else if String.eqb k "crypto_impl.PrivateKeyValue" then
                  s <- jget "suite" d ;; s <- as_str s ;; v <- jget "key_bytes" d ;; v <- as_b64 v ;; Ok (PKeyVal "PrivateKeyValue" s v)
                else if String.eqb k "crypto_impl.PublicKeyValue" then
                  s <- jget "suite" d ;; s <- as_str s ;; v <- jget "key_bytes" d ;; v <- as_b64 v ;; Ok (PKeyVal "PublicKeyValue" s v)
                else if String.eqb k "crypto_impl.SymmetricKeyValue" then
                  s <- jget "suite" d ;; s <- as_str s ;; v <- jget "key_bytes" d ;; v <- as_b64 v ;; Ok (PKeyVal "SymmetricKeyValue" s v)
                else if String.eqb k "func.FunctionValue" then
                  g <- jget "graph" d ;; g <- rec g ;;
                  match jfind "name" d with None => Ok (PFunc g "anonymous") | Some m => m <- as_str m ;; Ok (PFunc g m) end
                else if existsb (String.eqb k) type_kinds then t <- ty_from_json (S n) j ;; Ok (PType t)
                else ValueErr
            | _ => ValueErr
            end
        | _ => ValueErr
        end
    end.

  (** nesting depth of a JSON value *)
  Fixpoint depth (j : json) : nat :=
    match j with
    | JArr l => S (fold_right (fun x m => Nat.max (depth x) m) O l)
    | JObj l => S (fold_right (fun p m => Nat.max (depth (snd p)) m) O l)
    | _ => 1%nat
    end.
  Definition from_json (j : json) : res pv := from_json_at (depth j) j.
End Decode.
