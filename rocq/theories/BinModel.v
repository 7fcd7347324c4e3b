(** Model of the binary container of edsl/serde.py:448-730 (BinaryContext, _to_binary_json,
    _from_binary_json, dumps_binary, loads_binary) and of the binary forms of TensorValue
    (tensor_impl.py:156-231) and TableValue (table_impl.py:595-633).
    JSON text is abstract: [print] is json.dumps(...).encode("utf-8"), [parse] is
    json.loads(data.decode("utf-8")), with None for UnicodeDecodeError/JSONDecodeError. *)
From Coq Require Import List NArith ZArith String Ascii Bool.
From Verif Require Import Base64Model CtxModel SerdeModel.
Import ListNotations.
Local Open Scope string_scope.
Local Open Scope list_scope.
Local Open Scope Z_scope.

(** a list comprehension whose items append segments: [f x i] encodes x when i segments exist *)
Definition thread {A B} (f : A -> nat -> B * list string) : list A -> nat -> list B * list string :=
  fix go (l : list A) (i : nat) : list B * list string :=
    match l with
    | [] => ([], [])
    | x :: l' => let r := f x i in
                 let r' := go l' (i + List.length (snd r))%nat in
                 (fst r :: fst r', snd r ++ snd r')
    end.
Definition bref (i : nat) : json := JInt (Z.of_nat i).

(** serde.py:470-578; the result is the metadata and the segments added *)
Fixpoint benc (x : pv) (i : nat) : json * list string :=
  match x with
  | PNone => (btag "_null" [], [])
  | PBool b => (btag "_bool" [("v", JBool b)], [])
  | PInt z | PNpInt z => (btag "_int" [("v", JInt z)], [])
  | PFloat f | PNpFloat f => (btag "_float" [("v", JFloat f)], [])
  | PStr s => (btag "_str" [("v", JStr s)], [])
  | PNd d sh data | PArrayLike d sh data =>
      (btag "_ndarray_bref" [("dtype", JStr d); ("shape", JArr (map JInt sh)); ("bref", bref i)], [data])
  | PNdObj sh items => let r := thread benc items i in
      (btag "_ndarray_object" [("shape", JArr (map JInt sh)); ("items", JArr (fst r))], snd r)
  | PBytes s => (btag "_bytes_bref" [("bref", bref i)], [s])
  | PTable ipc | PFrame ipc => (btag "_pa_table_bref" [("bref", bref i)], [ipc])
  | PList l => let r := thread benc l i in (btag "_list" [("items", JArr (fst r))], snd r)
  | PTuple l => let r := thread benc l i in (btag "_tuple" [("items", JArr (fst r))], snd r)
  | PDict items =>
      if existsb (fun p => negb (is_str (fst p))) items
      then let r := thread (fun (p : pv * pv) i =>
             let a := benc (fst p) i in let b := benc (snd p) (i + List.length (snd a))%nat in
             (JArr [fst a; fst b], snd a ++ snd b)) items i in
           (btag "_dict_pairs" [("pairs", JArr (fst r))], snd r)
      else let r := thread (fun (p : pv * pv) i => let b := benc (snd p) i in ((str_of (fst p), fst b), snd b)) items i in
           (btag "_dict" [("items", JObj (fst r))], snd r)
  | PTensorVal d sh data => (tag "tensor_impl.TensorValue"
      [("kind", JStr "numeric_bref"); ("dtype", JStr d); ("shape", JArr (map JInt sh)); ("bref", bref i)], [data])
  | PTensorObj sh items => let r := thread benc items i in
      (tag "tensor_impl.TensorValue" [("kind", JStr "object"); ("shape", JArr (map JInt sh)); ("items", JArr (fst r))], snd r)
  | PTableVal ipc => (tag "table_impl.TableValue" [("ipc_bref", bref i)], [ipc])
  | _ => (to_json x, [])
  end.

Definition seg_of (segs : list string) (j : json) : res string :=
  z <- as_int j ;;
  let z' := if z <? 0 then z + Z.of_nat (List.length segs) else z in
  if z' <? 0 then IndexErr else
  match nth_error segs (Z.to_nat z') with Some s => Ok s | None => IndexErr end.

Section Dec.
  Variable float_int : Z -> option Z.
  Variable itemsize : string -> option Z.
  Variable segs : list string.

  (** serde.py:581-643; [n] bounds the nesting depth explored *)
  Fixpoint bdec (n : nat) (j : json) : res pv :=
    match n with
    | O => ValueErr
    | S m =>
        let rec := bdec m in
        match j with
        | JObj d =>
            k <- kind_of d ;;
            match k with
            | JStr k =>
                if String.eqb k "_bytes_bref" then r <- jget "bref" d ;; s <- seg_of segs r ;; Ok (PBytes s)
                else if String.eqb k "_ndarray_bref" then
                  r <- jget "bref" d ;; s <- seg_of segs r ;; t <- jget "dtype" d ;; t <- as_str t ;;
                  sh <- jget "shape" d ;; sh <- as_ints sh ;; mk_nd itemsize t sh s
                else if String.eqb k "_pa_table_bref" then r <- jget "bref" d ;; s <- seg_of segs r ;; Ok (PTable s)
                else if String.eqb k "_list" then l <- jget "items" d ;; l <- as_arr l ;; l <- rmap rec l ;; Ok (PList l)
                else if String.eqb k "_tuple" then l <- jget "items" d ;; l <- as_arr l ;; l <- rmap rec l ;; Ok (PTuple l)
                else if String.eqb k "_dict" then
                  l <- jget "items" d ;; l <- as_obj l ;; l <- rfields rec l ;;
                  Ok (PDict (map (fun p => (PStr (fst p), snd p)) (sdict l)))
                else if String.eqb k "_dict_pairs" then
                  l <- jget "pairs" d ;; l <- as_arr l ;; l <- rmap (pair_from_json rec) l ;; dict_of float_int l []
                else if String.eqb k "_ndarray_object" then
                  s <- jget "shape" d ;; s <- as_ints s ;; l <- jget "items" d ;; l <- as_arr l ;; l <- rmap rec l ;; mk_ndobj s l
                else if String.eqb k "tensor_impl.TensorValue" then
                  s <- jget "shape" d ;; s <- as_ints s ;;
                  match jfind "kind" d with
                  | Some (JStr c) =>
                      if String.eqb c "object" then
                        l <- jget "items" d ;; l <- as_arr l ;; l <- rmap rec l ;; a <- mk_ndobj s l ;; Ok (PTensorObj s l)
                      else if String.eqb c "numeric_bref" then
                        r <- jget "bref" d ;; v <- seg_of segs r ;; t <- jget "dtype" d ;; t <- as_str t ;;
                        u <- nd_ok itemsize t s v ;; Ok (PTensorVal t s v)
                      else v <- jget "data" d ;; v <- as_b64 v ;; t <- jget "dtype" d ;; t <- as_str t ;; u <- nd_ok itemsize t s v ;; Ok (PTensorVal t s v)
                  | _ => v <- jget "data" d ;; v <- as_b64 v ;; t <- jget "dtype" d ;; t <- as_str t ;; u <- nd_ok itemsize t s v ;; Ok (PTensorVal t s v)
                  end
                else if String.eqb k "table_impl.TableValue" then
                  (* table_impl.py:616-633 *)
                  match jfind "ipc_bref" d with
                  | Some r => s <- seg_of segs r ;; Ok (PTableVal s)
                  | None => v <- jget "ipc" d ;; v <- as_b64 v ;; Ok (PTableVal v)
                  end
                else from_json_at float_int itemsize (S m) j
            | _ => ValueErr
            end
        | _ => ValueErr
        end
    end.
End Dec.

(** struct.pack("<I", n): struct.error (here TypeErr) from 2^32 *)
Definition byte (n : N) : ascii := ascii_of_N (n mod 256).
Definition pack32 (n : N) : res string :=
  if (n <? 2 ^ 32)%N then Ok (String (byte n) (String (byte (n / 256)) (String (byte (n / 65536)) (String (byte (n / 16777216)) ""))))
  else TypeErr.
(** struct.unpack_from("<I", data, 0) and the rest *)
Definition unpack32 (s : string) : option (N * string) :=
  match s with
  | String a (String b (String c (String d r))) =>
      Some ((N_of_ascii a + 256 * N_of_ascii b + 65536 * N_of_ascii c + 16777216 * N_of_ascii d)%N, r)
  | _ => None
  end.
Definition slen (s : string) : N := N.of_nat (String.length s).
Definition stake (n : nat) (s : string) : string := substring 0 n s.
Fixpoint sdrop (n : nat) (s : string) : string :=
  match n, s with O, _ => s | S n', String _ s' => sdrop n' s' | _, EmptyString => EmptyString end.

Section Container.
  Variable float_int : Z -> option Z.
  Variable itemsize : string -> option Z.
  Variable print : json -> string.
  Variable parse : string -> option json.

  (** length-prefixed part *)
  Definition part (s : string) : res string := h <- pack32 (slen s) ;; Ok (h +++ s).
  Fixpoint parts (l : list string) : res string :=
    match l with [] => Ok "" | s :: l' => p <- part s ;; q <- parts l' ;; Ok (p +++ q) end.
  (** serde.py:646-681 *)
  Definition dumps_binary (x : pv) : res string := let r := benc x 0 in parts (print (fst r) :: snd r).

  (** serde.py:720-728; every iteration consumes at least 4 bytes *)
  Fixpoint segments (fuel : nat) (s : string) : res (list string) :=
    match s with
    | "" => Ok []
    | _ =>
        match fuel with
        | O => ValueErr
        | S f =>
            match unpack32 s with
            | None => ValueErr
            | Some (n, r) =>
                if (slen r <? n)%N then ValueErr
                else ss <- segments f (sdrop (N.to_nat n) r) ;; Ok (stake (N.to_nat n) r :: ss)
            end
        end
    end.
  (** serde.py:684-730; json.loads runs before the segments are read *)
  Definition loads_binary (s : string) : res pv :=
    match unpack32 s with
    | None => ValueErr
    | Some (n, r) =>
        if (slen r <? n)%N then ValueErr
        else match parse (stake (N.to_nat n) r) with
             | None => ValueErr
             | Some meta => segs <- segments (String.length r) (sdrop (N.to_nat n) r) ;;
                            bdec float_int itemsize segs (depth meta) meta
             end
    end.
End Container.
