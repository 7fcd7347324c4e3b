(** Model of compiled program artifacts: edsl/program.py (CompiledProgram, FlatIOSignature,
    compute_graph_digest) and tool/program.py (compile_program, pack, unpack and the validator).

    Graphs and JSON values are those of SerdeModel.  An archive is the list of its members; tar,
    gzip and UTF-8 are not modelled, [print] and [parse] stand for json.dumps and json.loads (given concretely in JsonText.v). *)
From Coq Require Import List ZArith String Ascii Bool.
From Verif Require Import CtxModel SerdeModel MorphModel.
Import ListNotations.
Local Open Scope string_scope.
Local Open Scope list_scope.
Local Open Scope Z_scope.

(** json.dumps(j, sort_keys=True): the keys of every object in order *)
Fixpoint sort_json (j : json) : json :=
  match j with
  | JArr l => JArr (map sort_json l)
  | JObj l => JObj (sort_keys (map (fun p => (fst p, sort_json (snd p))) l))
  | _ => j
  end.

(** edsl/program.py:26-77; created_at, mplang_version and name are whatever JSON value was read;
    the signature's kind is a class constant *)
Record program : Type := Program {
  p_graph : pv; p_inputs : Z; p_outputs : Z; p_opcodes : list json; p_digest : string;
  p_world : option Z; p_created : json; p_version : json; p_schema : Z; p_name : json }.

(** a member of the archive: name, is it a regular file, content *)
Record member : Type := Member { m_name : string; m_file : bool; m_data : string }.

(** what the tracer hands over: TracedFunction.graph, captured, out_imms, in_var_pos, name *)
Record traced : Type := Traced {
  t_graph : pv; t_captured : list pv; t_out_imms : list pv; t_in_var_pos : list nat; t_name : string }.

Section Program.
  Variable float_int : Z -> option Z.        (* as in SerdeModel *)
  Variable itemsize : string -> option Z.
  Variable float_trunc : Z -> res Z.         (* int(float) *)
  Variable str_int : string -> res Z.        (* int(str), int(bytes) *)
  Variable py_str : json -> string.          (* str(x) of a JSON value that is not a string *)
  Variable sha : json -> string.             (* sha256 of json.dumps(j, separators=...) of a sorted j *)
  Variable print : json -> string.           (* json.dumps(j, indent=2) *)
  Variable parse : string -> option json.    (* json.loads *)

  (** int(x) for an attribute value; arrays are not modelled here *)
  Definition pv_int (x : pv) : res Z :=
    match x with
    | PInt z | PNpInt z => Ok z
    | PBool b => Ok (if b then 1 else 0)
    | PFloat f | PNpFloat f => float_trunc f
    | PStr s | PBytes s => str_int s
    | _ => TypeErr
    end.
  (** int(x) for a JSON value *)
  Definition json_int (j : json) : res Z :=
    match j with
    | JInt z => Ok z
    | JBool b => Ok (if b then 1 else 0)
    | JFloat f => float_trunc f
    | JStr s => str_int s
    | _ => TypeErr
    end.

  (** tool/program.py:41-58: the graph and the regions below it, a popped stack order (the last
      region first).  A region shared by two operations is listed twice, which changes no result. *)
  Fixpoint iter_graphs (g : pv) : list pv :=
    g :: match g with
         | PGraph _ ops _ => fold_right (fun o acc => acc ++ fold_right (fun r acc => acc ++ iter_graphs r) [] (g_regions o)) [] ops
         | _ => []
         end.
  (** graph.operations; anything but a graph has no such attribute *)
  Definition ops_of (g : pv) : res (list (gop pv)) := match g with PGraph _ ops _ => Ok ops | _ => TypeErr end.
  Definition all_ops (g : pv) : res (list (gop pv)) := l <- rmap ops_of (iter_graphs g) ;; Ok (List.concat l).

  (** set.add, and sorted(set) *)
  Definition add_str (s : string) (l : list string) : list string := if existsb (String.eqb s) l then l else s :: l.
  Fixpoint insert_str (s : string) (l : list string) : list string :=
    match l with [] => [s] | x :: l' => if String.leb s x then s :: l else x :: insert_str s l' end.
  Definition sorted (l : list string) : list string := fold_right insert_str [] l.
  (** 61-66 *)
  Definition collect_opcodes (g : pv) : res (list string) :=
    ops <- all_ops g ;; Ok (fold_left (fun s o => add_str (g_opcode o) s) ops []).
  (** 69-88 *)
  Definition op_parties (o : gop pv) : res (list Z) :=
    match sfind "parties" (g_attrs o) with
    | None | Some PNone => Ok []
    | Some (PList l) | Some (PTuple l) => rmap (fun p => z <- pv_int p ;; if z <? 0 then ValueErr else Ok z) l
    | Some _ => TypeErr
    end.
  Definition collect_parties (g : pv) : res (list Z) :=
    ops <- all_ops g ;; ps <- rmap op_parties ops ;; Ok (List.concat ps).
  (** 91-95 *)
  Definition required_world_size (g : pv) : res Z :=
    ps <- collect_parties g ;; Ok (match ps with [] => 0 | p :: ps => fold_left Z.max ps p + 1 end).

  (** edsl/program.py:127-134 *)
  Definition graph_digest (g : pv) : string := sha (sort_json (to_json g)).
  Definition graph_ins (g : pv) : res (list (string * ty)) := match g with PGraph i _ _ => Ok i | _ => TypeErr end.
  Definition graph_outs (g : pv) : res (list string) := match g with PGraph _ _ o => Ok o | _ => TypeErr end.
  Definition len {A : Type} (l : list A) : Z := Z.of_nat (List.length l).

  (** tool/program.py:98-120 *)
  Definition validate_traced (t : traced) : res unit :=
    match t_captured t, t_out_imms t with
    | [], [] => i <- graph_ins (t_graph t) ;; if len i =? len (t_in_var_pos t) then Ok tt else ValueErr
    | _, _ => ValueErr
    end.
  (** 166-214; [name] is the argument, None if not given; name or traced.name: an empty name counts as none *)
  Definition compile (now version : json) (name : option string) (t : traced) : res program :=
    _ <- validate_traced t ;;
    i <- graph_ins (t_graph t) ;; o <- graph_outs (t_graph t) ;;
    ops <- collect_opcodes (t_graph t) ;;
    w <- required_world_size (t_graph t) ;;
    Ok (Program (t_graph t) (len i) (len o) (map JStr (sorted ops)) (graph_digest (t_graph t)) (Some w) now version 1
          (JStr (match name with Some n => if String.eqb n "" then t_name t else n | None => t_name t end))).

  (** sorted(required_opcodes) == expected; entries that are not strings never compare equal (Python
      raises a TypeError instead if they cannot be ordered) *)
  Fixpoint strings (l : list json) : option (list string) :=
    match l with [] => Some [] | JStr s :: l => option_map (cons s) (strings l) | _ :: _ => None end.
  Fixpoint str_list_eqb (a b : list string) : bool :=
    match a, b with [], [] => true | x :: a, y :: b => String.eqb x y && str_list_eqb a b | _, _ => false end.
  Definition same_opcodes (required : list json) (expected : list string) : bool :=
    match strings required with Some l => str_list_eqb (sorted l) expected | None => false end.
  (** 123-163 *)
  Definition validate (p : program) : res unit :=
    i <- graph_ins (p_graph p) ;; o <- graph_outs (p_graph p) ;;
    if negb (p_inputs p =? len i) then ValueErr
    else if negb (p_outputs p =? len o) then ValueErr
    else
      ops <- collect_opcodes (p_graph p) ;;
      if negb (same_opcodes (p_opcodes p) (sorted ops)) then ValueErr
      else if negb (String.eqb (p_digest p) "") && negb (String.eqb (p_digest p) (graph_digest (p_graph p))) then ValueErr
      else
        w <- required_world_size (p_graph p) ;;
        match p_world p with
        | None => Ok tt
        | Some v => if v =? w then Ok tt else ValueErr
        end.

  (** edsl/program.py:38-43, 80-91 and serde.py:159-162 *)
  Definition program_to_json (p : program) : json :=
    tag "mplang.CompiledProgram"
      [("schema_version", JInt (p_schema p)); ("name", p_name p); ("graph", to_json (p_graph p));
       ("signature", JObj [("kind", JStr "flat_list_v0"); ("input_arity", JInt (p_inputs p)); ("output_arity", JInt (p_outputs p))]);
       ("required_opcodes", JArr (p_opcodes p)); ("graph_digest", JStr (p_digest p));
       ("required_world_size", match p_world p with Some w => JInt w | None => JNull end);
       ("created_at", p_created p); ("mplang_version", p_version p)].
  (** data.get(k) *)
  Definition jget_or_null (k : string) (d : list (string * json)) : json := match jfind k d with Some v => v | None => JNull end.
  (** list(x) of a JSON value; a string is taken byte by byte *)
  Definition as_list (j : json) : res (list json) :=
    match j with
    | JArr l => Ok l
    | JStr s => Ok (map (fun c => JStr (String c EmptyString)) (list_ascii_of_string s))
    | JObj l => Ok (map (fun p => JStr (fst p)) l)
    | _ => TypeErr
    end.
  Definition as_pystr (j : json) : string := match j with JStr s => s | _ => py_str j end.
  (** 45-52 *)
  Definition signature_from_json (j : json) : res (Z * Z) :=
    d <- as_obj j ;;
    match jfind "kind" d with
    | Some (JStr k) =>
        if String.eqb k "flat_list_v0" then
          i <- jget "input_arity" d ;; i <- json_int i ;; o <- jget "output_arity" d ;; o <- json_int o ;; Ok (i, o)
        else ValueErr
    | _ => ValueErr
    end.
  (** 93-124 *)
  Definition program_of_fields (d : list (string * json)) : res program :=
    v <- jget "schema_version" d ;; v <- json_int v ;;
    if negb (v =? 1) then ValueErr
    else
      g <- jget "graph" d ;; g <- from_json float_int itemsize g ;;
      _ <- graph_ins g ;;                          (* isinstance(graph, Graph) *)
      s <- jget "signature" d ;; s <- signature_from_json s ;;
      w <- (match jget_or_null "required_world_size" d with JNull => Ok None | w => z <- json_int w ;; Ok (Some z) end) ;;
      ops <- as_list (match jfind "required_opcodes" d with Some l => l | None => JArr [] end) ;;
      dg <- jget "graph_digest" d ;;
      Ok (Program g (fst s) (snd s) ops (as_pystr dg) w (jget_or_null "created_at" d) (jget_or_null "mplang_version" d) v (jget_or_null "name" d)).
  (** serde.from_json and the isinstance check, tool/program.py:299-303; every other value is refused *)
  Definition program_from_json (j : json) : res program :=
    d <- as_obj j ;; k <- kind_of d ;;
    match k with
    | JStr k =>
        if String.eqb k "mplang.CompiledProgram" then program_of_fields d
        else v <- from_json float_int itemsize j ;; TypeErr
    | _ => ValueErr
    end.

  (** tool/program.py:217-245 *)
  Definition pack (p : program) : list member := [Member "artifact.json" true (print (sort_json (program_to_json p)))].
  (** tarfile.getmember: the last member of that name *)
  Definition getmember (name : string) (a : list member) : option member :=
    fold_left (fun acc m => if String.eqb (m_name m) name then Some m else acc) a None.
  (** 263-306 *)
  Definition unpack (limit : Z) (a : list member) : res program :=
    match getmember "artifact.json" a with
    | None => ValueErr
    | Some m =>
        if negb (m_file m) then ValueErr
        else if limit <? Z.of_nat (String.length (m_data m)) then ValueErr
        else match parse (m_data m) with
             | None => ValueErr
             | Some j => p <- program_from_json j ;; _ <- validate p ;; Ok p
             end
    end.
End Program.
