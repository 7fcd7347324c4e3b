(** Model of JSON text as mplang writes and reads it: json.dumps (edsl/serde.py:368,672:
    separators=(",", ":"), ASCII output; tool/program.py:230-235: indent=2, UTF-8 output;
    runtime/interpreter.py:596-601: separators=(",", ":"), UTF-8 output) and json.loads
    (edsl/serde.py:387,710; tool/program.py:293).  This is CPython's json library, so what is
    modelled is its documented behaviour: encoder escapes, item separators and indentation;
    decoder whitespace, escapes, surrogate pairs, number and word tokens, last of duplicate keys
    wins, no trailing comma, nothing but whitespace after the value.
    A model string is the UTF-8 encoding of a Python string.  Simplifications: Python strings with
    lone surrogates have no UTF-8 form and are not represented; float text is abstract ([fprint] is
    float.__repr__, [fparse] is float(...) together with the NaN/Infinity words); int and recursion
    limits of CPython (4300 digits, stack depth) are not modelled. *)
From Coq Require Import List NArith ZArith String Ascii Bool.
From Coq Require Import Decimal DecimalString DecimalN.
From Verif Require Import Base64Model CtxModel SerdeModel SerdeSpec.
Import ListNotations.
Local Open Scope string_scope.
Local Open Scope list_scope.
Local Open Scope N_scope.

(** ** UTF-8 *)
Definition chr (n : N) : ascii := ascii_of_N n.
Definition ord (c : ascii) : N := N_of_ascii c.
(** the bytes of one code point *)
Definition utf8 (cp : N) : string :=
  if cp <? 128 then String (chr cp) ""
  else if cp <? 2048 then String (chr (192 + cp / 64)) (String (chr (128 + cp mod 64)) "")
  else if cp <? 65536 then String (chr (224 + cp / 4096)) (String (chr (128 + (cp / 64) mod 64)) (String (chr (128 + cp mod 64)) ""))
  else String (chr (240 + cp / 262144)) (String (chr (128 + (cp / 4096) mod 64)) (String (chr (128 + (cp / 64) mod 64)) (String (chr (128 + cp mod 64)) ""))).
Definition cont (c : ascii) : bool := (128 <=? ord c) && (ord c <? 192).
Definition scalar_value (cp : N) : bool := (cp <? 55296) || ((57344 <=? cp) && (cp <? 1114112)).
(** bytes.decode("utf-8"), strict: shortest form, no surrogates, at most U+10FFFF *)
Fixpoint decode (s : string) : option (list N) :=
  match s with
  | "" => Some []
  | String a r =>
      if ord a <? 128 then option_map (cons (ord a)) (decode r)
      else match r with
      | String b r =>
          if (192 <=? ord a) && (ord a <? 224) then
            let cp := 64 * (ord a - 192) + (ord b - 128) in
            if cont b && (128 <=? cp) then option_map (cons cp) (decode r) else None
          else match r with
          | String c r =>
              if (224 <=? ord a) && (ord a <? 240) then
                let cp := 4096 * (ord a - 224) + 64 * (ord b - 128) + (ord c - 128) in
                if cont b && cont c && (2048 <=? cp) && scalar_value cp then option_map (cons cp) (decode r) else None
              else match r with
              | String d r =>
                  if (240 <=? ord a) && (ord a <? 248) then
                    let cp := 262144 * (ord a - 240) + 4096 * (ord b - 128) + 64 * (ord c - 128) + (ord d - 128) in
                    if cont b && cont c && cont d && (65536 <=? cp) && scalar_value cp then option_map (cons cp) (decode r) else None
                  else None
              | "" => None
              end
          | "" => None
          end
      | "" => None
      end
  end.
(** the model string stands for some Python string *)
Definition is_text (s : string) : bool := match decode s with Some _ => true | None => false end.

(** ** escapes *)
Definition hexdigit (n : N) : ascii := chr (if n <? 10 then 48 + n else 87 + n).
Definition hex4 (n : N) : string :=
  String (hexdigit (n / 4096 mod 16)) (String (hexdigit (n / 256 mod 16)) (String (hexdigit (n / 16 mod 16)) (String (hexdigit (n mod 16)) ""))).
Definition uesc (n : N) : string := String "\" (String "u" (hex4 n)).
(** json.encoder ESCAPE_DCT *)
Definition short_escape (n : N) : option ascii :=
  if n =? 34 then Some """"%char else if n =? 92 then Some "\"%char else if n =? 10 then Some "n"%char
  else if n =? 13 then Some "r"%char else if n =? 9 then Some "t"%char else if n =? 12 then Some "f"%char
  else if n =? 8 then Some "b"%char else None.
(** ensure_ascii=True, py_encode_basestring_ascii *)
Definition esc_cp (cp : N) : string :=
  match short_escape cp with
  | Some c => String "\" (String c "")
  | None =>
      if (32 <=? cp) && (cp <? 127) then String (chr cp) ""
      else if cp <? 65536 then uesc cp
      else uesc (55296 + (cp - 65536) / 1024) +++ uesc (56320 + (cp - 65536) mod 1024)
  end.
(** ensure_ascii=False, py_encode_basestring: bytes from 128 are parts of characters copied verbatim *)
Definition esc_byte (c : ascii) : string :=
  match short_escape (ord c) with
  | Some c => String "\" (String c "")
  | None => if 32 <=? ord c then String c "" else uesc (ord c)
  end.
Fixpoint cat (l : list string) : string := match l with [] => "" | s :: l' => s +++ cat l' end.
Definition esc (ensure_ascii : bool) (s : string) : string :=
  if ensure_ascii then match decode s with Some cps => cat (map esc_cp cps) | None => "" end
  else cat (map esc_byte (list_ascii_of_string s)).
Definition quote (ensure_ascii : bool) (s : string) : string := String """" (esc ensure_ascii s +++ String """" "").

(** int.__repr__ *)
Definition show_int (z : Z) : string :=
  (if (z <? 0)%Z then "-" else "") +++ NilEmpty.string_of_uint (N.to_uint (Z.abs_N z)).

(** ** the printer *)
Record style : Type := Style {
  ensure_ascii : bool;
  after_open : nat -> string;   (* between a bracket and its contents, at a nesting depth *)
  after_comma : nat -> string;
  after_colon : string }.
Definition spaces (n : nat) : string := cat (repeat " " n).
Definition newline : string := String (chr 10) "".
(** separators=(",", ":") *)
Definition compact (a : bool) : style := Style a (fun _ => "") (fun _ => "") "".
(** indent=2 (the separators are then "," and ": ") *)
Definition indented (a : bool) : style :=
  Style a (fun d => newline +++ spaces (2 * d)) (fun d => newline +++ spaces (2 * d)) " ".
(** no options *)
Definition default_style : style := Style true (fun _ => "") (fun _ => " ") " ".

Section Text.
  Variable fprint : Z -> string.
  Variable fparse : string -> option Z.

  Section Print.
    Variable st : style.
    Section Items.
      Variable f : json -> string.
      Variable d : nat.
      Fixpoint items (l : list json) : string :=
        match l with
        | [] => ""
        | x :: l' => f x +++ match l' with [] => "" | _ => String "," (after_comma st d +++ items l') end
        end.
      Definition json_member (p : string * json) : string :=
        quote (ensure_ascii st) (fst p) +++ String ":" (after_colon st +++ f (snd p)).
      Fixpoint members (l : list (string * json)) : string :=
        match l with
        | [] => ""
        | p :: l' => json_member p +++ match l' with [] => "" | _ => String "," (after_comma st d +++ members l') end
        end.
    End Items.
    Fixpoint pr (d : nat) (j : json) : string :=
      match j with
      | JNull => "null" | JBool true => "true" | JBool false => "false"
      | JInt z => show_int z | JFloat f => fprint f | JStr s => quote (ensure_ascii st) s
      | JArr [] => "[]" | JObj [] => "{}"
      | JArr l => String "[" (after_open st (S d) +++ (items (pr (S d)) (S d) l +++ (after_open st d +++ String "]" "")))
      | JObj l => String "{" (after_open st (S d) +++ (members (pr (S d)) (S d) l +++ (after_open st d +++ String "}" "")))
      end.
  End Print.
  (** json.dumps *)
  Definition json_dumps (st : style) (j : json) : string := pr st 0 j.

  (** ** the parser *)
  Definition is_ws (c : ascii) : bool := (ord c =? 32) || (ord c =? 9) || (ord c =? 10) || (ord c =? 13).
  Fixpoint skip (s : string) : string := match s with "" => "" | String c r => if is_ws c then skip r else s end.
  Definition hexval (c : ascii) : option N :=
    let n := ord c in
    if (48 <=? n) && (n <? 58) then Some (n - 48)
    else if (97 <=? n) && (n <? 103) then Some (n - 87)
    else if (65 <=? n) && (n <? 71) then Some (n - 55) else None.
  Definition hexval4 (a b c d : ascii) : option N :=
    match hexval a, hexval b, hexval c, hexval d with
    | Some a, Some b, Some c, Some d => Some (4096 * a + 256 * b + 16 * c + d)
    | _, _, _, _ => None
    end.
  Definition unescape (c : ascii) : option ascii :=
    if ascii_dec c """" then Some """"%char else if ascii_dec c "\" then Some "\"%char else if ascii_dec c "/" then Some "/"%char
    else if ascii_dec c "b" then Some (chr 8) else if ascii_dec c "f" then Some (chr 12) else if ascii_dec c "n" then Some (chr 10)
    else if ascii_dec c "r" then Some (chr 13) else if ascii_dec c "t" then Some (chr 9) else None.
  (** the text after an opening quote: the string and what follows the closing quote.  A lone
      surrogate escape is accepted by CPython; here it is rejected, the result has no UTF-8 form. *)
  Fixpoint pstr (s : string) : option (string * string) :=
    match s with
    | "" => None
    | String c r =>
        if ascii_dec c """" then Some ("", r)
        else if ascii_dec c "\" then
          match r with
          | String "u" (String h1 (String h2 (String h3 (String h4 r)))) =>
              match hexval4 h1 h2 h3 h4 with
              | None => None
              | Some n =>
                  if (55296 <=? n) && (n <? 56320) then
                    match r with
                    | String "\" (String "u" (String k1 (String k2 (String k3 (String k4 r))))) =>
                        match hexval4 k1 k2 k3 k4 with
                        | None => None
                        | Some m =>
                            if (56320 <=? m) && (m <? 57344) then
                              option_map (fun p => (utf8 (65536 + 1024 * (n - 55296) + (m - 56320)) +++ fst p, snd p)) (pstr r)
                            else None
                        end
                    | _ => None
                    end
                  else if (56320 <=? n) && (n <? 57344) then None
                  else option_map (fun p => (utf8 n +++ fst p, snd p)) (pstr r)
              end
          | String e r => match unescape e with
                          | None => None
                          | Some c => option_map (fun p => (String c (fst p), snd p)) (pstr r)
                          end
          | "" => None
          end
        else if ord c <? 32 then None
        else option_map (fun p => (String c (fst p), snd p)) (pstr r)
    end.

  (** characters of the tokens: numbers, null, true, false, NaN, Infinity *)
  Definition is_tok (c : ascii) : bool :=
    let n := ord c in ((48 <=? n) && (n <? 58)) || ((65 <=? n) && (n <? 91)) || ((97 <=? n) && (n <? 123)) || (n =? 43) || (n =? 45) || (n =? 46).
  Fixpoint token (s : string) : string * string :=
    match s with
    | "" => ("", "")
    | String c r => if is_tok c then let p := token r in (String c (fst p), snd p) else ("", s)
    end.
  (** (-?(?:0|[1-9]\d* )) *)
  Definition nat_lit (s : string) : option N :=
    match NilEmpty.uint_of_string s with
    | Some d => if Decimal.uint_beq (unorm d) d then Some (N.of_uint d) else None
    | None => None
    end.
  Definition int_lit (s : string) : option Z :=
    match s with
    | String "-" r => option_map (fun n => (- Z.of_N n)%Z) (nat_lit r)
    | _ => option_map Z.of_N (nat_lit s)
    end.
  Definition word (s : string) : option json :=
    if String.eqb s "null" then Some JNull else if String.eqb s "true" then Some (JBool true)
    else if String.eqb s "false" then Some (JBool false)
    else match int_lit s with
         | Some z => Some (JInt z)
         | None => option_map JFloat (fparse s)
         end.

  (** json.decoder: [fuel] bounds the nesting and the number of items; the length of the text is enough *)
  Fixpoint pval (fuel : nat) (s : string) : option (json * string) :=
    match fuel with
    | O => None
    | S n =>
        match skip s with
        | "" => None
        | String c r =>
            if ascii_dec c """" then option_map (fun p => (JStr (fst p), snd p)) (pstr r)
            else if ascii_dec c "[" then
              match skip r with
              | String "]" r' => Some (JArr [], r')
              | _ => option_map (fun p => (JArr (fst p), snd p)) (pitems n r)
              end
            else if ascii_dec c "{" then
              match skip r with
              | String "}" r' => Some (JObj [], r')
              | _ => option_map (fun p => (JObj (sdict (fst p)), snd p)) (pmembers n r)
              end
            else let p := token (String c r) in option_map (fun j => (j, snd p)) (word (fst p))
        end
    end
  with pitems (fuel : nat) (s : string) : option (list json * string) :=
    match fuel with
    | O => None
    | S n =>
        match pval n s with
        | None => None
        | Some (x, r) =>
            match skip r with
            | String "," r' => option_map (fun p => (x :: fst p, snd p)) (pitems n r')
            | String "]" r' => Some ([x], r')
            | _ => None
            end
        end
    end
  with pmembers (fuel : nat) (s : string) : option (list (string * json) * string) :=
    match fuel with
    | O => None
    | S n =>
        match skip s with
        | String """" r =>
            match pstr r with
            | None => None
            | Some (k, r) =>
                match skip r with
                | String ":" r =>
                    match pval n r with
                    | None => None
                    | Some (x, r) =>
                        match skip r with
                        | String "," r' => option_map (fun p => ((k, x) :: fst p, snd p)) (pmembers n r')
                        | String "}" r' => Some ([(k, x)], r')
                        | _ => None
                        end
                    end
                | _ => None
                end
            end
        | _ => None
        end
    end.
  (** json.loads *)
  Definition json_loads (s : string) : option json :=
    match pval (S (String.length s)) s with
    | Some (j, r) => if String.eqb (skip r) "" then Some j else None
    | None => None
    end.
End Text.

(** json.loads(data.decode("utf-8")), serde.py:387,710, program.py:293: undecodable bytes raise UnicodeDecodeError, a ValueError *)
Definition loads_bytes (fparse : string -> option Z) (s : string) : option json := if is_text s then json_loads fparse s else None.

(** serde.py:358-388 dumps, loads; [gz], [gunzip] are gzip.compress and gzip.decompress, or the identity
    for compress=False.  Errors of gzip are not distinguished from ValueError. *)
Definition dumps (fprint : Z -> string) (gz : string -> string) (x : pv) : string := gz (json_dumps fprint (compact true) (to_json x)).
Definition loads (float_int : Z -> option Z) (itemsize : string -> option Z) (fparse : string -> option Z) (gunzip : string -> option string) (s : string) : res pv :=
  match gunzip s with
  | None => ValueErr
  | Some t => match loads_bytes fparse t with None => ValueErr | Some j => from_json float_int itemsize j end
  end.
(** serde.py:391-416 dumps_b64, loads_b64 *)
Definition dumps_b64 (fprint : Z -> string) (gz : string -> string) (x : pv) : string := b64enc (dumps fprint gz x).
Definition loads_b64 (float_int : Z -> option Z) (itemsize : string -> option Z) (fparse : string -> option Z) (gunzip : string -> option string) (s : string) : res pv :=
  match b64dec s with None => ValueErr | Some t => loads float_int itemsize fparse gunzip t end.

Fixpoint all_tok (s : string) : bool := match s with "" => true | String c r => is_tok c && all_tok r end.
(** a token that is read as [j] *)
Definition reads (fparse : string -> option Z) (s : string) (j : json) : Prop := s <> "" /\ all_tok s = true /\ word fparse s = Some j.
(** float.__repr__ writes digits, signs, a point, exponents or the words nan/inf (as NaN, Infinity),
    never an integer literal, and float() reads them back *)
Definition float_text (fprint : Z -> string) (fparse : string -> option Z) : Prop := forall f, reads fparse (fprint f) (JFloat f).

(** ** what can be written and read back: every Python dict has distinct keys, every string is text *)
Fixpoint json_ok (j : json) : Prop :=
  match j with
  | JStr s => is_text s = true
  | JArr l => all json_ok l
  | JObj l => NoDup (map fst l) /\ all (fun p => is_text (fst p) = true /\ json_ok (snd p)) l
  | _ => True
  end.

(** every string held by a type or a value is Unicode text (in Python it always is, lone surrogates apart) *)
Fixpoint text_ty (t : ty) : Prop :=
  match t with
  | TComplex i => text_ty i
  | TTensor e _ | TVector e _ => text_ty e
  | TTable sch _ => all (fun p => is_text (fst p) = true /\ text_ty (snd p)) sch
  | TSS p s => text_ty p /\ is_text s = true
  | TMP v _ | TBfvPlain v | TBfvCipher v => text_ty v
  | TCustom s | TPoint s | TScalar s | TPrivateKey s | TPublicKey s | TSymmetricKey s | TBfvKey s _ | TAttestedKey s => is_text s = true
  | TInt _ _ | TFloat _ | TBfvEncoder _ | TQuote | TMeasurement => True
  end.
Definition text_vals (l : list (string * ty)) : Prop := all (fun p => is_text (fst p) = true /\ text_ty (snd p)) l.
Definition texts (l : list string) : Prop := all (fun s => is_text s = true) l.
Fixpoint text_pv (x : pv) : Prop :=
  match x with
  | PStr s => is_text s = true
  | PNd d _ _ | PArrayLike d _ _ | PTensorVal d _ _ => is_text d = true
  | PNdObj _ l | PList l | PTuple l | PTensorObj _ l => all text_pv l
  | PDict items => all (fun p => text_pv (fst p) /\ text_pv (snd p)) items
  | PType t => text_ty t
  | PGraph ins ops outs =>
      text_vals ins
      /\ all (fun o => is_text (g_opcode o) = true /\ is_text (g_name o) = true /\ texts (g_ins o) /\ text_vals (g_outs o)
                       /\ all (fun p => is_text (fst p) = true /\ text_pv (snd p)) (g_attrs o) /\ all text_pv (g_regions o)) ops
      /\ texts outs
  | PKeyVal k s _ => is_text s = true
  | PFunc g n => text_pv g /\ is_text n = true
  | PNone | PBool _ | PInt _ | PFloat _ | PNpInt _ | PNpFloat _ | PTable _ | PFrame _ | PBytes _ | PTableVal _ | PBytesVal _ | PECPoint _ => True
  end.
