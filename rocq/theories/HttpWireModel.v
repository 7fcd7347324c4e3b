(** A message between two HTTP workers: backends/simp_worker/http.py:368-465 (_do_send), 766-838
    (the route PUT /comm/{key}), 599-613 (_decode_binary_payload), with the parts of httpx,
    uvicorn and Starlette that carry the key in the URL (written from their sources):
    httpx._urlparse (splitting, normalize_path, quote), uvicorn's percent-decoding of the path,
    Starlette's route pattern ^/comm/(?P<key>[^/]+)$.

    Simplified: strings are bytes (a key is its UTF-8 encoding); percent escapes that decode to
    invalid UTF-8, which uvicorn replaces by U+FFFD, are kept as bytes; the limit of 65536
    characters for a URL is left out; the base URL has no path of its own. *)
From Coq Require Import String Ascii List Bool Arith NArith ZArith.
From Coq Require Import DecimalString.
From Verif Require Import Base64Model CtxModel SerdeModel BinModel JsonText.
Import ListNotations.
Local Open Scope string_scope.
Local Open Scope list_scope.
Local Open Scope nat_scope.

(** *** The key in the URL *)

Definition hex_value (c : ascii) : option nat :=
  let n := nat_of_ascii c in
  if (48 <=? n) && (n <=? 57) then Some (n - 48)
  else if (65 <=? n) && (n <=? 70) then Some (n - 55)
  else if (97 <=? n) && (n <=? 102) then Some (n - 87)
  else None.
Definition hex_digit (n : nat) : ascii := ascii_of_nat (if n <? 10 then 48 + n else 55 + n).
Definition is_hex (c : ascii) : bool := match hex_value c with Some _ => true | None => false end.

(** httpx: URL_REGEX, the path ends before the first ? or # *)
Fixpoint url_path (s : string) : string :=
  match s with
  | "" => ""
  | String c r => if Ascii.eqb c "?" || Ascii.eqb c "#" then "" else String c (url_path r)
  end.
(** httpx: "non-printable ASCII character in URL" *)
Definition printable (c : ascii) : bool := let n := nat_of_ascii c in (32 <=? n) && negb (n =? 127).
Fixpoint all_chars (p : ascii -> bool) (s : string) : bool := match s with "" => true | String c r => p c && all_chars p r end.

(** str.split("/"), "/".join *)
Fixpoint split_slash (s : string) : list string :=
  match s with
  | "" => [""]
  | String c r => if Ascii.eqb c "/" then "" :: split_slash r
                  else match split_slash r with x :: l => String c x :: l | [] => [String c ""] end
  end.
Fixpoint join_slash (l : list string) : string :=
  match l with [] => "" | [x] => x | x :: r => x +++ String "/" (join_slash r) end.
(** httpx: normalize_path; [out] is reversed *)
Fixpoint dots (out : list string) (l : list string) : list string :=
  match l with
  | [] => rev out
  | c :: r => if String.eqb c "." then dots out r
              else if String.eqb c ".." then dots (match out with [] => [] | [""] => [""] | _ :: o => o end) r
              else dots (c :: out) r
  end.
Definition normalize_path (s : string) : string := join_slash (dots [] (split_slash s)).

(** httpx: characters a path may contain unescaped (UNRESERVED, SUB_DELIMS, ":/[]@") *)
Definition path_safe (c : ascii) : bool :=
  let n := nat_of_ascii c in
  ((48 <=? n) && (n <=? 57)) || ((65 <=? n) && (n <=? 90)) || ((97 <=? n) && (n <=? 122)) ||
  existsb (Ascii.eqb c) ["-"; "."; "_"; "~"; "!"; "$"; "&"; "'"; "("; ")"; "*"; "+"; ","; ";"; "="; ":"; "/"; "["; "]"; "@"]%char.
Definition percent (c : ascii) : string :=
  String "%" (String (hex_digit (nat_of_ascii c / 16)) (String (hex_digit (nat_of_ascii c mod 16)) "")).
(** httpx: quote keeps the escapes that are there and escapes everything else that is not safe *)
Fixpoint quote (s : string) : string :=
  match s with
  | "" => ""
  | String c r =>
      if Ascii.eqb c "%" then
        match r with
        | String a (String b r') => if is_hex a && is_hex b then String c (String a (String b (quote r'))) else percent c +++ quote r
        | _ => percent c +++ quote r
        end
      else if path_safe c then String c (quote r) else percent c +++ quote r
  end.
(** urllib.parse.unquote *)
Fixpoint unquote (s : string) : string :=
  match s with
  | "" => ""
  | String c r =>
      if Ascii.eqb c "%" then
        match r with
        | String a (String b r') => match hex_value a, hex_value b with
                                    | Some x, Some y => String (ascii_of_nat (16 * x + y)) (unquote r')
                                    | _, _ => String c (unquote r) end
        | _ => String c (unquote r)
        end
      else String c (unquote r)
  end.
(** Starlette: the key matched by the route, None: 404 *)
Fixpoint strip (p s : string) : option string :=
  match p, s with
  | "", _ => Some s
  | String a p', String b s' => if Ascii.eqb a b then strip p' s' else None
  | _, _ => None
  end.
Definition route (path : string) : option string :=
  match strip "/comm/" path with
  | Some k => if String.eqb k "" || negb (all_chars (fun c => negb (Ascii.eqb c "/")) k) then None else Some k
  | None => None
  end.
(** Where a PUT to f"{endpoint}/comm/{key}" (387) arrives; None: the sender gets an exception *)
Definition deliver_key (key : string) : option string :=
  if all_chars printable key then route (unquote (quote (normalize_path (url_path ("/comm/" +++ key))))) else None.

(** *** The content *)

Section Content.
Variables (float_int : Z -> option Z) (itemsize : string -> option Z) (fprint : Z -> string) (fparse : string -> option Z)
          (gz : string -> string) (gunzip : string -> option string).

(** The two kinds of request: 445-455 (binary), 457-465 (JSON) *)
Inductive request : Type :=
| Octets (from_rank is_raw format content : string)
| Json (data : string) (from_rank : nat) (is_raw : bool).

(** 394-423; bytes go raw whether or not the caller said so; use_binary is CommConfig.use_binary *)
Definition encode (use_binary : bool) (rank : nat) (data : pv) : res request :=
  if use_binary then
    match data with
    | PBytes b => Ok (Octets (show rank) "1" "raw-bytes" b)
    | _ => c <- dumps_binary (json_dumps fprint (compact true)) data ;; Ok (Octets (show rank) "0" "binary-container" c)
    end
  else
    match data with
    | PBytes b => Ok (Json (b64enc b) rank true)
    | _ => Ok (Json (dumps_b64 fprint gz data) rank false)
    end.

(** int(text), decimal digits only *)
Definition parse_int (s : string) : option nat :=
  option_map Nat.of_uint (NilEmpty.uint_of_string s).
(** 782-837, 599-613: sender and value handed to on_receive *)
Definition decode_request (r : request) : res (nat * pv) :=
  match r with
  | Octets from_rank is_raw format content =>
      match parse_int from_rank with
      | None => ValueErr
      | Some frm =>
          if String.eqb is_raw "1" then Ok (frm, PBytes content)
          else if String.eqb format "binary-container" then
            v <- loads_binary float_int itemsize (loads_bytes fparse) content ;; Ok (frm, v)
          else ValueErr
      end
  | Json data frm is_raw =>
      if is_raw then match b64dec data with Some b => Ok (frm, PBytes b) | None => ValueErr end
      else v <- loads_b64 float_int itemsize fparse gunzip data ;; Ok (frm, v)
  end.

(** One message from [rank] under [key]: what the receiver's mailbox is given, None: the sender
    gets an exception *)
Definition transmit (use_binary : bool) (rank : nat) (key : string) (data : pv) : option (nat * string * pv) :=
  match encode use_binary rank data with
  | Ok r => match deliver_key key with
            | Some k => match decode_request r with Ok (frm, v) => Some (frm, k, v) | _ => None end
            | None => None
            end
  | _ => None
  end.
End Content.
