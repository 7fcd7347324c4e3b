(** * Addresses of workers: [mplang/cli.py:104-153] [build_endpoints], its use by the
    commands worker / up / run / objects ([cli.py:226-277, 335-362, 445-475, 505-553]), the URL
    list of the driver ([backends/simp_driver/http.py:62-66]) and the endpoint list of
    a cluster ([libs/device/cluster.py:180-230, 311-324]).
    A Python exception is [None].  Simplified: int(text) accepts decimal digits only (no
    blanks, signs or underscores); str.strip() removes blanks; device sections have
    members that exist; only the parts of a cluster that decide addresses are kept. *)
From Coq Require Import String Ascii.
From Coq Require Import List Arith Bool Lia DecimalString.
Import ListNotations.
Local Open Scope string_scope.

(** str(n) *)
Definition dec (n : nat) : string := NilZero.string_of_uint (Nat.to_uint n).
(** int(s) *)
Definition undec (s : string) : option nat :=
  match s with
  | EmptyString => None
  | _ => option_map Nat.of_uint (NilEmpty.uint_of_string s)
  end.

(** s.split(c) for a one-character separator: never empty. *)
Fixpoint split (c : ascii) (s : string) : list string :=
  match s with
  | EmptyString => [""]
  | String a s' =>
      if Ascii.eqb a c then "" :: split c s'
      else match split c s' with
           | w :: ws => String a w :: ws
           | [] => [String a ""]
           end
  end.

Fixpoint lstrip (s : string) : string :=
  match s with String " " s' => lstrip s' | _ => s end.
Fixpoint rev_s (s acc : string) : string :=
  match s with EmptyString => acc | String c s' => rev_s s' (String c acc) end.
Definition strip (s : string) : string := rev_s (lstrip (rev_s (lstrip s) "")) "".

(** cli.py:109-110 *)
Definition normalize_endpoint (ep : string) : string :=
  if String.prefix "http" ep then ep else "http://" ++ ep.

(** int(endpoint.split(":")[-1]) *)
Definition port_of (ep : string) : option nat := undec (last (split ":" ep) "").

Fixpoint mapM {A B} (f : A -> option B) (l : list A) : option (list B) :=
  match l with
  | [] => Some []
  | x :: l' => match f x, mapM f l' with Some y, Some ys => Some (y :: ys) | _, _ => None end
  end.
Fixpoint enum_from {A} (n : nat) (l : list A) : list (nat * A) :=
  match l with [] => [] | x :: l' => (n, x) :: enum_from (S n) l' end.

(** A configuration file: node names and endpoints, device names and kinds. *)
Record conf := Conf { nodes : list (string * string); devices : list (string * string) }.

(** Command line: -c, --endpoints, --spu-endpoints, --spu-base-port, -w, -p ([None]: the
    command has no such option). *)
Record args := Args {
  a_config : option conf; a_endpoints : option string; a_spu_endpoints : option string;
  a_spu_base_port : option nat; a_world_size : nat; a_base_port : option nat }.

Definition upper_c (c : ascii) : ascii :=
  let n := nat_of_ascii c in
  if Nat.leb 97 n && Nat.leb n 122 then ascii_of_nat (n - 32) else c.
Fixpoint upper (s : string) : string :=
  match s with EmptyString => EmptyString | String c s' => String (upper_c c) (upper s') end.

(** x or y for an optional port: None and 0 are false. *)
Definition port_or (x : option nat) (y : nat) : nat :=
  match x with Some (S n) => S n | _ => y end.
Definition given (x : option string) : option string :=
  match x with Some s => if String.eqb s "" then None else Some s | None => None end.

Record addrs := Addrs { endpoints : list string; ports : list nat; world : nat;
                        spu_endpoints : option (list (nat * string)) }.

(** cli.py:114-136: the part for a configuration file. *)
Definition from_config (c : conf) (spu_base : option nat) : option addrs :=
  match nodes c with
  | [] => None
  | _ =>
      let eps := map (fun n => normalize_endpoint (snd n)) (nodes c) in
      match mapM port_of eps with
      | None => None
      | Some ps =>
          let base := port_or spu_base (hd 0 ps + 1000) in
          let spu := map (fun p => (fst p, hd "" (split ":" (snd (snd p))) ++ ":" ++ dec (base + fst p)))
                         (enum_from 0 (nodes c)) in
          Some {| endpoints := eps; ports := ps; world := List.length (nodes c);
                  spu_endpoints := if existsb (fun d => String.eqb (upper (snd d)) "SPU") (devices c)
                                   then Some spu else None |}
      end
  end.

(** cli.py:137-146: without a file. *)
Definition from_defaults (a : args) : addrs :=
  let base := match a_base_port a with Some p => p | None => 5000 end in
  let ps := map (fun i => base + i) (seq 0 (a_world_size a)) in
  {| endpoints := map (fun p => "http://127.0.0.1:" ++ dec p) ps;
     ports := ps; world := a_world_size a;
     spu_endpoints := match a_spu_base_port a with
                      | Some (S n) => Some (map (fun i => (i, "127.0.0.1:" ++ dec (S n + i))) (seq 0 (a_world_size a)))
                      | _ => None
                      end |}.

(** cli.py:104-153 [build_endpoints]. *)
Definition build_endpoints (a : args) : option addrs :=
  match (match a_config a with
         | Some c => from_config c (a_spu_base_port a)
         | None => Some (from_defaults a)
         end) with
  | None => None
  | Some r =>
      match given (a_endpoints a) with
      | None => Some r
      | Some text =>
          let eps := map (fun ep => normalize_endpoint (strip ep)) (split "," text) in
          match mapM port_of eps with
          | None => None
          | Some ps => Some {| endpoints := eps; ports := ps; world := List.length eps;
                               spu_endpoints := spu_endpoints r |}
          end
      end
  end.

(** simp_driver/http.py:62-66 *)
Definition driver_url (ep : string) : string :=
  if String.prefix "http://" ep || String.prefix "https://" ep then ep else "http://" ++ ep.

Fixpoint distinct (l : list string) : bool :=
  match l with [] => true | x :: l' => negb (existsb (String.eqb x) l') && distinct l' end.

(** cli.py:343-362 and cluster.py:190-230: the worker URLs that [run] uses (backend http). *)
Definition run_urls (a : args) : option (list string) :=
  match a_config a with
  | Some c => if distinct (map fst (nodes c)) then Some (map (fun n => driver_url (snd n)) (nodes c)) else None
  | None => match build_endpoints a with
            | Some r => Some (map driver_url (endpoints r))
            | None => None
            end
  end.

(** cli.py:226-238: worker [rank]: the port it listens on (at every local address), the
    URLs it uses for its peers, its SPU addresses. *)
Definition worker (a : args) (rank : nat) : option (nat * list string * option (list (nat * string))) :=
  match build_endpoints a with
  | Some r => match nth_error (ports r) rank with
              | Some p => if (rank <? world r)%nat then Some (p, endpoints r, spu_endpoints r) else None
              | None => None
              end
  | None => None
  end.
