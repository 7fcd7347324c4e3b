(** Observations and the specification of the object store as a finite map; used in the statements
    of StoreProps.v.  The address a URI denotes is a transient key, or the normalised absolute path. *)
From Coq Require Import String Ascii List Bool.
From stdpp Require Import gmap strings.
From Verif Require Import StoreSpec StoreModel.
Import ListNotations.
Local Open Scope list_scope.

Fixpoint no_slash (s : string) : bool := match s with EmptyString => true | String c r => negb (Ascii.eqb c slash) && no_slash r end.
Definition name_ok (c : string) : Prop := no_slash c = true /\ c <> ""%string /\ c <> "."%string /\ c <> ".."%string.
Definition path_ok (p : path) : Prop := Forall name_ok p.

Section Obs.
  Context {V : Type}.
  Variable picklable : V -> bool.
  Variable persistent : option path.
  Notation store := (@store V).
  (** the object held at an address *)
  Definition content (s : store) (a : addr) : option V :=
    match a with
    | Mem k => s_mem s !! k
    | Fs p => match s_fs s !! p with Some (NFile (Some v)) => Some v | _ => None end
    end.
  Definition address (uri : string) : option addr :=
    match parse_uri persistent uri with
    | Some (BMem, key) => Some (Mem key)
    | Some (BFs root, key) => option_map Fs (resolve root key)
    | None => None
    end.
  Definition call_addr (c : call V) : option addr :=
    match c with
    | PutAuto _ id => Some (Mem id)
    | Put _ uri => match split_uri uri with
                   | Some _ => address uri
                   | None => match persistent with Some root => option_map Fs (resolve root uri) | None => None end
                   end
    | Get uri | Delete uri | Exists uri => address uri
    | ListKeys => None
    end.
  (** effect of a call with a given outcome on the map *)
  Definition effect (c : call V) (r : res V) (m : gmap addr V) : gmap addr V :=
    match call_addr c with
    | None => m
    | Some a =>
        match c, r with
        | Put v _, RUri _ | PutAuto v _, RUri _ => m_put a v m
        | Put _ _, ErrPickle => m_del a m
        | Delete _, RNone => m_del a m
        | _, _ => m
        end
    end.
  Definition matches (s : store) (m : gmap addr V) : Prop := forall a, content s a = m !! a.

  Fixpoint effects (h : list (call V)) (rs : list (res V)) (m : gmap addr V) : gmap addr V :=
    match h, rs with c :: h', r :: rs' => effects h' rs' (effect c r m) | _, _ => m end.
  (** no path is a proper directory prefix of another *)
  Definition apart (K : path -> Prop) : Prop := forall p q c r, K p -> K q -> q <> p ++ c :: r.
  Record tidy (K : path -> Prop) (s : store) : Prop := {
    t_files : forall p, K p -> s_fs s !! p = None \/ exists v, s_fs s !! p = Some (NFile (Some v));
    t_anc : forall p a, K p -> In a (ancestors p) -> is_file (s_fs s) a = false }.
  Definition uses_paths (K : path -> Prop) (c : call V) : Prop :=
    (forall p, call_addr c = Some (Fs p) -> K p) /\
    match c with Put v _ => forall p, call_addr c = Some (Fs p) -> picklable v = true | _ => True end.
  (** what a map would answer; listings are treated separately *)
  Definition full_uri (uri : string) : string := match split_uri uri with Some _ => uri | None => ("fs://" ++ uri)%string end.
  Definition spec_res (c : call V) (m : gmap addr V) : res V :=
    match c with
    | PutAuto _ id => RUri ("mem://" ++ id)
    | Put _ uri => match call_addr c with
                   | Some _ => RUri (full_uri uri)
                   | None => match split_uri uri, persistent with None, None => ErrRuntime | _, _ => ErrValue end
                   end
    | Get uri => match address uri with Some a => match m !! a with Some v => RVal v | None => ErrKey end | None => ErrValue end
    | Delete uri => match address uri with Some a => RNone | None => ErrValue end
    | Exists uri => match address uri with Some a => RBool (match m !! a with Some _ => true | None => false end) | None => ErrValue end
    | ListKeys => RKeys []
    end.
  Definition is_list (c : call V) : bool := match c with ListKeys => true | _ => false end.

  Definition spec_next (c : call V) (m : gmap addr V) : gmap addr V :=
    match c with
    | Put v _ | PutAuto v _ => match call_addr c with Some a => m_put a v m | None => m end
    | Delete _ => match call_addr c with Some a => m_del a m | None => m end
    | _ => m
    end.
  Fixpoint spec_run (h : list (call V)) (m : gmap addr V) : gmap addr V * list (res V) :=
    match h with [] => (m, []) | c :: h' => let (m', rs) := spec_run h' (spec_next c m) in (m', spec_res c m :: rs) end.
  Definition files_ok (s : store) : Prop := forall p c, s_fs s !! p = Some (NFile c) -> path_ok p.
End Obs.
