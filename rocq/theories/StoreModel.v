(** Model of runtime/object_store.py:130-165 (MemoryBackend), 168-225 (FileSystemBackend object
    API) and 334-460 (ObjectStore), and of the POSIX calls used: os.path.abspath/join/startswith,
    makedirs, open, remove, exists, walk.
    Simplifications: a file holds one pickled object or an incomplete pickle; no symbolic links,
    no permissions, no disk errors; the root's absolute path is given by its components (a root
    starting with exactly two slashes is not covered); the only persistent scheme is "fs". *)
From Coq Require Import String Ascii List Bool.
From stdpp Require Import gmap strings.
From Verif Require Import StoreSpec.
Import ListNotations.
Local Open Scope string_scope.
Local Open Scope list_scope.

(** ** Strings and paths *)
Definition slash : ascii := "/"%char.
(** s.lstrip("/") *)
Fixpoint lstrip (s : string) : string :=
  match s with EmptyString => EmptyString | String c r => if Ascii.eqb c slash then lstrip r else s end.
(** s.split("/") *)
Fixpoint split_slash (s : string) : list string :=
  match s with
  | EmptyString => [""]
  | String c r =>
      if Ascii.eqb c slash then "" :: split_slash r
      else match split_slash r with x :: l => String c x :: l | [] => [String c ""] end
  end.
(** posixpath.normpath of an absolute path, on components; the accumulator is reversed *)
Fixpoint norm (acc : list string) (comps : list string) : list string :=
  match comps with
  | [] => rev acc
  | c :: cs =>
      if String.eqb c "" || String.eqb c "." then norm acc cs
      else if String.eqb c ".." then norm (tl acc) cs
      else norm (c :: acc) cs
  end.
(** the absolute path as a string *)
Fixpoint join_slash (comps : list string) : string :=
  match comps with [] => "" | [c] => c | c :: cs => (c ++ String slash (join_slash cs))%string end.
Definition render (comps : list string) : string := String slash (join_slash comps).
Notation path := (list string).
(** os.path.join(root, key): an absolute second argument discards the first *)
Definition path_join (root : path) (key : string) : list string :=
  match key with
  | String c _ => if Ascii.eqb c slash then split_slash key else root ++ split_slash key
  | EmptyString => root ++ split_slash key
  end.
(** object_store.py:176-184; None is ValueError *)
Definition resolve (root : path) (key : string) : option path :=
  let p := norm [] (path_join root (lstrip key)) in
  if String.prefix (render root) (render p) then Some p else None.
(** uri.partition("://"), None when absent; object_store.py:373-386 *)
Fixpoint split_uri (s : string) : option (string * string) :=
  match s with
  | EmptyString => None
  | String c r =>
      if String.prefix "://" s then Some ("", match r with String _ (String _ k) => k | _ => "" end)
      else match split_uri r with Some (a, b) => Some (String c a, b) | None => None end
  end.

Section Store.
  Context {V : Type}.
  Variable picklable : V -> bool.

  (** ** File system: absolute paths to nodes; [None] content is an incomplete pickle *)
  Inductive node : Type := NFile (c : option V) | NDir.
  Notation fsys := (gmap path node).
  (** all proper ancestors of a path, outermost first *)
  Fixpoint ancestors (p : path) : list path :=
    match p with [] => [] | c :: p' => [] :: map (cons c) (ancestors p') end.
  Definition is_file (fs : fsys) (p : path) : bool := match fs !! p with Some (NFile _) => true | _ => false end.
  Definition is_dir (fs : fsys) (p : path) : bool := match fs !! p with Some NDir => true | _ => false end.
  (** os.makedirs(os.path.dirname(p), exist_ok=True); the root of the file system is a directory *)
  Definition makedirs (p : path) (fs : fsys) : option fsys :=
    if existsb (is_file fs) (ancestors p) then None
    else Some (fold_right (fun a m => <[a := NDir]> m) fs (ancestors p)).

  (** ** FileSystemBackend, object_store.py:186-225; [p] is the resolved path *)
  Definition fs_put (p : path) (v : V) (fs : fsys) : fsys * res V :=
    match makedirs p fs with
    | None => (fs, ErrOS)
    | Some fs1 =>
        if is_dir fs1 p then (fs1, ErrOS)
        (* open(path, "wb") truncates; pickle.dump may then raise *)
        else if picklable v then (<[p := NFile (Some v)]> fs1, RNone)
        else (<[p := NFile None]> fs1, ErrPickle)
    end.
  Definition fs_get (p : path) (fs : fsys) : res V :=
    match fs !! p with
    | None => ErrKey
    | Some NDir => ErrOS
    | Some (NFile (Some v)) => RVal v
    | Some (NFile None) => ErrPickle
    end.
  Definition fs_delete (p : path) (fs : fsys) : fsys * res V :=
    match fs !! p with
    | None => (fs, RNone)
    | Some NDir => (fs, ErrOS)
    | Some (NFile _) => (delete p fs, RNone)
    end.
  Definition fs_exists (p : path) (fs : fsys) : bool := match fs !! p with Some _ => true | None => false end.
  Fixpoint strip_root (root p : path) : option path :=
    match root, p with
    | [], _ => Some p
    | c :: root', d :: p' => if String.eqb c d then strip_root root' p' else None
    | _ :: _, [] => None
    end.
  Definition fs_list (root : path) (fs : fsys) : list string :=
    flat_map (fun e => match snd e with
                       | NFile _ => match strip_root root (fst e) with Some rel => [join_slash rel] | None => [] end
                       | NDir => []
                       end) (map_to_list fs).

  (** ** ObjectStore *)
  Record store : Type := Store { s_mem : gmap string V; s_fs : fsys }.
  (** is a persistent backend configured, and its root *)
  Variable persistent : option path.
  Inductive backend : Type := BMem | BFs (root : path).
  (** object_store.py:373-388 *)
  Definition parse_uri (uri : string) : option (backend * string) :=
    match split_uri uri with
    | None => None
    | Some (scheme, key) =>
        if String.eqb scheme "mem" then Some (BMem, key)
        else if String.eqb scheme "fs" then match persistent with Some root => Some (BFs root, key) | None => None end
        else None
    end.
  Definition with_fs (s : store) (r : fsys * res V) : store * res V := (Store (s_mem s) (fst r), snd r).
  Definition put_fs (root : path) (key : string) (v : V) (s : store) : store * res V :=
    match resolve root key with None => (s, ErrValue) | Some p => with_fs s (fs_put p v (s_fs s)) end.
  Definition ret_uri (u : string) (r : store * res V) : store * res V :=
    match snd r with RNone => (fst r, RUri u) | _ => r end.
  Definition step (s : store) (c : call V) : store * res V :=
    match c with
    | PutAuto v id => (Store (<[id := v]> (s_mem s)) (s_fs s), RUri ("mem://" ++ id)%string)    (* 411-414 *)
    | Put v uri =>                                                                      (* 416-428 *)
        match split_uri uri with
        | Some _ =>
            match parse_uri uri with
            | None => (s, ErrValue)
            | Some (BMem, key) => (Store (<[key := v]> (s_mem s)) (s_fs s), RUri uri)
            | Some (BFs root, key) => ret_uri uri (put_fs root key v s)
            end
        | None =>
            match persistent with
            | None => (s, ErrRuntime)
            | Some root => ret_uri ("fs://" ++ uri)%string (put_fs root uri v s)
            end
        end
    | Get uri =>                                                                        (* 430-433 *)
        match parse_uri uri with
        | None => (s, ErrValue)
        | Some (BMem, key) => (s, match s_mem s !! key with Some v => RVal v | None => ErrKey end)
        | Some (BFs root, key) => (s, match resolve root key with Some p => fs_get p (s_fs s) | None => ErrValue end)
        end
    | Delete uri =>                                                                     (* 435-438 *)
        match parse_uri uri with
        | None => (s, ErrValue)
        | Some (BMem, key) => (Store (delete key (s_mem s)) (s_fs s), RNone)
        | Some (BFs root, key) => match resolve root key with Some p => with_fs s (fs_delete p (s_fs s)) | None => (s, ErrValue) end
        end
    | Exists uri =>                                                                     (* 440-443 *)
        match parse_uri uri with
        | None => (s, ErrValue)
        | Some (BMem, key) => (s, RBool (match s_mem s !! key with Some _ => true | None => false end))
        | Some (BFs root, key) => (s, match resolve root key with Some p => RBool (fs_exists p (s_fs s)) | None => ErrValue end)
        end
    | ListKeys =>                                                                       (* 469-478 *)
        (s, RKeys (map (fun k => ("mem://" ++ k)%string) (map fst (map_to_list (s_mem s))) ++
                   match persistent with Some root => map (fun k => ("fs://" ++ k)%string) (fs_list root (s_fs s)) | None => [] end))
    end.
  Fixpoint run (s : store) (h : list (call V)) : store * list (res V) :=
    match h with [] => (s, []) | c :: h' => let (s1, r) := step s c in let (s2, rs) := run s1 h' in (s2, r :: rs) end.

  (** store_impl.py:25-41 *)
  Definition save (s : store) (v : V) (uri_base : string) : store * res V :=
    let (s', r) := step s (Put v uri_base) in
    (s', match r with RUri _ => RVal v | _ => r end).
  Definition load (s : store) (uri_base : string) : res V :=
    match split_uri uri_base with
    | Some _ => snd (step s (Get uri_base))
    | None => match persistent with None => ErrRuntime | Some _ => snd (step s (Get ("fs://" ++ uri_base)%string)) end
    end.
End Store.
