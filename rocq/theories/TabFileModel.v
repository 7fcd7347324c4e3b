(** Model of table files: table.read / table.write (mplang/backends/table_impl.py:810-834,
    872-964) over FileSystemBackend.download / upload (mplang/runtime/object_store.py:239-328).

    Simplifications.  Paths are the four places the code derives from a user's file name:
    a name in the party's store root, the name in the working directory, the name under ".tmp" in
    the working directory, and an absolute name; names are normalised (no "..", see C37) and no
    directory is in the way.  A file's content is a number standing for its bytes; MD5 is
    collision free.  All parties share one working directory (the simulator's parties are threads
    of one process; workers started by the CLI inherit one directory).  Reading is lazy: table.read
    returns the local path (FileTableSource), [Consume] is the first use of the value. *)
From Coq Require Import List Bool Arith.
Import ListNotations.

Inductive path := PStore (party key : nat) | PCwd (key : nat) | PTmp (key : nat) | PAbs (key : nat).
Definition path_eqb (a b : path) : bool :=
  match a, b with
  | PStore p k, PStore q j => Nat.eqb p q && Nat.eqb k j
  | PCwd k, PCwd j | PTmp k, PTmp j | PAbs k, PAbs j => Nat.eqb k j
  | _, _ => false
  end.
Inductive node := File (c : nat) | Link (p : path).
Definition fs := path -> option node.
Definition set (f : fs) (p : path) (n : option node) : fs := fun q => if path_eqb q p then n else f q.

(** following symbolic links; the kernel gives up (ELOOP) after 40 *)
Fixpoint resolve (fuel : nat) (f : fs) (p : path) : option path :=
  match f p with
  | Some (Link q) => match fuel with O => None | S n => resolve n f q end
  | _ => Some p
  end.
Definition final (f : fs) (p : path) : option path := resolve 40 f p.
(** open(p) for reading, os.path.exists, os.path.lexists, os.path.islink *)
Definition read_file (f : fs) (p : path) : option nat :=
  match final f p with Some q => match f q with Some (File c) => Some c | _ => None end | None => None end.
Definition exists_ (f : fs) (p : path) : bool := match read_file f p with Some _ => true | None => false end.
Definition lexists (f : fs) (p : path) : bool := match f p with Some _ => true | None => false end.
Definition islink (f : fs) (p : path) : bool := match f p with Some (Link _) => true | _ => false end.
(** opening for writing follows links and creates or truncates the final file *)
Definition write_file (f : fs) (p : path) (c : nat) : option fs :=
  match final f p with Some q => Some (set f q (Some (File c))) | None => None end.
(** object_store.py:227-237 _same_file_content: samefile, or equal content; OSError gives False *)
Definition same_content (f : fs) (a b : path) : bool :=
  match read_file f a, read_file f b with Some x, Some y => Nat.eqb x y | _, _ => false end.
(** shutil.move to a path that does not exist: the node itself is renamed *)
Definition move (f : fs) (a b : path) : fs := set (set f b (f a)) a None.

(** the file name a user gives *)
Inductive name := Rel (k : nat) | Abs (k : nat).
(** table_impl.py:830, 959: os.path.join(".tmp", path), which is an absolute path itself *)
Definition local_path (n : name) : path := match n with Rel k => PTmp k | Abs k => PAbs k end.

(** object_store.py:254-282 *)
Definition download (f : fs) (party : nat) (n : name) : option fs :=
  let dest := local_path n in
  let src := match n with
             | Abs k => if exists_ f (PAbs k) then Some (PAbs k) else None
             | Rel k => if exists_ f (PStore party k) then Some (PStore party k)
                        else if exists_ f (PCwd k) then Some (PCwd k) else None
             end in
  match src with
  | None => None
  | Some s =>
      if path_eqb s dest then Some f
      else if lexists f dest
           then if same_content f s dest then Some f else Some (set (set f dest None) dest (Some (Link s)))
           else Some (set f dest (Some (Link s)))
  end.
(** object_store.py:301-328 *)
Definition upload (f : fs) (party : nat) (n : name) : option fs * fs :=
  let source := local_path n in
  let dst := match n with Abs k => PAbs k | Rel k => PStore party k end in
  if negb (exists_ f source) then (None, f)
  else if path_eqb source dst then (Some f, f)
  else if lexists f dst
       then if same_content f source dst
            then let f' := if islink f dst then move (set f dst None) source dst else set f source None in (Some f', f')
            else (None, f)
       else let f' := move f source dst in (Some f', f').

Inductive op := Read (party : nat) (n : name) | Consume (n : name) | Write (party : nat) (n : name) (c : nat).
Inductive result := RHandle | RContent (c : nat) | RDone | RRaise.
(** table_impl.py:810-834 read_impl; 555-570 TableValue.data; 872-964 write_impl *)
Definition step (f : fs) (o : op) : result * fs :=
  match o with
  | Read p n => match download f p n with
                | Some f' => if exists_ f' (local_path n) then (RHandle, f') else (RRaise, f')
                | None => (RRaise, f)
                end
  | Consume n => match read_file f (local_path n) with Some c => (RContent c, f) | None => (RRaise, f) end
  | Write p n c => match write_file f (local_path n) c with
                   | None => (RRaise, f)
                   | Some f1 => match upload f1 p n with (Some f2, _) => (RDone, f2) | (None, f2) => (RRaise, f2) end
                   end
  end.
Fixpoint run (f : fs) (os : list op) : list result * fs :=
  match os with [] => ([], f) | o :: r => let '(x, f') := step f o in let '(xs, f'') := run f' r in (x :: xs, f'') end.
