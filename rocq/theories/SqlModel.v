(** Model of table.run_sql (mplang/backends/table_impl.py:432-475, 514-570, 657-707) over DuckDB.

    DuckDB, from its documentation: a connection has views in the schemas temp (conn.register) and
    main (relation.create_view), looked up by case-insensitive name, temp first; creating a view
    replaces one of the same name in the same schema; a relation (conn.sql) is lazy: it is bound
    when made, raising if a name is unknown, and its SQL text is bound again, by name, whenever it
    is executed; views that need themselves raise.

    Simplifications.  A query is the list of the table names it reads and an arbitrary function of
    the tables it finds there.  File contents do not change (C93).  Errors that depend on the data
    and DuckDB's scan of Python variables for unknown names are left out. *)
From Coq Require Import Ascii String List Bool Arith.
Import ListNotations.
Local Open Scope nat_scope.

(** case folding of identifiers (ASCII) *)
Definition lower (a : ascii) : ascii :=
  let n := nat_of_ascii a in if (65 <=? n) && (n <=? 90) then ascii_of_nat (n + 32) else a.
Fixpoint fold (s : string) : string :=
  match s with EmptyString => EmptyString | String a r => String (lower a) (fold r) end.

Section Run.
(** contents of tables *)
Variable T : Type.

Record query := Query { q_reads : list string; q_fn : list T -> T }.

(** what TableValue._data holds; the number is the identity of the Python object *)
Inductive data := DArrow (o : nat) (c : T) | DFile (o : nat) (c : T) | DQuery (o : nat) (st : nat) (q : query).
Definition ident (d : data) : nat := match d with DArrow o _ | DFile o _ | DQuery o _ _ => o end.
Inductive view := VData (c : T) | VQuery (q : query).

(** 514-517 DuckDBState: the connection's two schemas, newest view first, and the dict tables *)
Record duck := Duck { temp : list (string * view); main : list (string * view); tables : list (string * data) }.
Definition empty_duck : duck := Duck [] [] [].
(** connections, TableValues (None: the operation that should have made it raised), next identity *)
Record world := World { ducks : list duck; cells : list (option data); next : nat }.

Fixpoint find_view (n : string) (l : list (string * view)) : option view :=
  match l with [] => None | (m, v) :: r => if String.eqb m n then Some v else find_view n r end.
Definition lookup (s : duck) (n : string) : option view :=
  match find_view (fold n) (temp s) with Some v => Some v | None => find_view (fold n) (main s) end.
Fixpoint all_some {A B} (f : A -> option B) (l : list A) : option (list B) :=
  match l with
  | [] => Some []
  | x :: r => match f x, all_some f r with Some y, Some ys => Some (y :: ys) | _, _ => None end
  end.
(** executing a relation *)
Fixpoint eval (fuel : nat) (s : duck) (q : query) : option T :=
  match fuel with
  | O => None
  | S k => match all_some (fun r => match lookup s r with
                                    | Some (VData c) => Some c
                                    | Some (VQuery q') => eval k s q'
                                    | None => None
                                    end) (q_reads q) with
           | Some cs => Some (q_fn q cs)
           | None => None
           end
  end.
(** nesting deeper than the number of views is a cycle *)
Definition execute (s : duck) (q : query) : option T := eval (S (length (main s))) s q.

(** 439-475, 527-530, conn.register: replace=True *)
Definition put (n : string) (v : view) (l : list (string * view)) : list (string * view) :=
  (fold n, v) :: filter (fun p => negb (String.eqb (fst p) (fold n))) l.
Definition register (s : duck) (n : string) (d : data) : duck :=
  match d with
  | DArrow _ c => Duck (put n (VData c) (temp s)) (main s) (tables s)
  | DFile _ c => Duck (temp s) (put n (VData c) (main s)) (tables s)
  | DQuery _ _ q => Duck (temp s) (put n (VQuery q) (main s)) (tables s)
  end.
Fixpoint find_table (n : string) (l : list (string * data)) : option data :=
  match l with [] => None | (m, d) :: r => if String.eqb m n then Some d else find_table n r end.

Definition get_duck (w : world) (i : nat) : duck := nth i (ducks w) empty_duck.
Fixpoint set_nth {A} (i : nat) (x : A) (l : list A) : list A :=
  match l, i with [] , _ => [] | _ :: r, O => x :: r | y :: r, S j => y :: set_nth j x r end.
Definition set_duck (w : world) (i : nat) (s : duck) : world := World (set_nth i s (ducks w)) (cells w) (next w).
Definition cell (w : world) (i : nat) : option data := nth i (cells w) None.

(** 555-570 TableValue.data: reads the source and caches the table in the value *)
Definition materialise (w : world) (i : nat) : option T * world :=
  match cell w i with
  | None => (None, w)
  | Some (DArrow _ c) => (Some c, w)
  | Some (DFile _ c) => (Some c, World (ducks w) (set_nth i (Some (DArrow (next w) c)) (cells w)) (S (next w)))
  | Some (DQuery _ st q) =>
      match execute (get_duck w st) q with
      | Some c => (Some c, World (ducks w) (set_nth i (Some (DArrow (next w) c)) (cells w)) (S (next w)))
      | None => (None, w)
      end
  end.

(** 676-687: the connection of the first argument that has one *)
Fixpoint choose (w : world) (args : list nat) : option nat :=
  match args with
  | [] => None
  | i :: r => match cell w i with Some (DQuery _ st _) => Some st | _ => choose w r end
  end.
(** 690-705: one turn of the loop, after the switch to this connection *)
Definition enter (w : world) (st : nat) (n : string) (d : data) : option world :=
  let s := get_duck w st in
  match find_table n (tables s) with
  | Some d' => if Nat.eqb (ident d') (ident d) then Some (set_duck w st (register s n d)) else None
  | None => Some (set_duck w st (register (Duck (temp s) (main s) ((n, d) :: tables s)) n d))
  end.
Definition enter_arg (w : world) (st : nat) (n : string) (i : nat) : option world * world :=
  match cell w i with
  | None => (None, w)
  | Some d =>
      let foreign := match d with DQuery _ st' _ => negb (Nat.eqb st' st) | _ => false end in
      let w1 := if foreign then snd (materialise w i) else w in
      let ok := if foreign then match fst (materialise w i) with Some _ => true | None => false end else true in
      if negb ok then (None, w)
      else match cell w1 i with
           | Some d1 => match enter w1 st n d1 with Some w2 => (Some w2, w2) | None => (None, w1) end
           | None => (None, w1)
           end
  end.
Fixpoint enter_all (w : world) (st : nat) (l : list (string * nat)) : option world * world :=
  match l with
  | [] => (Some w, w)
  | (n, i) :: r => match enter_arg w st n i with
                   | (Some w', _) => enter_all w' st r
                   | (None, w') => (None, w')
                   end
  end.
(** an operation that raises makes no value: its cell stays empty *)
Definition new_cell (w : world) (d : option data) : world := World (ducks w) (cells w ++ [d]) (S (next w)).

(** 657-707 *)
Definition run_sql (w : world) (q : query) (given : list (string * nat)) : world :=
  if negb (forallb (fun p => match cell w (snd p) with Some _ => true | None => false end) given) then new_cell w None
  else
    let '(st, w0) := match choose w (map snd given) with
                     | Some st => (st, w)
                     | None => (length (ducks w), World (ducks w ++ [empty_duck]) (cells w) (next w))
                     end in
    match enter_all w0 st given with
    | (None, w1) => new_cell w1 None
    | (Some w1, _) => match execute (get_duck w1 st) q with
                      | None => new_cell w1 None
                      | Some _ => new_cell w1 (Some (DQuery (next w1) st q))
                      end
    end.

(** A party's history: table.constant, table.read, table.run_sql with its named tables, and any
    use of a table's content (fetch, transfer, table2tensor, write).  Tables are numbered in the
    order of their creation. *)
Inductive cmd := Constant (c : T) | ReadFile (c : T) | RunSql (q : query) (given : list (string * nat)) | Use (i : nat).
Definition step (w : world) (o : cmd) : list (nat * option T) * world :=
  match o with
  | Constant c => ([], new_cell w (Some (DArrow (next w) c)))
  | ReadFile c => ([], new_cell w (Some (DFile (next w) c)))
  | RunSql q given => ([], run_sql w q given)
  | Use i => let '(r, w') := materialise w i in ([(i, r)], w')
  end.
(** observed: the contents seen by the uses, in order (None: raised) *)
Fixpoint run (w : world) (os : list cmd) : list (nat * option T) * world :=
  match os with [] => ([], w) | o :: r => let '(x, w') := step w o in let '(y, w'') := run w' r in (x ++ y, w'') end.
Definition start : world := World [] [] 0.
Definition observed (os : list cmd) : list (nat * option T) := fst (run start os).
End Run.
Arguments Query {T}. Arguments Constant {T}. Arguments ReadFile {T}. Arguments RunSql {T}. Arguments Use {T}.
