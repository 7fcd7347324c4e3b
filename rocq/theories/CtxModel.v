(** Model of communication-context naming: CommContext (backends/simp_worker/comm_context.py:
    45-110) as one party uses it, and the child ids made by the asynchronous interpreter
    (runtime/interpreter.py:1129-1140).  Strings are Coq strings; str(int) is decimal. *)
From Coq Require Import List Arith String Ascii.
From Coq Require Import DecimalString DecimalNat.
Import ListNotations.
Local Open Scope string_scope.
Local Open Scope list_scope.
Infix "+++" := String.append (at level 60, right associativity).

Definition show (n : nat) : string := NilEmpty.string_of_uint (Nat.to_uint n).

(** comm_context.py:43-55 *)
Record ctx : Type := Ctx { cid : string; cspawn : nat; cseq : nat -> nat }.
Definition new_ctx (id : string) : ctx := Ctx id 0 (fun _ => 0).

(** comm_context.py:80-83 *)
Definition child_id (id : string) (n : nat) (suffix : option string) : string :=
  match suffix with None => id +++ "." +++ show n | Some s => id +++ "." +++ show n +++ "." +++ s end.
(** comm_context.py:90,103,109 *)
Definition msg_key (id : string) (seq : nat) : string := id +++ ":" +++ show seq.

(** What a party does with its contexts (numbered by creation, the root is 0). *)
Inductive cop : Type :=
| OSpawn (i : nat) (suffix : option string)  (* ctx_i.spawn(suffix) *)
| OMsg (i peer : nat).                       (* ctx_i.send / send_sync / recv with peer *)

(** A use of the transport: (context number, peer, key string). *)
Definition use : Type := (nat * nat * string)%type.

Fixpoint upd {A} (l : list A) (i : nat) (x : A) : list A :=
  match l, i with [], _ => [] | _ :: t, 0 => x :: t | a :: t, S i' => a :: upd t i' x end.

(** comm_context.py:65-110; operations on unknown contexts do not occur *)
Definition cexec (st : list ctx * list use) (o : cop) : list ctx * list use :=
  let '(h, log) := st in
  match o with
  | OSpawn i s =>
      match nth_error h i with
      | None => (h, log)
      | Some c => (upd h i (Ctx (cid c) (S (cspawn c)) (cseq c)) ++ [new_ctx (child_id (cid c) (cspawn c) s)], log)
      end
  | OMsg i p =>
      match nth_error h i with
      | None => (h, log)
      | Some c => (upd h i (Ctx (cid c) (cspawn c) (fun j => if Nat.eqb j p then S (cseq c p) else cseq c j)),
                   log ++ [(i, p, msg_key (cid c) (cseq c p))])
      end
  end.
Definition crun (root : string) (ops : list cop) : list ctx * list use := fold_left cexec ops ([new_ctx root], []).

(** interpreter.py:1138-1139: the context id of operation [op] of a graph whose operations
    were started in the order [started]; spawn numbers follow the start order. *)
Fixpoint position (op : nat) (started : list nat) : option nat :=
  match started with [] => None | x :: l => if Nat.eqb x op then Some 0 else option_map S (position op l) end.
Definition op_ctx_id (root graph_key : string) (started : list nat) (op : nat) : option string :=
  option_map (fun n => child_id root n (Some (graph_key +++ "." +++ show op))) (position op started).
