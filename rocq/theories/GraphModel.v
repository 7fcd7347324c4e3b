(** Model of edsl/graph.py:68-310: Value, Operation, Graph as a heap of value and operation
    objects changed by public calls.  Attributes, types and regions do not matter here; the
    commands quantify over values and operations of one graph ([nat] = object identity).
    Calls that raise leave whatever was changed before the exception. *)
From Coq Require Import List String Bool Arith.
From Verif Require Import CtxModel SerdeModel.
Import ListNotations.
Local Open Scope string_scope.
Local Open Scope list_scope.

(** Value: graph.py:68-106; [v_uses] is the insertion-ordered set of operations *)
Record value : Type := Value { v_name : string; v_def : option nat; v_uses : list nat }.
(** Operation: graph.py:129-149; [o_live] is ghost: false once erase() has been called *)
Record oper : Type := Oper { o_ins : list nat; o_outs : list nat; o_live : bool }.
(** Graph: graph.py:208-214; graph.operations = all operations in creation order *)
Record graph : Type := Graph {
  g_vals : list value;             (* all Value objects *)
  g_ops : list oper;
  g_dict : list (string * nat);    (* graph.values *)
  g_inputs : list nat; g_outputs : list nat; g_ctr : nat }.
Definition empty_graph : graph := Graph [] [] [] [] [] 0.

Definition set_val (g : graph) (v : nat) (f : value -> value) : graph :=
  match nth_error (g_vals g) v with
  | Some x => Graph (upd (g_vals g) v (f x)) (g_ops g) (g_dict g) (g_inputs g) (g_outputs g) (g_ctr g)
  | None => g
  end.
(** graph.py:99-106 *)
Definition add_use (o : nat) (x : value) : value :=
  Value (v_name x) (v_def x) (if in_dec Nat.eq_dec o (v_uses x) then v_uses x else v_uses x ++ [o]).
Definition remove_use (o : nat) (x : value) : value :=
  Value (v_name x) (v_def x) (filter (fun p => negb (Nat.eqb p o)) (v_uses x)).
Definition set_def (d : option nat) (x : value) : value := Value (v_name x) d (v_uses x).

(** graph.py:222-240 with an explicit name *)
Definition g_add_value (g : graph) (name : string) : graph * option nat :=
  match sfind name (g_dict g) with
  | Some _ => (g, None)                                                    (* ValueError *)
  | None => (Graph (g_vals g ++ [Value name None []]) (g_ops g) (g_dict g ++ [(name, List.length (g_vals g))])
                   (g_inputs g) (g_outputs g) (g_ctr g), Some (List.length (g_vals g)))
  end.
(** graph.py:216-220, 232-233 *)
Definition g_add_fresh (g : graph) : graph * option nat :=
  g_add_value (Graph (g_vals g) (g_ops g) (g_dict g) (g_inputs g) (g_outputs g) (S (g_ctr g))) ("%" +++ show (g_ctr g)).
(** graph.py:242-254 *)
Definition g_add_input (g : graph) (name : string) : graph :=
  match g_add_value g name with
  | (g', Some v) => Graph (g_vals g') (g_ops g') (g_dict g') (g_inputs g' ++ [v]) (g_outputs g') (g_ctr g')
  | (g', None) => g'
  end.
(** graph.py:285 [self.add_value(t) for t in output_types]: stops at the first name taken *)
Fixpoint g_add_outs (g : graph) (n : nat) : graph * option (list nat) :=
  match n with
  | O => (g, Some [])
  | S n' => match g_add_fresh g with
            | (g', None) => (g', None)
            | (g', Some v) => match g_add_outs g' n' with
                              | (g2, Some vs) => (g2, Some (v :: vs))
                              | (g2, None) => (g2, None)
                              end
            end
  end.
(** graph.py:256-300 and Operation.__post_init__ 157-165; [nout] = len(output_types) *)
Definition g_add_op (g : graph) (ins : list nat) (nout : nat) : graph :=
  match g_add_outs g nout with
  | (g', None) => g'
  | (g', Some outs) =>
      let o := List.length (g_ops g') in
      let g1 := fold_left (fun g v => set_val g v (set_def (Some o))) outs g' in
      let g2 := fold_left (fun g v => set_val g v (add_use o)) ins g1 in
      Graph (g_vals g2) (g_ops g2 ++ [Oper ins outs true]) (g_dict g2) (g_inputs g2) (g_outputs g2) (g_ctr g2)
  end.
(** graph.py:172-178 *)
Definition replace_one (o old new : nat) (g : graph) (inp : nat) : graph :=
  if Nat.eqb inp old then set_val (set_val g old (remove_use o)) new (add_use o) else g.
Definition g_replace (g : graph) (o old new : nat) : graph :=
  match nth_error (g_ops g) o with
  | None => g
  | Some x =>
      let g' := fold_left (replace_one o old new) (o_ins x) g in
      Graph (g_vals g') (upd (g_ops g') o (Oper (map (fun i => if Nat.eqb i old then new else i) (o_ins x)) (o_outs x) (o_live x)))
            (g_dict g') (g_inputs g') (g_outputs g') (g_ctr g')
  end.
(** graph.py:180-185; the operation stays in graph.operations *)
Definition g_erase (g : graph) (o : nat) : graph :=
  match nth_error (g_ops g) o with
  | None => g
  | Some x =>
      let g1 := fold_left (fun g v => set_val g v (remove_use o)) (o_ins x) g in
      let g2 := fold_left (fun g v => set_val g v (set_def None)) (o_outs x) g1 in
      Graph (g_vals g2) (upd (g_ops g2) o (Oper (o_ins x) (o_outs x) false)) (g_dict g2) (g_inputs g2) (g_outputs g2) (g_ctr g2)
  end.
(** graph.py:302-310 *)
Definition g_add_output (g : graph) (v : nat) : graph :=
  if existsb (fun p => Nat.eqb (snd p) v) (g_dict g)
  then Graph (g_vals g) (g_ops g) (g_dict g) (g_inputs g) (g_outputs g ++ [v]) (g_ctr g) else g.

Inductive call : Type :=
| AddValue (name : option string) | AddInput (name : string) | AddOp (ins : list nat) (nout : nat)
| ReplaceInput (o old new : nat) | Erase (o : nat) | AddOutput (v : nat).
Definition run_call (g : graph) (c : call) : graph :=
  match c with
  | AddValue (Some n) => fst (g_add_value g n)
  | AddValue None => fst (g_add_fresh g)
  | AddInput n => g_add_input g n
  | AddOp ins n => g_add_op g ins n
  | ReplaceInput o old new => g_replace g o old new
  | Erase o => g_erase g o
  | AddOutput v => g_add_output g v
  end.
(** The arguments are objects that exist when the call is made; replace_input is called on
    operations that were not erased. *)
Definition call_ok (g : graph) (c : call) : Prop :=
  match c with
  | AddOp ins _ => Forall (fun v => v < List.length (g_vals g)) ins
  | ReplaceInput o old new => (exists x, nth_error (g_ops g) o = Some x /\ o_live x = true) /\ new < List.length (g_vals g)
  | _ => True
  end.
Fixpoint run_calls (g : graph) (cs : list call) : graph :=
  match cs with [] => g | c :: cs' => run_calls (run_call g c) cs' end.
Fixpoint calls_ok (g : graph) (cs : list call) : Prop :=
  match cs with [] => True | c :: cs' => call_ok g c /\ calls_ok (run_call g c) cs' end.

(** ** Specification *)
(** names of the graph's values are pairwise different and the dictionary finds each by its name *)
Definition names_ok (g : graph) : Prop :=
  NoDup (map v_name (g_vals g))
  /\ forall v x, nth_error (g_vals g) v = Some x -> sfind (v_name x) (g_dict g) = Some v.
(** o consumes v *)
Definition consumes (g : graph) (o v : nat) : Prop :=
  exists x, nth_error (g_ops g) o = Some x /\ o_live x = true /\ In v (o_ins x).
(** value.uses is exactly the set of operations that consume it *)
Definition uses_ok (g : graph) : Prop :=
  forall v x, nth_error (g_vals g) v = Some x -> NoDup (v_uses x) /\ forall o, In o (v_uses x) <-> consumes g o v.
(** each value is an output of at most one operation; value.defining_op is that one, while live *)
Definition defs_ok (g : graph) : Prop :=
  (forall o o' x x' v, nth_error (g_ops g) o = Some x -> nth_error (g_ops g) o' = Some x' ->
     In v (o_outs x) -> In v (o_outs x') -> o = o')
  /\ (forall o x v, nth_error (g_ops g) o = Some x -> In v (o_outs x) ->
        exists y, nth_error (g_vals g) v = Some y /\ v_def y = if o_live x then Some o else None).
(** every operation's inputs are not outputs of itself or of a later operation *)
Definition in_order (g : graph) : Prop :=
  forall o o' x x' v, nth_error (g_ops g) o = Some x -> nth_error (g_ops g) o' = Some x' ->
    In v (o_ins x) -> In v (o_outs x') -> o' < o.
(** replace_input with a value that is not an output of the operation or of a later one *)
Definition replace_earlier (g : graph) (c : call) : Prop :=
  match c with
  | ReplaceInput o _ new => forall o' x', nth_error (g_ops g) o' = Some x' -> In new (o_outs x') -> o' < o
  | _ => True
  end.
Fixpoint replaces_earlier (g : graph) (cs : list call) : Prop :=
  match cs with [] => True | c :: cs' => replace_earlier g c /\ replaces_earlier (run_call g c) cs' end.
