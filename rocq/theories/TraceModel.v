(** Model of edsl/tracer.py (Tracer.lift/_new_arg/bind_primitive/run, TracedFunction.
    align_region_inputs/prepare_inputs/reconstruct_outputs), of the trace rules of
    dialects/simp.py:130-226 (uniform_cond), 262-346 (while_loop), 381-455 (pcall_static) and of
    graph evaluation (runtime/interpreter.py evaluate_graph; simp_worker/ops.py:118-168).

    A traced Python function is a [body]: a sequence of primitive calls, conditionals, loops and
    local calls, ended by a return.  Functions passed to uniform_cond / while_loop / pcall are
    bodies themselves and may refer to any object of the enclosing functions (closures).
    An object is referred to by (level, index): level 0 is the world outside the trace, level
    k+1 is the function being traced at nesting depth k, index counts the objects the function
    has seen (its arguments, then results, in order).
    Simplifications: argument and result pytrees are flat lists (pytrees are C26); types are not
    modelled, so type errors are not; positional constants given to primitives are dropped as in
    tracer.py:139. *)
From Coq Require Import List String Ascii Bool Arith.
From Verif Require Import CtxModel MorphModel.
Import ListNotations.
Local Open Scope string_scope.
Local Open Scope list_scope.

Definition ref : Type := (nat * nat)%type.
Definition ref_eqb (a b : ref) : bool := Nat.eqb (fst a) (fst b) && Nat.eqb (snd a) (snd b).

Section Trace.
  Variable C : Type.   (* constants: Python values that are not Objects *)

  (** a leaf of a returned structure *)
  Inductive leaf : Type := LRef (r : ref) | LConst (c : C).
  Inductive body : Type :=
  | BRet (outs : list leaf)
  | BPrim (p : nat) (args : list ref) (nout : nat) (k : body)
  | BCond (pred : ref) (args : list ref) (thn els : body) (k : body)
  | BWhile (init : list ref) (cond loop : body) (k : body)
  | BCall (args : list ref) (fn : body) (k : body).

  (** graph IR: values are numbered in creation order within their graph *)
  Inductive gop : Type :=
  | GPrim (p : nat) (ins outs : list nat)
  | GCond (ins outs : list nat) (thn els : graph)
  | GWhile (ins outs : list nat) (cond loop : graph)
  | GCall (ins outs : list nat) (fn : graph)
  with graph : Type := Graph (inputs : list nat) (ops : list gop) (outputs : list nat).
  Definition g_inputs (g : graph) := match g with Graph i _ _ => i end.
  Definition g_ops (g : graph) := match g with Graph _ o _ => o end.
  Definition g_outputs (g : graph) := match g with Graph _ _ o => o end.

  (** what the traced function sees in place of an object: a TraceObject, or a constant *)
  Inductive tval : Type := TV (g : nat) | TC (c : C).
  (** tracer state, tracer.py:97-106; [t_names] are the names of the graph's values *)
  Record tst : Type := TSt {
    t_names : list string; t_argc : nat; t_valc : nat; t_inputs : list nat;
    t_caps : list (ref * nat);     (* _captured_vars, insertion order *)
    t_frame : list tval }.
  Definition push (ts : list tval) (s : tst) : tst :=
    TSt (t_names s) (t_argc s) (t_valc s) (t_inputs s) (t_caps s) (t_frame s ++ ts).

  (** tracer.py:239-257 *)
  Definition new_arg (s : tst) : tst * nat :=
    let g := List.length (t_names s) in
    (TSt (t_names s ++ ["%arg" +++ show (t_argc s)]) (S (t_argc s)) (t_valc s) (t_inputs s ++ [g]) (t_caps s) (t_frame s), g).
  (** graph.py:216-240, 285: the n outputs of an operation *)
  Definition new_outs (n : nat) (s : tst) : tst * list nat :=
    (TSt (t_names s ++ map (fun k => "%" +++ show k) (seq (t_valc s) n)) (t_argc s) (t_valc s + n) (t_inputs s) (t_caps s) (t_frame s),
     seq (List.length (t_names s)) n).
  Fixpoint cap_find (r : ref) (l : list (ref * nat)) : option nat :=
    match l with [] => None | (r', g) :: l' => if ref_eqb r' r then Some g else cap_find r l' end.
  (** tracer.py:173-220 with is_param=False; [outer] are the frames of the enclosing levels *)
  Definition lift (outer : list (list tval)) (s : tst) (r : ref) : option (tst * tval) :=
    if Nat.eqb (fst r) (List.length outer) then
      match nth_error (t_frame s) (snd r) with Some t => Some (s, t) | None => None end
    else
      match nth_error outer (fst r) with
      | None => None
      | Some f =>
          match nth_error f (snd r) with
          | None => None
          | Some (TC c) => Some (s, TC c)
          | Some (TV _) =>
              match cap_find r (t_caps s) with
              | Some g => Some (s, TV g)
              | None => let (s', g) := new_arg s in
                        Some (TSt (t_names s') (t_argc s') (t_valc s') (t_inputs s') (t_caps s' ++ [(r, g)]) (t_frame s'), TV g)
              end
          end
      end.
  Fixpoint lift_all (outer : list (list tval)) (s : tst) (rs : list ref) : option (tst * list tval) :=
    match rs with
    | [] => Some (s, [])
    | r :: rs' => match lift outer s r with
                  | None => None
                  | Some (s1, t) => match lift_all outer s1 rs' with Some (s2, ts) => Some (s2, t :: ts) | None => None end
                  end
    end.
  Fixpoint lift_leaves (outer : list (list tval)) (s : tst) (ls : list leaf) : option (tst * list tval) :=
    match ls with
    | [] => Some (s, [])
    | LConst c :: ls' => match lift_leaves outer s ls' with Some (s2, ts) => Some (s2, TC c :: ts) | None => None end
    | LRef r :: ls' => match lift outer s r with
                       | None => None
                       | Some (s1, t) => match lift_leaves outer s1 ls' with Some (s2, ts) => Some (s2, t :: ts) | None => None end
                       end
    end.
  Definition is_obj (t : tval) : bool := match t with TV _ => true | TC _ => false end.
  Definition gvs (ts : list tval) : list nat := flat_map (fun t => match t with TV g => [g] | TC _ => [] end) ts.
  (** tracer.py:306-324: a fresh tracer with the parameters lifted *)
  Fixpoint lift_params (s : tst) (args : list tval) : tst * list tval :=
    match args with
    | [] => (s, [])
    | TC c :: args' => let (s', ts) := lift_params s args' in (s', TC c :: ts)
    | TV _ :: args' => let (s1, g) := new_arg s in let (s', ts) := lift_params s1 args' in (s', TV g :: ts)
    end.
  Definition start (args : list tval) : tst := let (s, ts) := lift_params (TSt [] 0 0 [] [] []) args in push ts s.

  (** TracedFunction: tracer.py:371-411; [tf_morph] = (positions of the variables, constants) *)
  Record traced : Type := Traced { tf_graph : graph; tf_names : list string; tf_caps : list ref; tf_morph : list nat * list C }.
  Definition consts (ts : list tval) : list C := flat_map (fun t => match t with TC c => [c] | TV _ => [] end) ts.
  Definition out_morph (outs : list tval) : list nat * list C :=
    let '(_, imms, pos) := list_split is_obj 0 outs in (pos, consts imms).
  Definition finish (s : tst) (ops : list gop) (outs : list tval) : traced :=
    Traced (Graph (t_inputs s) ops (gvs outs)) (t_names s) (map fst (t_caps s)) (out_morph outs).
  (** tracer.py:361-368: results of a region as objects of the current trace *)
  Definition reconstruct (m : list nat * list C) (gs : list nat) : option (list tval) := list_reconstruct (map TV gs) (map TC (snd m)) (fst m).

  (** dict keyed by identity, first occurrence kept; simp.py:65-70 *)
  Fixpoint add_refs (seen : list ref) (l : list ref) : list ref :=
    match l with [] => seen | r :: l' => add_refs (if existsb (ref_eqb r) seen then seen else seen ++ [r]) l' end.
  Definition merge_captures (a b : list ref) : list ref := add_refs [] (a ++ b).

  (** tracer.py:501-544; [ninp] = len(graph.inputs), which add_input extends *)
  Fixpoint align_caps (m : list (ref * nat)) (names : list string) (ninp : nat) (order : list ref) : list nat * list string :=
    match order with
    | [] => ([], names)
    | r :: order' =>
        match cap_find r m with
        | Some g => let (l, ns) := align_caps m names ninp order' in (g :: l, ns)
        | None => let (l, ns) := align_caps m (names ++ ["%capture" +++ show ninp]) (S ninp) order' in (List.length names :: l, ns)
        end
    end.
  Definition align (lead : nat) (order : list ref) (t : traced) : traced :=
    let inputs := g_inputs (tf_graph t) in
    let m := combine (tf_caps t) (skipn lead inputs) in
    let (l, ns) := align_caps m (tf_names t) (List.length inputs) order in
    Traced (Graph (firstn lead inputs ++ l) (g_ops (tf_graph t)) (g_outputs (tf_graph t))) ns order (tf_morph t).

  (** [strict] is not in the code: with strict = true tracing additionally fails when the two
      branches of a uniform_cond do not return the same constants at the same places, or when a
      loop condition is a constant.  The code is strict = false. *)
  Variable c_eqb : C -> C -> bool.
  Variable strict : bool.
  Definition nats_eqb (a b : list nat) : bool := if list_eq_dec Nat.eq_dec a b then true else false.
  Fixpoint imms_eqb (a b : list C) : bool :=
    match a, b with
    | [], [] => true
    | c :: a', d :: b' => c_eqb c d && imms_eqb a' b'
    | _, _ => false
    end.
  Definition same_morph (a b : list nat * list C) : bool := nats_eqb (fst a) (fst b) && imms_eqb (snd a) (snd b).

  (** tracing: tracer.py:289-359; the operations emitted, in order, and the results *)
  Fixpoint trace_body (outer : list (list tval)) (s : tst) (b : body) : option (tst * list gop * list tval) :=
    let sub (s : tst) (args : list tval) (f : body) : option traced :=
      match trace_body (outer ++ [t_frame s]) (start args) f with
      | Some (s', ops, outs) => Some (finish s' ops outs)
      | None => None
      end in
    match b with
    | BRet ls => match lift_leaves outer s ls with Some (s', outs) => Some (s', [], outs) | None => None end
    | BPrim p args n k =>
        match lift_all outer s args with
        | None => None
        | Some (s1, ts) =>
            let (s2, outs) := new_outs n s1 in
            match trace_body outer (push (map TV outs) s2) k with
            | Some (s3, ops, r) => Some (s3, GPrim p (gvs ts) outs :: ops, r)
            | None => None
            end
        end
    | BCond pred args t e k =>
        match lift outer s pred with
        | Some (s0, TV pg) =>
            match lift_all outer s0 args with
            | None => None
            | Some (s1, ts) =>
                match sub s1 ts t, sub s1 ts e with
                | Some tth, Some tel =>
                    (* simp.py:180-186, output signatures *)
                    if negb (Nat.eqb (List.length (g_outputs (tf_graph tth))) (List.length (g_outputs (tf_graph tel)))) then None
                    else if strict && negb (same_morph (tf_morph tth) (tf_morph tel)) then None
                    else
                      let order := merge_captures (tf_caps tth) (tf_caps tel) in
                      let lead := List.length (gvs ts) in
                      match lift_all outer s1 order with
                      | None => None
                      | Some (s2, cs) =>
                          let (s3, outs) := new_outs (List.length (g_outputs (tf_graph tth))) s2 in
                          match reconstruct (tf_morph tth) outs with
                          | None => None
                          | Some rs =>
                              match trace_body outer (push rs s3) k with
                              | Some (s4, ops, r) =>
                                  Some (s4, GCond (pg :: gvs ts ++ gvs cs) outs (tf_graph (align lead order tth)) (tf_graph (align lead order tel)) :: ops, r)
                              | None => None
                              end
                          end
                      end
                | _, _ => None
                end
            end
        | _ => None
        end
    | BWhile init c l k =>
        match lift_all outer s init with
        | None => None
        | Some (s1, ts) =>
            if Nat.eqb (List.length init) 0 || negb (forallb is_obj ts) then None else
            match sub s1 ts c, sub s1 ts l with
            | Some tc, Some tl =>
                let m := tf_morph tc in
                (* simp.py:296-301, 307-319 *)
                if negb (Nat.eqb (List.length (fst m) + List.length (snd m)) 1) then None
                else if strict && negb (Nat.eqb (List.length (fst m)) 1) then None
                else if negb (Nat.eqb (List.length (fst (tf_morph tl)) + List.length (snd (tf_morph tl))) (List.length ts)) then None
                else if negb (Nat.eqb (List.length (g_outputs (tf_graph tl))) (List.length ts)) then None
                else
                  let order := merge_captures (tf_caps tc) (tf_caps tl) in
                  let lead := List.length ts in
                  match lift_all outer s1 order with
                  | None => None
                  | Some (s2, cs) =>
                      let (s3, outs) := new_outs (List.length ts) s2 in
                      match trace_body outer (push (map TV outs) s3) k with
                      | Some (s4, ops, r) =>
                          Some (s4, GWhile (gvs ts ++ gvs cs) outs (tf_graph (align lead order tc)) (tf_graph (align lead order tl)) :: ops, r)
                      | None => None
                      end
                  end
            | _, _ => None
            end
        end
    | BCall args f k =>
        match lift_all outer s args with
        | None => None
        | Some (s1, ts) =>
            match sub s1 ts f with
            | None => None
            | Some tf =>
                match lift_all outer s1 (tf_caps tf) with
                | None => None
                | Some (s2, cs) =>
                    let (s3, outs) := new_outs (List.length (g_outputs (tf_graph tf))) s2 in
                    match reconstruct (tf_morph tf) outs with
                    | None => None
                    | Some rs =>
                        match trace_body outer (push rs s3) k with
                        | Some (s4, ops, r) => Some (s4, GCall (gvs ts ++ gvs cs) outs (tf_graph tf) :: ops, r)
                        | None => None
                        end
                    end
                end
            end
        end
    end.
  (** el.trace(fn, *args) in a world of objects [outer] *)
  Definition trace_fn (outer : list (list tval)) (args : list tval) (b : body) : option traced :=
    match trace_body outer (start args) b with Some (s, ops, outs) => Some (finish s ops outs) | None => None end.

  (** ** Graph evaluation *)
  Variable V : Type.
  Variable sem : nat -> list V -> list V.    (* primitive implementations *)
  Variable truth : V -> bool.
  Definition env : Type := nat -> option V.
  Definition set1 (e : env) (g : nat) (v : V) : env := fun x => if Nat.eqb x g then Some v else e x.
  Fixpoint bind_all (e : env) (gs : list nat) (vs : list V) : option env :=
    match gs, vs with
    | [], [] => Some e
    | g :: gs', v :: vs' => bind_all (set1 e g v) gs' vs'
    | _, _ => None                                       (* wrong number of values *)
    end.
  Fixpoint get_all (e : env) (gs : list nat) : option (list V) :=
    match gs with
    | [] => Some []
    | g :: gs' => match e g, get_all e gs' with Some v, Some vs => Some (v :: vs) | _, _ => None end
    end.
  (** at most n iterations; None when they do not suffice *)
  Fixpoint iterate {S : Type} (n : nat) (cond : S -> option bool) (step : S -> option S) (s : S) : option S :=
    match n with
    | O => None
    | S n' => match cond s with
              | None => None
              | Some false => Some s
              | Some true => match step s with Some s' => iterate n' cond step s' | None => None end
              end
    end.
  (** [fuel] bounds loop iterations and nesting *)
  Definition eval_op (rec : graph -> list V -> option (list V)) (fuel : nat) (e : env) (o : gop) : option env :=
    match o with
    | GPrim p ins outs => match get_all e ins with Some vs => bind_all e outs (sem p vs) | None => None end
    | GCond ins outs t f =>
        match get_all e ins with
        | Some (c :: vs) => match rec (if truth c then t else f) vs with Some rs => bind_all e outs rs | None => None end
        | _ => None
        end
    | GWhile ins outs c l =>
        match get_all e ins with
        | None => None
        | Some vs =>
            let n := List.length outs in
            let caps := skipn n vs in
            match iterate fuel (fun st => match rec c (st ++ caps) with
                                          | Some (v :: _) => Some (truth v) | Some [] => Some false | None => None end)
                          (fun st => rec l (st ++ caps)) (firstn n vs) with
            | Some rs => bind_all e outs rs
            | None => None
            end
        end
    | GCall ins outs f =>
        match get_all e ins with
        | Some vs => match rec f vs with Some rs => bind_all e outs rs | None => None end
        | None => None
        end
    end.
  Fixpoint eval_ops (rec : graph -> list V -> option (list V)) (fuel : nat) (e : env) (ops : list gop) : option env :=
    match ops with
    | [] => Some e
    | o :: ops' => match eval_op rec fuel e o with Some e' => eval_ops rec fuel e' ops' | None => None end
    end.
  Fixpoint eval_graph (fuel : nat) (g : graph) (inputs : list V) : option (list V) :=
    match fuel with
    | O => None
    | S f => match bind_all (fun _ => None) (g_inputs g) inputs with
             | None => None
             | Some e => match eval_ops (eval_graph f) f e (g_ops g) with
                         | Some e' => get_all e' (g_outputs g)
                         | None => None
                         end
             end
    end.

  (** ** Specification: running the function directly *)
  Variable ctruth : C -> bool.
  Inductive dval : Type := DV (v : V) | DC (c : C).
  Definition dlook (outer : list (list dval)) (frame : list dval) (r : ref) : option dval :=
    if Nat.eqb (fst r) (List.length outer) then nth_error frame (snd r)
    else match nth_error outer (fst r) with Some f => nth_error f (snd r) | None => None end.
  Fixpoint dlooks (outer : list (list dval)) (frame : list dval) (rs : list ref) : option (list dval) :=
    match rs with
    | [] => Some []
    | r :: rs' => match dlook outer frame r, dlooks outer frame rs' with Some v, Some vs => Some (v :: vs) | _, _ => None end
    end.
  Fixpoint dleaves (outer : list (list dval)) (frame : list dval) (ls : list leaf) : option (list dval) :=
    match ls with
    | [] => Some []
    | LConst c :: ls' => match dleaves outer frame ls' with Some vs => Some (DC c :: vs) | None => None end
    | LRef r :: ls' => match dlook outer frame r, dleaves outer frame ls' with Some v, Some vs => Some (v :: vs) | _, _ => None end
    end.
  Definition objs (vs : list dval) : list V := flat_map (fun d => match d with DV v => [v] | DC _ => [] end) vs.
  Definition dtruth (d : dval) : bool := match d with DV v => truth v | DC c => ctruth c end.
  (** the body of a function running on actual values, primitives executed eagerly, branches and
      loops taken as in Python *)
  Fixpoint run_body (fuel : nat) : list (list dval) -> list dval -> body -> option (list dval) :=
    match fuel with
    | O => fun _ _ _ => None
    | S f =>
        fix go (outer : list (list dval)) (frame : list dval) (b : body) : option (list dval) :=
          match b with
          | BRet ls => dleaves outer frame ls
          | BPrim p args n k =>
              match dlooks outer frame args with
              | None => None
              | Some vs => let rs := sem p (objs vs) in
                           if Nat.eqb (List.length rs) n then go outer (frame ++ map DV rs) k else None
              end
          | BCond pred args t e k =>
              match dlook outer frame pred, dlooks outer frame args with
              | Some (DV c), Some vs =>
                  match run_body f (outer ++ [frame]) vs (if truth c then t else e) with
                  | Some rs => go outer (frame ++ rs) k
                  | None => None
                  end
              | _, _ => None
              end
          | BWhile init c l k =>
              match dlooks outer frame init with
              | None => None
              | Some vs =>
                  match iterate f (fun st => match run_body f (outer ++ [frame]) st c with Some [d] => Some (dtruth d) | _ => None end)
                                  (fun st => run_body f (outer ++ [frame]) st l) vs with
                  | Some rs => go outer (frame ++ rs) k
                  | None => None
                  end
              end
          | BCall args g k =>
              match dlooks outer frame args with
              | None => None
              | Some vs => match run_body f (outer ++ [frame]) vs g with
                           | Some rs => go outer (frame ++ rs) k
                           | None => None
                           end
              end
          end
    end.

  (** outer objects used by a function at nesting level [lvl], in order of first evaluation
      (predicate, arguments, branches left to right), with repetitions *)
  Definition outer_only (lvl : nat) (l : list ref) : list ref := filter (fun r => Nat.ltb (fst r) lvl) l.
  Definition leaf_refs (ls : list leaf) : list ref := flat_map (fun l => match l with LRef r => [r] | LConst _ => [] end) ls.
  Fixpoint uses (lvl : nat) (b : body) : list ref :=
    match b with
    | BRet ls => outer_only lvl (leaf_refs ls)
    | BPrim _ args _ k => outer_only lvl args ++ uses lvl k
    | BCond p args t e k => outer_only lvl (p :: args ++ uses (S lvl) t ++ uses (S lvl) e) ++ uses lvl k
    | BWhile init c l k => outer_only lvl (init ++ uses (S lvl) c ++ uses (S lvl) l) ++ uses lvl k
    | BCall args f k => outer_only lvl (args ++ uses (S lvl) f) ++ uses lvl k
    end.
  (** is the reference an object (not a constant) *)
  Definition refers_obj (outer : list (list tval)) (r : ref) : bool :=
    match nth_error outer (fst r) with Some f => match nth_error f (snd r) with Some t => is_obj t | None => false end | None => false end.
  (** tracer.py:546-565 and 567-578: calling the traced function *)
  Definition prepare_inputs (args : list dval) (captured : list V) : list V := objs args ++ captured.
  Definition d_reconstruct (m : list nat * list C) (vs : list V) : option (list dval) :=
    list_reconstruct (map DV vs) (map DC (snd m)) (fst m).
End Trace.
Arguments LRef {C}. Arguments LConst {C}.
Arguments BRet {C}. Arguments BPrim {C}. Arguments BCond {C}. Arguments BWhile {C}. Arguments BCall {C}.
Arguments TV {C}. Arguments TC {C}. Arguments DV {C V}. Arguments DC {C V}.
Arguments TSt {C}. Arguments t_names {C}. Arguments t_argc {C}. Arguments t_valc {C}. Arguments t_inputs {C}. Arguments t_caps {C}. Arguments t_frame {C}.
Arguments push {C}. Arguments new_arg {C}. Arguments new_outs {C}. Arguments lift {C}. Arguments lift_all {C}. Arguments lift_leaves {C}.
Arguments is_obj {C}. Arguments gvs {C}. Arguments lift_params {C}. Arguments start {C}. Arguments Traced {C}. Arguments tf_graph {C}. Arguments tf_names {C}.
Arguments tf_caps {C}. Arguments tf_morph {C}. Arguments consts {C}. Arguments out_morph {C}. Arguments finish {C}. Arguments reconstruct {C}.
Arguments align {C}. Arguments imms_eqb {C}. Arguments same_morph {C}. Arguments trace_body {C}. Arguments trace_fn {C}.
Arguments set1 {V}. Arguments bind_all {V}. Arguments get_all {V}. Arguments iterate {S}. Arguments eval_op {V}. Arguments eval_ops {V}. Arguments eval_graph {V}.
Arguments dlook {C V}. Arguments dlooks {C V}. Arguments dleaves {C V}. Arguments objs {C V}. Arguments dtruth {C V}. Arguments run_body {C V}.
Arguments leaf_refs {C}. Arguments uses {C}. Arguments refers_obj {C}. Arguments prepare_inputs {C V}. Arguments d_reconstruct {C V}.
