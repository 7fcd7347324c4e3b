(** Model of the SIMP layer: trace-time party typing (dialects/simp.py), the worker handlers
    (backends/simp_worker/ops.py), the collective library (libs/collective.py) and the driver's
    collection of results (backends/simp_driver/ops.py).

    A multi-party value is one optional local value per rank ([None] is Python's None, "not
    held").  Ranks run the same program; delivery of a shuffle is the joint function proved of
    the message-passing code in C33, and agreement of a uniform predicate is the one of C32. *)
From Coq Require Import List Bool Arith.
Import ListNotations.
Local Open Scope nat_scope.

Section Simp.
Variables (VT V : Type).
Variable vt_eqb : VT -> VT -> bool.      (* equality of value types *)
Variable truthy : V -> bool.             (* bool(pred.unwrap()) *)
Variable n : nat.                        (* world size *)

(** edsl/typing.py MPType: value type and static parties (None: dynamic) *)
Record mptype : Type := MP { vt : VT; parties : option (list nat) }.
Definition mpval : Type := nat -> option V.

(** tuple(sorted(set(l))) *)
Definition norm (l : list nat) : list nat := filter (fun r => existsb (Nat.eqb r) l) (seq 0 (S (list_max l))).
Definition inb (r : nat) (l : list nat) : bool := existsb (Nat.eqb r) l.
Definition subset (a b : list nat) : bool := forallb (fun r => inb r b) a.
Definition parties_eqb (a b : option (list nat)) : bool :=
  match a, b with
  | None, None => true
  | Some x, Some y => (length x =? length y) && forallb (fun p => fst p =? snd p) (combine x y)
  | _, _ => false
  end.
Definition mptype_eqb (a b : mptype) : bool := vt_eqb (vt a) (vt b) && parties_eqb (parties a) (parties b).

(** A traced local function: the value types of its outputs, and what evaluating its region on
    one party's arguments gives (k-th output). *)
Record local : Type := Local { lf_out : list VT; lf_sem : list (option V) -> nat -> option V }.

(** Operations; operands are positions in the environment, a region's environment starts with
    its inputs (arguments then captures). A routing dict is a list (target, source). *)
Inductive op : Type :=
| PCallStatic (ps : list nat) (args : list nat) (f : local)
| PCallDynamic (args : list nat) (f : local)
| Shuffle (src : nat) (routing : list (nat * nat))
| Converge (args : list nat)
| UniformCond (pred : nat) (args : list nat) (then_ else_ : region)
| WhileLoop (init captures : list nat) (imm : option bool) (cond body : region)   (* imm: the constant cond_fn returned, when it returned no Object *)
with region : Type :=
| Ret (outs : list nat)
| Let (o : op) (rest : region).

Fixpoint lookup {A : Type} (env : list A) (is_ : list nat) : option (list A) :=
  match is_ with
  | [] => Some []
  | i :: rest => match nth_error env i, lookup env rest with Some x, Some l => Some (x :: l) | _, _ => None end
  end.

(* ---------------------------------------------------------------- trace-time typing *)

(** dialects/simp.py:73-97 _deduce_parties: None as soon as one input is dynamic, otherwise the
    intersection *)
Definition deduce_parties (ts : list mptype) : option (list nat) :=
  match ts with
  | [] => None
  | t :: rest =>
      if existsb (fun t => match parties t with None => true | _ => false end) ts then None
      else Some (norm (fold_left (fun cur t => match parties t with Some p => filter (fun r => inb r p) cur | None => cur end)
                                 rest (match parties t with Some p => p | None => [] end)))
  end.
(** 408-439 pcall_static *)
Definition type_pcall_static (ps : list nat) (f : local) (ts : list mptype) : option (list mptype) :=
  let requested := norm ps in
  let ok := match deduce_parties ts with None => true | Some d => subset requested d end in
  if ok then Some (map (fun v => MP v (Some requested)) (lf_out f)) else None.
(** 603-640 _shuffle_ae *)
Definition type_shuffle (t : mptype) (routing : list (nat * nat)) : option mptype :=
  match routing with
  | [] => None
  | _ =>
      let ok := match parties t with None => true | Some p => forallb (fun ts => inb (snd ts) p) routing end in
      if ok then Some (MP (vt t) (Some (norm (map fst routing)))) else None
  end.
(** 643-701 _converge_ae *)
Fixpoint pairwise_disjoint (ps : list (list nat)) : bool :=
  match ps with
  | [] => true
  | p :: rest => forallb (fun q => forallb (fun r => negb (inb r q)) p) rest && pairwise_disjoint rest
  end.
Definition type_converge (ts : list mptype) : option mptype :=
  match ts with
  | [] => None
  | t :: rest =>
      if forallb (fun u => vt_eqb (vt u) (vt t)) rest then
        if existsb (fun t => match parties t with None => true | _ => false end) ts then Some (MP (vt t) None)
        else
          let ps := map (fun t => match parties t with Some p => p | None => [] end) ts in
          if pairwise_disjoint ps then
            Some (MP (vt t) (match concat ps with [] => None | all => Some (norm all) end))
          else None
      else None
  end.

(** 130-226 uniform_cond and 262-346 while_loop: branch signatures must match; the loop body
    returns the state types; shapes of predicates are not modelled *)
Fixpoint type_region (r : region) (env : list mptype) : option (list mptype) :=
  match r with
  | Ret outs => lookup env outs
  | Let o rest => match type_op o env with Some ts => type_region rest (env ++ ts) | None => None end
  end
with type_op (o : op) (env : list mptype) : option (list mptype) :=
  match o with
  | PCallStatic ps args f => match lookup env args with Some ts => type_pcall_static ps f ts | None => None end
  | PCallDynamic args f => match lookup env args with Some _ => Some (map (fun v => MP v None) (lf_out f)) | None => None end
  | Shuffle src routing =>
      match nth_error env src with Some t => option_map (fun t => [t]) (type_shuffle t routing) | None => None end
  | Converge args => match lookup env args with Some ts => option_map (fun t => [t]) (type_converge ts) | None => None end
  | UniformCond pred args th el =>
      match nth_error env pred, lookup env args with
      | Some _, Some ts =>
          match type_region th ts, type_region el ts with
          | Some a, Some b => if (length a =? length b) && forallb (fun p => mptype_eqb (fst p) (snd p)) (combine a b) then Some a else None
          | _, _ => None
          end
      | _, _ => None
      end
  | WhileLoop init caps imm cond body =>
      match lookup env init, lookup env caps with
      | Some st, Some cs =>
          match type_region cond (st ++ cs), type_region body (st ++ cs) with
          | Some cts, Some b =>
              (* 296-305: exactly one output, Object or immediate *)
              if negb (length cts + (match imm with Some _ => 1 | None => 0 end) =? 1) then None else
              match st with
              | [] => None
              | _ => if (length b =? length st) && forallb (fun p => mptype_eqb (fst p) (snd p)) (combine b st) then Some st else None
              end
          | _, _ => None
          end
      | _, _ => None
      end
  end.

(* ---------------------------------------------------------------- run time *)

(** Only the ranks in [act] execute (all of them, except inside a loop some ranks have left). *)
Definition ranks : list nat := seq 0 n.
Definition holds_all (args : list mpval) (r : nat) : bool := forallb (fun v => match v r with Some _ => true | None => false end) args.
(** simp_worker/ops.py:39-68; with [strict], an executing rank without one of the arguments
    counts as an error (the code calls the function with None) *)
Definition run_pcall (strict : bool) (act : nat -> bool) (exec : nat -> bool) (f : local) (args : list mpval) : option (list mpval) :=
  if strict && negb (forallb (fun r => negb (act r && exec r) || holds_all args r) ranks) then None
  else Some (map (fun k : nat => fun r => if act r && exec r then lf_sem f (map (fun v => v r) args) k else None) (seq 0 (length (lf_out f)))).
(** 83-107: an executing target whose source does not execute waits for ever; sending to a rank
    outside the world is an error of the communicator *)
Definition dict_get (routing : list (nat * nat)) (r : nat) : option nat :=
  option_map snd (find (fun ts => fst ts =? r) routing).
Definition run_shuffle (act : nat -> bool) (v : mpval) (routing : list (nat * nat)) : option mpval :=
  if forallb (fun r => match dict_get routing r with Some s => negb (act r) || (act s && (s <? n)) | None => true end) ranks
     && forallb (fun ts => negb (act (snd ts) && (snd ts <? n)) || (fst ts <? n)) routing
  then Some (fun r => if act r then match dict_get routing r with Some s => v s | None => None end else None)
  else None.
(** 110-115 *)
Definition run_converge (args : list mpval) : mpval :=
  fun r => fold_right (fun v acc => match v r with Some x => Some x | None => acc end) None args.

Definition bool_of (v : mpval) (r : nat) : bool := match v r with Some x => truthy x | None => false end.

Fixpoint run_region (strict : bool) (fuel : nat) (act : nat -> bool) (g : region) (env : list mpval) {struct g} : option (list mpval) :=
  match g with
  | Ret outs => lookup env outs
  | Let o rest => match run_op strict fuel act o env with Some vs => run_region strict fuel act rest (env ++ vs) | None => None end
  end
with run_op (strict : bool) (fuel : nat) (act : nat -> bool) (o : op) (env : list mpval) {struct o} : option (list mpval) :=
  match o with
  | PCallStatic ps args f => match lookup env args with Some vs => run_pcall strict act (fun r => inb r (norm ps)) f vs | None => None end
  | PCallDynamic args f => match lookup env args with Some vs => run_pcall false act (fun _ => true) f vs | None => None end
  | Shuffle src routing => match nth_error env src with Some v => option_map (fun v => [v]) (run_shuffle act v routing) | None => None end
  | Converge args => match lookup env args with Some vs => Some [run_converge vs] | None => None end
  | UniformCond pred args th el =>
      (* 118-137: verify_uniform_predicate over the world: everyone must take part and agree *)
      match nth_error env pred, lookup env args with
      | Some p, Some vs =>
          if forallb act ranks then
            if forallb (bool_of p) ranks then run_region strict fuel act th vs
            else if forallb (fun r => negb (bool_of p r)) ranks then run_region strict fuel act el vs
            else None
          else None
      | _, _ => None
      end
  | WhileLoop init caps imm cond body =>
      (* 140-168: every rank decides for itself, nothing is verified *)
      match lookup env init, lookup env caps with
      | Some st, Some cs =>
          (fix loop (k : nat) (act : nat -> bool) (st : list mpval) {struct k} : option (list mpval) :=
             match k with
             | O => None
             | S k =>
                 match run_region strict fuel act cond (st ++ cs) with
                 | Some (c :: _) =>
                     let act' := fun r => act r && bool_of c r in
                     if forallb (fun r => negb (act' r)) ranks then Some st
                     else match run_region strict fuel act' body (st ++ cs) with
                       | Some st' =>
                           if length st' =? length st then
                             loop k act' (map (fun p : mpval * mpval => fun r => if act' r then fst p r else snd p r) (combine st' st))
                           else None
                       | None => None
                       end
                 | Some [] => Some st      (* 155: cond_res is empty, so cond_val = False *)
                 | None => None
                 end
             end) fuel act st
      | _, _ => None
      end
  end.

(* ---------------------------------------------------------------- libs/collective.py *)

(** a typed multi-party object; each library function issues shuffles / converges *)
Definition object : Type := (mptype * mpval)%type.
Definition all_act : nat -> bool := fun _ => true.
Definition shuffle_static (x : object) (routing : list (nat * nat)) : option object :=
  match type_shuffle (fst x) routing, run_shuffle all_act (snd x) routing with
  | Some t, Some v => Some (t, v)
  | _, _ => None
  end.
Definition converge (xs : list object) : option object :=
  match type_converge (map fst xs) with
  | Some t => Some (t, run_converge (map snd xs))
  | None => None
  end.
(** dict.fromkeys(keys, v): a repeated key keeps its first position *)
Definition fromkeys (keys : list nat) (v : nat) : list (nat * nat) := map (fun k => (k, v)) keys.
(** 70-91 _get_single_party *)
Definition single_party (x : object) : option nat :=
  match parties (fst x) with Some [p] => Some p | _ => None end.
(** 120-147 *)
Definition transfer (x : object) (to : nat) : option object :=
  match single_party x with
  | Some frm => if frm =? to then Some x else shuffle_static x [(to, frm)]
  | None => None
  end.
(** 155-182 *)
Definition replicate (x : object) (to : list nat) : option object :=
  match single_party x with Some frm => shuffle_static x (fromkeys to frm) | None => None end.
Fixpoint mapO {A B : Type} (f : A -> option B) (l : list A) : option (list B) :=
  match l with
  | [] => Some []
  | a :: l => match f a, mapO f l with Some b, Some bs => Some (b :: bs) | _, _ => None end
  end.
(** 185-228 *)
Definition distribute (xs : list object) (frm : nat) : option object :=
  match xs with
  | [] => None
  | _ =>
      if forallb (fun x => match parties (fst x) with Some [p] => p =? frm | _ => false end) xs then
        match mapO (fun ix => shuffle_static (snd ix) [(fst ix, frm)]) (combine (seq 0 (length xs)) xs) with
        | Some pieces => converge pieces
        | None => None
        end
      else None
  end.
(** 236-265 *)
Definition collect (x : object) (to : nat) : option (list object) :=
  match parties (fst x) with
  | Some ps => mapO (fun src => shuffle_static x [(to, src)]) ps
  | None => None
  end.
(** 273-305 *)
Definition allreplicate (x : object) : option (list object) :=
  match parties (fst x) with
  | Some ps => mapO (fun src => shuffle_static x (fromkeys ps src)) ps
  | None => None
  end.
(** 308-330 *)
Definition permute (x : object) (mapping : list (nat * nat)) : option object := shuffle_static x mapping.
End Simp.

(* ---------------------------------------------------------------- driver *)

(** simp_driver/ops.py:67-92 _collect_to_hostvars: [results] in rank order, [None] for a worker
    without result; an index beyond a worker's list is an IndexError *)
Definition collect_to_hostvars {A : Type} (results : list (option (list (option A)))) (num_outputs : nat) : option (list (list (option A))) :=
  mapO (fun k => mapO (fun res => match res with
                                  | None => Some None
                                  | Some l => nth_error l k
                                  end) results) (seq 0 num_outputs).
(** an argument of a dispatched operation: a DriverVar (one entry per rank) or a plain value *)
Inductive hostarg (A : Type) : Type := DVar (l : list (option A)) | Plain (a : A).
Arguments DVar {A} l. Arguments Plain {A} a.
(** 102-110: arg[rank] for a DriverVar (IndexError beyond its length) *)
Definition party_input {A : Type} (rank : nat) (a : hostarg A) : option (option A) :=
  match a with DVar l => nth_error l rank | Plain a => Some (Some a) end.
(** 95-117 _generic_simp_dispatch with mem.py:197-237: one submission per rank; [worker rank
    inputs] is the list of results of evaluating the wrapped operation there ([None]: it
    raised), reported as None when the operation has no outputs. A local value and its URI in
    the worker's store are identified (C28). *)
Definition dispatch {A : Type} (world : nat) (worker : nat -> list (option A) -> option (list (option A))) (args : list (hostarg A)) (num_outputs : nat) : option (list (list (option A))) :=
  match mapO (fun rank => match mapO (party_input rank) args with
                          | None => None
                          | Some inputs => match worker rank inputs with
                                           | None => None
                                           | Some l => Some (if num_outputs =? 0 then None else Some l)
                                           end
                          end) (seq 0 world) with
  | None => None
  | Some results => collect_to_hostvars results num_outputs
  end.
