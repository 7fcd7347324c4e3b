(** Model of backends/simp_worker/collective_algorithms.py, collectives.py and of the worker
    shuffle (ops.py:81-108), as programs over a communication context. *)
From stdpp Require Import gmap sorting.
From Verif Require Import NetSpec NetModel.

(** Python values that travel: booleans, lists, other objects. *)
Inductive val (O : Type) : Type := VBool (b : bool) | VList (l : list (val O)) | VObj (o : O).
Global Arguments VBool {O}. Global Arguments VList {O}. Global Arguments VObj {O}.
(** bool(x); for other objects truthiness is immaterial here and taken to be True *)
Definition truth {O} (v : val O) : bool :=
  match v with VBool b => b | VList l => negb (Nat.eqb (length l) 0) | VObj _ => true end.

Inductive cexn : Type := EmptyParticipants | OutOfRange | NotParticipant | RootNotParticipant
  | NotAList | MissingRank | NotUniform.

Section Coll.
  Context {O : Type}.
  Notation msg := (val O).
  Notation prg := (prog msg cexn).

  (** collective_algorithms.py:38-50  tuple(sorted({int(r) ...})); ranks are naturals here,
      so the check r < 0 is vacuous *)
  Definition sorted_set (l : list nat) : list nat := merge_sort le (remove_dups l).
  Definition normalize (rank world : nat) (participants : list nat) : list nat + cexn :=
    let ps := sorted_set participants in
    match ps with
    | [] => inr EmptyParticipants
    | _ => if existsb (fun r => Nat.leb world r) ps then inr OutOfRange
           else if existsb (Nat.eqb rank) ps then inl ps else inr NotParticipant
    end.

  (** the loops "for r in ps: if r == root: continue; ... ctx.recv(r)" with loop state S *)
  Fixpoint for_recv {S A} (f : S -> nat -> msg -> S) (s : S) (root : nat) (ps : list nat) (k : S -> prg A) : prg A :=
    match ps with
    | [] => k s
    | r :: ps' => if Nat.eqb r root then for_recv f s root ps' k
                  else Recv r (fun m => for_recv f (f s r m) root ps' k)
    end.
  (** "for r in ps: if r == root: continue; ctx.send(r, m)" *)
  Fixpoint for_send {A} (m : msg) (root : nat) (ps : list nat) (k : prg A) : prg A :=
    match ps with
    | [] => k
    | r :: ps' => if Nat.eqb r root then for_send m root ps' k else Send r m (for_send m root ps' k)
    end.
  Definition with_ps {A} (rank world : nat) (participants : list nat) (f : list nat -> prg A) : prg A :=
    match normalize rank world participants with inl ps => f ps | inr e => Throw e end.
  Definition root_of (ps : list nat) : nat := hd 0 ps.

  (** collective_algorithms.py:53-72 *)
  Definition barrier (rank world : nat) (participants : list nat) : prg unit :=
    with_ps rank world participants (fun ps =>
      let root := root_of ps in
      if negb (Nat.eqb rank root) then Send root (VBool true) (Recv root (fun _ => Ret tt))
      else for_recv (fun s _ _ => s) tt root ps (fun _ => for_send (VBool true) root ps (Ret tt))).

  (** collective_algorithms.py:75-95 *)
  Definition broadcast (rank world : nat) (value : msg) (root : nat) (participants : list nat) : prg msg :=
    with_ps rank world participants (fun ps =>
      if negb (existsb (Nat.eqb root) ps) then Throw RootNotParticipant
      else if Nat.eqb rank root then for_send value root ps (Ret value)
      else Recv root (fun m => Ret m)).

  (** collective_algorithms.py:98-130 *)
  Definition allgather (rank world : nat) (value : msg) (participants : list nat) : prg (list msg) :=
    with_ps rank world participants (fun ps =>
      let root := root_of ps in
      if negb (Nat.eqb rank root) then
        Send root value (Recv root (fun g => match g with VList l => Ret l | _ => Throw NotAList end))
      else
        for_recv (fun (d : gmap nat msg) r m => <[r := m]> d) {[root := value]} root ps (fun d =>
          match mapM (fun r => d !! r) ps with
          | None => Throw MissingRank
          | Some gathered => for_send (VList gathered) root ps (Ret gathered)
          end)).

  (** collective_algorithms.py:160-187 *)
  Definition allreduce (combine : bool -> bool -> bool) (rank world : nat) (value : bool) (participants : list nat) : prg bool :=
    with_ps rank world participants (fun ps =>
      let root := root_of ps in
      if negb (Nat.eqb rank root) then Send root (VBool value) (Recv root (fun m => Ret (truth m)))
      else
        for_recv (fun acc _ m => combine acc (truth m)) value root ps (fun acc =>
          for_send (VBool acc) root ps (Ret acc))).
  (** collective_algorithms.py:133-157 *)
  Definition allreduce_and := allreduce andb.
  Definition allreduce_or := allreduce orb.
  Definition allreduce_xor := allreduce xorb.

  (** collectives.py:47-82  resolve_participants: explicit argument, op attribute "parties",
      worker.current_parties, or everybody *)
  Definition resolve_participants (explicit op_parties current : option (list nat)) (world : nat) : list nat :=
    match explicit with
    | Some p => p
    | None => match op_parties with
              | Some p => p
              | None => match current with Some p => p | None => seq 0 world end
              end
    end.

  (** collectives.py:169-198 *)
  Definition verify_uniform_predicate (rank world : nat) (pred : bool) (participants : list nat) : prg bool :=
    bind (allreduce_and rank world pred participants) (fun all_and =>
    bind (allreduce_or rank world pred participants) (fun all_or =>
    if negb (Bool.eqb all_and all_or) then
      bind (allgather rank world (VBool pred) participants) (fun gathered => Throw NotUniform)
    else Ret pred)).

  (** ops.py:81-108  _shuffle_static_worker_impl; [routing] is the dict tgt -> src as the list
      of its items *)
  Definition assoc (routing : list (nat * nat)) (r : nat) : option nat :=
    match List.find (fun p => Nat.eqb (fst p) r) routing with Some (_, src) => Some src | None => None end.
  Fixpoint shuffle_sends {A} (rank : nat) (routing : list (nat * nat)) (data : msg) (k : prg A) : prg A :=
    match routing with
    | [] => k
    | (tgt, src) :: rest =>
        if Nat.eqb src rank && negb (Nat.eqb tgt rank) then Send tgt data (shuffle_sends rank rest data k)
        else shuffle_sends rank rest data k
    end.
  Definition shuffle (rank : nat) (routing : list (nat * nat)) (data : msg) : prg (option msg) :=
    shuffle_sends rank routing data
      (match assoc routing rank with
       | Some src => if Nat.eqb src rank then Ret (Some data) else Recv src (fun m => Ret (Some m))
       | None => Ret None
       end).
End Coll.
