(** * SPU links of a worker process: template links shared by all requests, and one
    spawned link per request and runtime configuration.
    Models [backends/spu_state.py:172-350], [backends/simp_worker/infra.py:81-98],
    [backends/simp_worker/request.py:27-80] and the key of
    [backends/channel.py:75-84].
    Simplified: a link is represented by what decides who it talks to (below);
    the cryptographic runtime on top of it is not modelled.  Linking is written
    from yacl's documentation: [Context::Spawn()] names the child after a counter
    of the parent context; a brpc context listens on its own endpoint. *)
From Coq Require Import List Arith Bool Lia String.
Import ListNotations.
Local Open Scope nat_scope.

(** How a worker reaches its peers (spu_state.py:240-245): over brpc endpoints, or
    over the worker's communicator.  (The third mode needs neither and is for
    one process.) *)
Inductive mode := Brpc | Channels.

(** One [spu.exec] in a request: the request (job), the sorted parties, the
    configuration.  [link_cfg] stands for protocol, field, fraction bits and the
    brpc options; [flags] for the four profiling flags, which are part of the
    runtime's key only (spu_state.py:250-273). *)
Record exec := Ex { job : nat; parties : list nat; link_cfg : nat; flags : nat }.

(** position of a rank in a party list *)
Fixpoint pos (r : nat) (l : list nat) : option nat :=
  match l with [] => None | x :: l' => if x =? r then Some 0 else option_map S (pos r l') end.

(** spu_state.py:250-259: the key of a template link.  Endpoints are listed for
    brpc only; endpoints of different ranks differ, so ranks stand for them. *)
Definition tkey : Type := (option nat * nat * nat * option (list nat))%type.
Definition tkey_of (m : mode) (me : nat) (e : exec) : tkey :=
  (pos me (parties e), List.length (parties e), link_cfg e,
   match m with Brpc => Some (parties e) | Channels => None end).

(** spu_state.py:260-273, inside the [SPUState] of one request (request.py:77):
    the key of a runtime, with the request. *)
Definition rkey : Type := (nat * tkey * nat)%type.
Definition rkey_of (m : mode) (me : nat) (e : exec) : rkey := (job e, tkey_of m me e, flags e).

Definition opt_nat_eqb (a b : option nat) : bool :=
  match a, b with Some x, Some y => x =? y | None, None => true | _, _ => false end.
Fixpoint nats_eqb (a b : list nat) : bool :=
  match a, b with
  | [], [] => true
  | x :: a', y :: b' => (x =? y) && nats_eqb a' b'
  | _, _ => false
  end.
Definition opt_nats_eqb (a b : option (list nat)) : bool :=
  match a, b with Some x, Some y => nats_eqb x y | None, None => true | _, _ => false end.
Definition tkey_eqb (a b : tkey) : bool :=
  match a, b with
  | (r, s, c, e), (r', s', c', e') =>
      opt_nat_eqb r r' && (s =? s') && (c =? c') && opt_nats_eqb e e'
  end.
Definition rkey_eqb (a b : rkey) : bool :=
  match a, b with (j, k, f), (j', k', f') => (j =? j') && tkey_eqb k k' && (f =? f') end.

(** What decides who a spawned link talks to: the ranks of the template's peers
    and the name of the child, i.e. the template's counter.  Two parties'
    links exchange messages when both agree.  Over the communicator the message
    key is "spu:" plus a tag made of that name (channel.py:75-84): neither the
    request nor the configuration is in it. *)
Record wire := Wire { w_parties : list nat; w_index : nat }.

(** Process state: template links with their parties and spawn counters
    ([_spu_template_links]), runtimes of the requests so far. *)
Record wstate := { templates : list (tkey * (list nat * nat)); runtimes : list (rkey * wire) }.
Definition start : wstate := {| templates := []; runtimes := [] |}.

Fixpoint find_t (k : tkey) (l : list (tkey * (list nat * nat))) : option (list nat * nat) :=
  match l with [] => None | (k', v) :: l' => if tkey_eqb k' k then Some v else find_t k l' end.
Fixpoint find_r (k : rkey) (l : list (rkey * wire)) : option wire :=
  match l with [] => None | (k', v) :: l' => if rkey_eqb k' k then Some v else find_r k l' end.
Fixpoint set_t (k : tkey) (v : list nat * nat) (l : list (tkey * (list nat * nat))) :=
  match l with
  | [] => []
  | (k', v') :: l' => if tkey_eqb k' k then (k', v) :: l' else (k', v') :: set_t k v l'
  end.

(** spu_state.py:352-389: a new brpc context listens on the worker's own endpoint;
    the process can listen there once. *)
Definition listening (m : mode) (st : wstate) : bool :=
  match m, templates st with Brpc, _ :: _ => true | _, _ => false end.

(** spu_state.py:208-296 [get_or_create] with infra.py:95-98: [None] = raises. *)
Definition get_or_create (m : mode) (me : nat) (st : wstate) (e : exec) : option wire * wstate :=
  let rk := rkey_of m me e in
  let tk := tkey_of m me e in
  match find_r rk (runtimes st) with
  | Some w => (Some w, st)
  | None =>
      match find_t tk (templates st) with
      | Some (ps, n) =>
          let w := Wire ps n in
          (Some w, {| templates := set_t tk (ps, S n) (templates st);
                      runtimes := (rk, w) :: runtimes st |})
      | None =>
          if listening m st then (None, st)
          else let w := Wire (parties e) 0 in
               (Some w, {| templates := (tk, (parties e, 1)) :: templates st;
                           runtimes := (rk, w) :: runtimes st |})
      end
  end.

(** A worker's history: the answers to a sequence of executions, in the order in
    which the worker reaches them. *)
Fixpoint serve (m : mode) (me : nat) (st : wstate) (h : list exec) : list (option wire) :=
  match h with
  | [] => []
  | e :: h' => let '(w, st') := get_or_create m me st e in w :: serve m me st' h'
  end.

(** The link that execution [i] of the history gets. *)
Definition link_of (m : mode) (me : nat) (h : list exec) (i : nat) : option wire :=
  match nth_error (serve m me start h) i with Some w => w | None => None end.
