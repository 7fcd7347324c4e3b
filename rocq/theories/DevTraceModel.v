(** What a program of device calls becomes when it is traced for workers: the SIMP program with the
    operations that libs/device/api.py:174-258 (_device_run), 385-468 (_ensure_tee_session),
    471-608 (_d2d) and 684-712 (put) bind one after the other, written in the syntax of SimpModel;
    an object is the position of its value.  The choices made while tracing (same device, which
    kinds, session at hand or not) are those of DevProgModel, but on positions instead of values.

    Simplified: PPUs and TEEs only (what an SPU computes is not a local function of one party); the
    i-th session takes the i-th pair of fresh secret keys, as in DevProgModel. *)
From Coq Require Import Bool Arith String List.
From Verif Require Import SimpModel DeviceModel SpuRunModel DevProgModel.
Import ListNotations.
Local Open Scope nat_scope.

Section DevTrace.
Variables (VT V : Type).
Variable key_t : VT.
Variables (encrypt decrypt : V -> V -> V) (pub hkdf quote attest : V -> V) (derive : V -> V -> V).
Variable typ : V -> VT.
Variable cluster : string -> option device.
Variable draw : nat -> V * V.
Notation op := (SimpModel.op VT V).
Notation pc := (PCallStatic VT V).
Notation sh := (Shuffle VT V).


(** the sessions traced so far: positions of the two keys; how many were made *)
Record tstate : Type := TState { t_sessions : list ((string * string) * (nat * nat)); t_made : nat }.

(** 433-468; [k] is the next position; the keys are at [k + 10] and [k + 11] *)
Definition session_ops (k frm tee : nat) (tsk vsk : V) : list op :=
  [ pc [tee] [] (const VT V key_t tsk);                          (* k      tee_sk *)
    pc [tee] [] (const VT V key_t (pub tsk));                    (* k + 1  tee_pk *)
    pc [tee] [k + 1] (fn1 VT V key_t quote);                     (* k + 2 *)
    sh (k + 2) [(frm, tee)];                                     (* k + 3 *)
    pc [frm] [k + 3] (fn1 VT V key_t attest);                    (* k + 4 *)
    pc [frm] [] (const VT V key_t vsk);                          (* k + 5 *)
    pc [frm] [] (const VT V key_t (pub vsk));                    (* k + 6 *)
    sh (k + 6) [(tee, frm)];                                     (* k + 7 *)
    pc [frm] [k + 5; k + 4] (fn2 VT V key_t derive);             (* k + 8 *)
    pc [tee] [k; k + 7] (fn2 VT V key_t derive);                 (* k + 9 *)
    pc [frm] [k + 8] (fn1 VT V key_t hkdf);                      (* k + 10 *)
    pc [tee] [k + 9] (fn1 VT V key_t hkdf) ].                    (* k + 11 *)
Definition t_ensure (st : tstate) (k : nat) (ppu tee : device) : option (list op * (nat * nat) * tstate) :=
  match find (fun e => key_eqb (fst e) (dv_name ppu, dv_name tee)) (t_sessions st) with
  | Some (_, s) => Some ([], s, st)
  | None =>
      match dv_members ppu, dv_members tee with
      | [a], [b] => Some (session_ops k a b (fst (draw (t_made st))) (snd (draw (t_made st))), (k + 10, k + 11),
                          TState (((dv_name ppu, dv_name tee), (k + 10, k + 11)) :: t_sessions st) (S (t_made st)))
      | _, _ => None
      end
  end.
(** 560-608: encrypted with the key at [ka], decrypted with the key at [kb]; [t]: the type of the value *)
Definition encrypted_ops (k a b ka kb x : nat) (t : VT) : list op :=
  [ pc [a] [ka; x] (fn2 VT V key_t encrypt); sh k [(b, a)]; pc [b] [kb; k + 1] (fn2 VT V t decrypt) ].

(** 471-608: an object of type [t] at position [x]; the operations, where the result is, how many
    positions are taken *)
Definition t_move (st : tstate) (k : nat) (to_ : string) (d : string) (x : nat) (t : VT) : option (list op * nat * tstate) :=
  if String.eqb d to_ then Some ([], x, st)
  else match cluster d, cluster to_ with
       | Some from, Some dest =>
           match dv_kind from, dv_kind dest, dv_members from, dv_members dest with
           | PPU, PPU, [a], [b] => Some ([sh x [(b, a)]], k, st)
           | PPU, TEE, [a], [b] =>
               match t_ensure st k from dest with
               | Some (ops, (ka, kb), st) => Some (ops ++ encrypted_ops (k + length ops) a b ka kb x t, k + length ops + 2, st)
               | None => None
               end
           | TEE, PPU, [a], [b] =>
               match t_ensure st k dest from with
               | Some (ops, (kb, ka), st) => Some (ops ++ encrypted_ops (k + length ops) a b ka kb x t, k + length ops + 2, st)
               | None => None
               end
           | _, _, _, _ => None
           end
       | _, _ => None
       end.
(** an object while tracing: its device, its position, its type *)
Definition tobj : Type := (string * (nat * VT))%type.
Fixpoint t_moves (st : tstate) (k : nat) (to_ : string) (ps : list tobj) : option (list op * list nat * tstate) :=
  match ps with
  | [] => Some ([], [], st)
  | (d, (x, t)) :: r =>
      match t_move st k to_ d x t with
      | Some (ops, y, st) =>
          match t_moves st (k + length ops) to_ r with Some (ops', ys, st) => Some (ops ++ ops', y :: ys, st) | None => None end
      | None => None
      end
  end.

(** arguments: objects, or Python values *)
Definition t_resolve (env : list tobj) (a : ref V) : option (tobj + V) :=
  match a with Ref _ i => option_map inl (nth_error env i) | Lit _ v => Some (inr v) end.
Definition t_objects (args : list (tobj + V)) : list tobj := flat_map (fun a => match a with inl p => [p] | inr _ => [] end) args.
Definition t_template (args : list (tobj + V)) : list (option V) := map (fun a => match a with inl _ => None | inr v => Some v end) args.

(** 174-258: a call on a PPU or TEE; the results are the last [length types] positions *)
Definition t_run_on (st : tstate) (k : nat) (d : string) (f : list V -> list V) (types : list VT) (args : list (tobj + V)) : option (list op * list tobj * tstate) :=
  match cluster d with
  | Some dev =>
      match dv_kind dev, dv_members dev with
      | PPU, [r] | TEE, [r] =>
          match t_moves st k d (t_objects args) with
          | Some (ops, xs, st) =>
              Some (ops ++ [pc [r] xs (Local VT V types (fun vs j => match all_some vs with Some vs => nth_error (f (fill V (t_template args) vs)) j | None => None end))],
                    map (fun j => (d, (k + length ops + fst j, snd j))) (combine (seq 0 (length types)) types), st)
          | None => None
          end
      | _, _ => None
      end
  | None => None
  end.
Definition t_stmt (st : tstate) (k : nat) (env : list tobj) (s : stmt VT V) : option (list op * list tobj * tstate) :=
  match s with
  | PutValue _ _ d v =>
      match cluster d with
      | Some dev => match dv_kind dev, dv_members dev with
                    | PPU, [r] | TEE, [r] => Some ([pc [r] [] (const VT V (typ v) v)], [(d, (k, typ v))], st)
                    | _, _ => None
                    end
      | None => None
      end
  | PutObject _ _ d i =>
      match nth_error env i, cluster d with
      | Some (from, (x, t)), Some _ => match t_move st k d from x t with Some (ops, y, st) => Some (ops, [(d, (y, t))], st) | None => None end
      | _, _ => None
      end
  | CallOn _ _ d f types args =>
      match mapO (t_resolve env) args with
      | None => None
      | Some args =>
          match (match d with
                 | Some d => Some d
                 | None => match infer true (kind_of cluster) (map (fun a : tobj + V => match a with inl (d, _) => Some d | inr _ => None end) args) with Dev d => Some d | _ => None end
                 end) with
          | None => None
          | Some d => t_run_on st k d f types args
          end
      end
  end.
(** how many values the operations give *)
Definition gives (o : op) : nat := match o with PCallStatic _ _ _ _ f => length (lf_out _ _ f) | _ => 1 end.
Definition taken (ops : list op) : nat := list_sum (map gives ops).
Fixpoint t_prog (st : tstate) (k : nat) (env : list tobj) (p : list (stmt VT V)) : option (list op * list tobj) :=
  match p with
  | [] => Some ([], env)
  | s :: r => match t_stmt st k env s with
              | Some (ops, more, st) =>
                  match t_prog st (k + taken ops) (env ++ more) r with Some (ops', out) => Some (ops ++ ops', out) | None => None end
              | None => None
              end
  end.
(** the region the workers get: the operations, then the objects of the program as results *)
Definition build (ops : list op) (outs : list nat) : region VT V := fold_right (Let VT V) (SimpModel.Ret VT V outs) ops.
Definition trace (p : list (stmt VT V)) : option (region VT V) :=
  option_map (fun r => build (fst r) (map (fun o => fst (snd o)) (snd r))) (t_prog (TState [] 0) 0 [] p).
End DevTrace.
