(** What is seen while a program of device calls (DevProgModel) runs: every multi-party object that
    is made or delivered, in order.  libs/device/api.py:174-258 (_device_run), 385-468
    (_ensure_tee_session), 471-664 (_d2d), 697-712 (put): each simp.pcall_static, simp.shuffle and
    converge in these lines gives one object; the objects of a session are those of its handshake
    when it is made, and none when it is taken from the cache.

    Simplified: the messages the SPU runtimes and the session library exchange among the members of
    the device while they compute are not objects, and are not part of what is seen. *)
From Coq Require Import Bool Arith String List.
From Verif Require Import SimpModel DeviceModel DeviceSpec SpuRunModel DevProgModel.
Import ListNotations.
Local Open Scope nat_scope.

Section DevView.
Variables (VT V : Type).
Variable vt_eqb : VT -> VT -> bool.
Variable n : nat.
Variables (share_t key_t : VT).
Variables (make_shares : V -> nat -> list V) (reconstruct : list V -> V)
          (encrypt decrypt : V -> V -> V) (pub hkdf quote attest : V -> V) (derive : V -> V -> V).
Variable code : Type.
Variable compile : nat -> (list V -> list V) -> option (code * nat).
Variable joint : code -> list (list V) -> option (list (list V)).
Variable is_share : V -> bool.
Variable typ : V -> VT.
Variable cluster : string -> option device.
Variable draw : nat -> V * V.
Variable left : nat -> runtimes V.
Notation object := (object VT V).
Notation state := (state VT V).
Notation transfer := (d2d VT V vt_eqb n share_t key_t make_shares reconstruct encrypt decrypt pub hkdf quote attest derive).
Notation ensure := (ensure VT V n key_t pub hkdf quote attest derive draw).
Notation move := (DevProgModel.move VT V vt_eqb n share_t key_t make_shares reconstruct encrypt decrypt pub hkdf quote attest derive cluster draw).
Notation run_on := (DevProgModel.run_on VT V vt_eqb n share_t key_t make_shares reconstruct encrypt decrypt pub hkdf quote attest derive code compile joint is_share cluster draw left).
Notation run_stmt := (DevProgModel.run_stmt VT V vt_eqb n share_t key_t make_shares reconstruct encrypt decrypt pub hkdf quote attest derive code compile joint is_share typ cluster draw left).

(** 433-468 *)
Definition ensure_log (st : state) (ppu tee : device) : list object :=
  match find (fun e => key_eqb (fst e) (dv_name ppu, dv_name tee)) (sessions VT V st) with
  | Some _ => []
  | None =>
      match dv_members ppu, dv_members tee with
      | [a], [b] =>
          match session VT V n key_t pub hkdf quote attest derive a b (fst (draw (made VT V st))) (snd (draw (made VT V st))) with
          | Some (_, tr) => map obj_of tr
          | None => []
          end
      | _, _ => []
      end
  end.
Definition steps_of (r : option (object * list (step VT V))) : list object := match r with Some (_, tr) => map obj_of tr | None => [] end.

(** 471-664 *)
Definition move_log (st : state) (to_ : string) (p : string * object) : list object :=
  let (tsk, vsk) := draw 0 in
  if String.eqb (fst p) to_ then []
  else match cluster (fst p), cluster to_ with
       | Some from, Some dest =>
           let within ppu tee :=
             ensure_log st ppu tee ++
             match ensure st ppu tee with Some (s, _) => steps_of (transfer from dest (Some s) tsk vsk (snd p)) | None => [] end in
           match dv_kind from, dv_kind dest with
           | PPU, TEE => within from dest
           | TEE, PPU => within dest from
           | _, _ => steps_of (transfer from dest None tsk vsk (snd p))
           end
       | _, _ => []
       end.
Fixpoint moves_log (st : state) (to_ : string) (ps : list (string * object)) : list object :=
  match ps with
  | [] => []
  | p :: r => move_log st to_ p ++ match move st to_ p with Some (_, st) => moves_log st to_ r | None => [] end
  end.

(** 226-258: the arguments on their way, then the results *)
Definition run_on_log (st : state) (d : string) (f : list V -> list V) (types : list VT) (args : list (darg VT V)) : list object :=
  (match cluster d with
   | Some dev =>
       match dv_kind dev with
       | SPU => match mapO (as_arg VT V cluster) args with
                | Some args => flat_map (fun p => let (tsk, vsk) := draw 0 in steps_of (transfer (fst p) dev None tsk vsk (snd p))) (objects VT V args)
                | None => []
                end
       | _ => moves_log st d (dobjects VT V args)
       end
   | None => []
   end) ++ match run_on st d f types args with Some (ys, _) => ys | None => [] end.

Definition stmt_log (st : state) (env : list (string * object)) (s : stmt VT V) : list object :=
  match s with
  | PutValue _ _ d v =>
      match kind_of cluster d with
      | Some SPU => run_on_log st d (fun vs => vs) [] [Value VT V v]
      | _ => match run_stmt st env s with Some (outs, _) => map snd outs | None => [] end
      end
  | PutObject _ _ d i => match nth_error env i with Some p => move_log st d p | None => [] end
  | CallOn _ _ d f types args =>
      match mapO (dresolve VT V env) args with
      | Some args =>
          match (match d with
                 | Some d => Some d
                 | None => match infer true (kind_of cluster) (map (fun a => match a with OnDevice _ _ d _ => Some d | Value _ _ _ => None end) args) with Dev d => Some d | _ => None end
                 end) with
          | Some d => run_on_log st d f types args
          | None => []
          end
      | None => []
      end
  end.
(** everything a program makes or delivers, and how many objects each statement returns *)
Fixpoint prog_log (st : state) (env : list (string * object)) (p : list (stmt VT V)) : list object :=
  match p with
  | [] => []
  | s :: r => stmt_log st env s ++ match run_stmt st env s with Some (more, st) => prog_log st (env ++ more) r | None => [] end
  end.
Fixpoint prog_widths (st : state) (env : list (string * object)) (p : list (stmt VT V)) : list nat :=
  match p with
  | [] => []
  | s :: r => match run_stmt st env s with Some (more, st) => length more :: prog_widths st (env ++ more) r | None => [] end
  end.
Definition seen (p : list (stmt VT V)) : list object := prog_log (State VT V [] 0 0) [] p.
Definition widths (p : list (stmt VT V)) : list nat := prog_widths (State VT V [] 0 0) [] p.
End DevView.
