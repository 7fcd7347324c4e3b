(** * [tensor.run_jax]: tracing, compilation, caches and execution.
    Models [mplang/dialects/_jax_utils.py:62-209], [dialects/tensor.py:75-160],
    [backends/util.py:29-125] and [backends/tensor_impl.py:567-765].
    Not modelled: the IREE path (the tracer never writes the attribute
    [backend], so [run_jax_impl] never takes it), profiling events, the
    pytree bookkeeping around the call ([normalize_fn], see ScopeProps/TreeProps),
    object arrays. *)
From Coq Require Import String.
From Coq Require Import List ZArith Bool Arith Lia.
From Verif Require Import JaxSpec.
Import ListNotations.

(** _jax_utils.py:62-77 [_get_symbolic_name]; [None] = ValueError. *)
Definition get_symbolic_name (sym : option (list (list (option string))))
    (obj_idx dim_idx : nat) : option string :=
  match sym with
  | Some l => match nth_error l obj_idx with
              | Some names => match nth_error names dim_idx with
                              | Some (Some n) => Some n
                              | Some None => None
                              | None => Some "n_rows"%string
                              end
              | None => Some "n_rows"%string
              end
  | None => Some "n_rows"%string
  end.

Fixpoint mapM {A B} (f : A -> option B) (l : list A) : option (list B) :=
  match l with
  | [] => Some []
  | x :: l' => match f x, mapM f l' with
               | Some y, Some ys => Some (y :: ys)
               | _, _ => None
               end
  end.

Fixpoint enum_from {A} (n : nat) (l : list A) : list (nat * A) :=
  match l with [] => [] | x :: l' => (n, x) :: enum_from (S n) l' end.

(** _jax_utils.py:112-125: one dimension; raises for None and for < -1. *)
Definition make_dim (sym : option (list (list (option string)))) (obj_idx : nat)
    (p : nat * option Z) : option pdim :=
  match snd p with
  | None => None
  | Some d => if (d <? -1)%Z then None
              else if (d =? -1)%Z
                   then option_map Sym (get_symbolic_name sym obj_idx (fst p))
                   else Some (Stat d)
  end.

(** _jax_utils.py:80-129 [_make_placeholders]: one name, one symbol (one scope). *)
Definition make_placeholder sym (p : nat * vtype) : option ptype :=
  match snd p with
  | TOther => None
  | TScalar d => Some {| p_dt := d; p_dims := [] |}
  | TTensor d dims =>
      match mapM (make_dim sym (fst p)) (enum_from 0 dims) with
      | Some ds => Some {| p_dt := d; p_dims := ds |}
      | None => None
      end
  end.
Definition make_placeholders sym (vars : list vtype) : option (list ptype) :=
  mapM (make_placeholder sym) (enum_from 0 vars).

Fixpoint positions (n : nat) (keep : list bool) : list nat :=
  match keep with
  | [] => []
  | true :: ks => n :: positions (S n) ks
  | false :: ks => positions (S n) ks
  end.

(** The traced operation (tensor.py:137-150): input types and attributes. *)
Record jop (J : jaxlib) := {
  op_inputs : list vtype; op_code : code J; op_keep : option (list nat); op_dyn : bool }.
Arguments op_inputs {J}. Arguments op_code {J}. Arguments op_keep {J}. Arguments op_dyn {J}.
Arguments Build_jop {J}.

(** _jax_utils.py:132-209 [compile_jax] and tensor.py:113-160 [_run_jax_trace]. *)
Definition run_jax_trace (J : jaxlib) (fn : src J) (vars : list vtype)
    (sym : option (list (list (option string)))) : option (jop J) :=
  match make_placeholders sym vars with
  | None => None
  | Some phs =>
      match export J fn phs with
      | None => None
      | Some c =>
          let kept := positions 0 (h_keep (meaning J c)) in   (* module_kept_var_idx *)
          Some {| op_inputs := vars; op_code := c;
                  op_keep := if length kept <? length phs then Some kept else None;
                  op_dyn := negb (static_types phs) |}
      end
  end.

(** str(dtype) of NumPy. *)
Definition np_name (d : dt) : string :=
  match d with
  | I8 => "int8" | I16 => "int16" | I32 => "int32" | I64 => "int64"
  | U8 => "uint8" | U16 => "uint16" | U32 => "uint32" | U64 => "uint64"
  | F16 => "float16" | F32 => "float32" | F64 => "float64"
  | C64 => "complex64" | C128 => "complex128" | B1 => "bool"
  end%string.

(** util.py:31-44 [dtype_map]. *)
Definition dtype_map : list (string * string) :=
  [ ("float16", "f16"); ("float32", "f32"); ("float64", "f64");
    ("int8", "i8"); ("int16", "i16"); ("int32", "i32"); ("int64", "i64");
    ("uint8", "ui8"); ("uint16", "ui16"); ("uint32", "ui32"); ("uint64", "ui64");
    ("bool", "i1") ]%string.

Fixpoint lookup (k : string) (l : list (string * string)) : option string :=
  match l with
  | [] => None
  | (a, b) :: l' => if String.eqb a k then Some b else lookup k l'
  end.

(** str.replace, all occurrences from left to right ([fuel] = length of the text). *)
Fixpoint replace_fuel (fuel : nat) (old new s : string) : string :=
  match fuel with
  | O => s
  | S f =>
      match s with
      | EmptyString => EmptyString
      | String c s' =>
          if String.prefix old s
          then String.append new
                 (replace_fuel f old new
                    (String.substring (String.length old)
                       (String.length s - String.length old) s))
          else String c (replace_fuel f old new s')
      end
  end.
Definition replace (old new s : string) : string := replace_fuel (String.length s) old new s.

(** util.py:29-66 [_make_tensor_type]: the dimensions and the element text of
    [tensor<d1x...xT>] (kept apart instead of glued with "x"). *)
Definition dtype_text (d : dt) : string :=
  match lookup (np_name d) dtype_map with
  | Some s => s
  | None => replace "bool" "i1" (replace "uint" "ui" (replace "int" "i"
              (replace "float" "f" (np_name d))))
  end%string.
Definition make_tensor_type (a : arr) : list Z * string := (a_shape a, dtype_text (a_dt a)).

(** util.py:69-125 [_refine_stablehlo]: the texts of ALL arguments, as given. *)
Definition refine_stablehlo (J : jaxlib) (c : code J) (args : list arr) : option (code J) :=
  refine J c (map make_tensor_type args).

(** tensor_impl.py:112-132 [as_jax]: jnp.asarray gives the canonical dtype. *)
Definition as_jax (J : jaxlib) (a : arr) : arr := cast J (canon (x64 J) (a_dt a)) a.

(** tensor_impl.py:655-686, one argument: cast to the declared dtype of a
    tensor input ([astype] also canonicalises), no cast for other inputs. *)
Definition prepare (J : jaxlib) (t : vtype) (a : arr) : arr :=
  match t with
  | TTensor d _ => if dt_eqb (a_dt (as_jax J a)) d then as_jax J a
                   else cast J (canon (x64 J) d) (as_jax J a)
  | _ => as_jax J a
  end.

Fixpoint prepare_all (J : jaxlib) (ts : list vtype) (xs : list arr) : list arr :=
  match ts, xs with
  | t :: ts', x :: xs' => prepare J t x :: prepare_all J ts' xs'
  | [], x :: xs' => as_jax J x :: prepare_all J [] xs'
  | _, [] => []
  end.

(** tensor_impl.py:688-692: [[args[i] for i in arg_keep_map]]; IndexError = None. *)
Definition filter_args (km : option (list nat)) (xs : list arr) : option (list arr) :=
  match km with None => Some xs | Some idx => mapM (fun i => nth_error xs i) idx end.

(** Process memory ([_XLA_CACHE]) and the files [root/cache/jax/<hash>.pjrt]. *)
Record cstate (J : jaxlib) := {
  mem : key J -> option (exe J);
  disk : nat -> key J -> option (list (byte J)) }.
Arguments mem {J}. Arguments disk {J}. Arguments Build_cstate {J}.

Definition upd {J : jaxlib} {A} (m : key J -> option A) (k : key J) (v : option A) : key J -> option A :=
  fun k' => if key_eqb J k' k then v else m k'.
Definition upd_disk {J : jaxlib} (st : cstate J) (root : nat) (k : key J)
    (v : option (list (byte J))) : nat -> key J -> option (list (byte J)) :=
  fun r k' => if Nat.eqb r root && key_eqb J k' k then v else disk st r k'.

(** What the file system does during one call: the cache directory can be
    created or not, a read succeeds or raises, and the save completes, raises
    after [n] bytes, cannot open the file, or the process dies after [n] bytes. *)
Inductive save_fate := SaveOk | SaveRaises (n : nat) | SaveCannotOpen | DiesAfter (n : nat).
Record fate := { f_mkdir : bool; f_read : bool; f_save : save_fate }.
Definition good : fate := {| f_mkdir := true; f_read := true; f_save := SaveOk |}.

Inductive outcome := Ok (rs : list arr) | Raised | Died.

(** tensor_impl.py:639-650: write the executable; an exception is printed and
    ignored.  The boolean says whether the process survives. *)
Definition save (J : jaxlib) (st : cstate J) root (k : key J) (e : exe J) (f : save_fate)
    : cstate J * bool :=
  let put b := {| mem := mem st; disk := upd_disk st root k (Some b) |} in
  match f with
  | SaveOk => (put (ser J e), true)
  | SaveRaises n => (put (firstn n (ser J e)), true)
  | SaveCannotOpen => (st, true)
  | DiesAfter n => ({| mem := fun _ => None;
                       disk := upd_disk st root k (Some (firstn n (ser J e))) |}, false)
  end.

(** tensor_impl.py:694-728: execute; any exception becomes RuntimeError. *)
Definition execute (J : jaxlib) (op : jop J) (e : exe J) (args : list arr) : outcome :=
  match filter_args (op_keep op) (prepare_all J (op_inputs op) args) with
  | None => Raised
  | Some xs => match run J e xs with Some rs => Ok rs | None => Raised end
  end.

(** tensor_impl.py:599-652 and 652-728 [_run_jax_with_xla]. *)
Definition run_jax_xla (J : jaxlib) (st : cstate J) (root : nat) (f : fate)
    (op : jop J) (args : list arr) : outcome * cstate J :=
  let k := hash J (op_code op) in
  match mem st k with
  | Some e => (execute J op e args, st)
  | None =>
      if negb (f_mkdir f) then (Raised, st) else
      let loaded :=
        if negb (op_dyn op)
        then match disk st root k with
             | Some b => if f_read f then deser J b else None
             | None => None
             end
        else None in
      let compiled : option (exe J) * cstate J * bool :=
        match loaded with
        | Some e => (Some e, st, true)
        | None =>
            let c' := if op_dyn op then refine_stablehlo J (op_code op) args
                      else Some (op_code op) in
            match c' with
            | None => (None, st, true)
            | Some c => match compile J c with
                        | None => (None, st, true)
                        | Some e => let '(st', alive) := save J st root k e (f_save f) in
                                    (Some e, st', alive)
                        end
            end
        end in
      match compiled with
      | (_, st', false) => (Died, st')
      | (None, st', _) => (Raised, st')
      | (Some e, st', true) =>
          let st'' := if negb (op_dyn op)
                      then {| mem := upd (mem st') k (Some e); disk := disk st' |}
                      else st' in
          (execute J op e args, st'')
      end
  end.

(** No cache at all: a new process with an empty directory. *)
Definition empty (J : jaxlib) : cstate J :=
  {| mem := fun _ => None; disk := fun _ _ => None |}.

(** tensor_impl.py:731-765 [run_jax_impl] in a new process. *)
Definition run_jax (J : jaxlib) (op : jop J) (args : list arr) : outcome :=
  fst (run_jax_xla J (empty J) 0 good op args).

(** Everything that can happen to the caches: calls (of any traced operation, on
    any arguments, by interpreters with any root directory), process restarts,
    and files that are removed. *)
Inductive event (J : jaxlib) :=
| ECall (root : nat) (f : fate) (op : jop J) (args : list arr)
| ERestart
| ERemove (root : nat) (k : key J).
Arguments ECall {J}. Arguments ERestart {J}. Arguments ERemove {J}.

Definition step (J : jaxlib) (st : cstate J) (e : event J) : cstate J :=
  match e with
  | ECall root f op args => snd (run_jax_xla J st root f op args)
  | ERestart => {| mem := fun _ => None; disk := disk st |}
  | ERemove root k => {| mem := mem st; disk := upd_disk st root k None |}
  end.

(** An operation that tracing produced. *)
Definition traced (J : jaxlib) (op : jop J) : Prop :=
  exists fn vars sym, length (pg_uses J fn) = length vars /\
    run_jax_trace J fn vars sym = Some op.

Definition traced_event (J : jaxlib) (e : event J) : Prop :=
  match e with ECall _ _ op _ => traced J op | _ => True end.
