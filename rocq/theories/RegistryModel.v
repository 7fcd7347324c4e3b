(** Model of the registry of implementations: edsl/registry.py:177-207 (register_impl, get_impl),
    edsl/primitive.py:82-101 (def_impl), backends/__init__.py:23-59 (load_backend, load_builtins),
    the dispatch of runtime/interpreter.py:964-979 and 1120-1127, the handler tables of
    backends/simp_worker/ops.py:171-178 and backends/simp_driver/ops.py:128-135, and of the profiler,
    edsl/registry.py:30-174.

    The tables below are the primitives of the files dialects/?.py and the def_impl decorators of the
    files backends/?_impl.py, file by file; an implementation is named by the module defining it.
    Importing a module either runs all its decorators or raises ImportError before the first. *)
From Coq Require Import String List Bool Arith.
Import ListNotations.
Local Open Scope string_scope.
Local Open Scope list_scope.
Local Open Scope nat_scope.

(** el.Primitive(name) with a def_abstract_eval or def_trace, per dialect *)
Definition dialects : list (string * list string) :=
  [("bfv", ["bfv.keygen"; "bfv.make_relin_keys"; "bfv.make_galois_keys"; "bfv.create_encoder"; "bfv.encode"; "bfv.batch_encode"; "bfv.decode";
            "bfv.encrypt"; "bfv.decrypt"; "bfv.add"; "bfv.sub"; "bfv.mul"; "bfv.relinearize"; "bfv.rotate"; "bfv.rotate_columns"]);
   ("crypto", ["crypto.ec_generator"; "crypto.ec_mul"; "crypto.ec_add"; "crypto.ec_sub"; "crypto.ec_point_to_bytes"; "crypto.ec_random_scalar";
               "crypto.ec_scalar_from_int"; "crypto.hash"; "crypto.hash_batch"; "crypto.sym_encrypt"; "crypto.sym_decrypt"; "crypto.select";
               "crypto.kem_keygen"; "crypto.kem_derive"; "crypto.hkdf"; "crypto.random_bytes"; "crypto.ec_bytes_to_point"]);
   ("field", ["field.aes_expand"; "field.mul"; "field.solve_okvs"; "field.decode_okvs"; "field.ldpc_encode"; "field.solve_okvs_opt"; "field.decode_okvs_opt"]);
   ("func", ["func.func"; "func.call"]);
   ("phe", ["phe.keygen"; "phe.create_encoder"; "phe.encode"; "phe.decode"; "phe.encrypt"; "phe.decrypt"; "phe.add_cc"; "phe.add_cp"; "phe.mul_cp"]);
   ("simp", ["simp.uniform_cond"; "simp.while_loop"; "simp.pcall_static"; "simp.pcall_dynamic"; "simp.shuffle_dynamic"; "simp.shuffle"; "simp.converge"]);
   ("spu", ["spu.makeshares"; "spu.reconstruct"; "spu.exec"]);
   ("store", ["store.save"; "store.load"]);
   ("table", ["table.run_sql"; "table.table2tensor"; "table.tensor2table"; "table.constant"; "table.read"; "table.write"]);
   ("tee", ["tee.quote_gen"; "tee.attest"; "tee.get_measurement"]);
   ("tensor", ["tensor.run_jax"; "tensor.constant"; "tensor.transpose"; "tensor.reshape"; "tensor.concat"; "tensor.gather"; "tensor.scatter";
               "tensor.slice"; "tensor.elementwise"])].
Definition traceable : list string := flat_map snd dialects.
(** the def_impl decorators of a backend module *)
Definition backends : list (string * list string) :=
  [("bfv_impl", ["bfv.keygen"; "bfv.make_relin_keys"; "bfv.make_galois_keys"; "bfv.create_encoder"; "bfv.encode"; "bfv.batch_encode"; "bfv.encrypt";
                 "bfv.decrypt"; "bfv.decode"; "bfv.add"; "bfv.sub"; "bfv.mul"; "bfv.relinearize"; "bfv.rotate"; "bfv.rotate_columns"]);
   ("crypto_impl", ["crypto.ec_generator"; "crypto.ec_mul"; "crypto.ec_add"; "crypto.ec_sub"; "crypto.ec_random_scalar"; "crypto.ec_scalar_from_int";
                    "crypto.ec_point_to_bytes"; "crypto.ec_bytes_to_point"; "crypto.hash"; "crypto.hash_batch"; "crypto.sym_encrypt"; "crypto.sym_decrypt";
                    "crypto.select"; "crypto.kem_keygen"; "crypto.kem_derive"; "crypto.hkdf"; "crypto.random_bytes"]);
   ("field_impl", ["field.ldpc_encode"; "field.aes_expand"; "field.mul"; "field.solve_okvs"; "field.decode_okvs"; "field.solve_okvs_opt"; "field.decode_okvs_opt"]);
   ("func_impl", ["func.func"; "func.call"]);
   ("phe_impl", ["phe.keygen"; "phe.create_encoder"; "phe.encode"; "phe.decode"; "phe.encrypt"; "phe.decrypt"; "phe.add_cc"; "phe.add_cp"; "phe.mul_cp"]);
   ("spu_impl", ["spu.makeshares"; "spu.reconstruct"; "spu.exec"]);
   ("store_impl", ["store.save"; "store.load"]);
   ("table_impl", ["table.run_sql"; "table.table2tensor"; "table.tensor2table"; "table.constant"; "table.read"; "table.write"]);
   ("tee_impl", ["tee.quote_gen"; "tee.attest"]);
   ("tensor_impl", ["tensor.constant"; "tensor.concat"; "tensor.elementwise"; "tensor.run_jax"; "tensor.gather"; "tensor.slice"; "tensor.reshape"; "tensor.transpose"])].
(** backends/__init__.py:43-53 *)
Definition builtin_backends : list string :=
  ["spu_impl"; "tensor_impl"; "table_impl"; "crypto_impl"; "tee_impl"; "bfv_impl"; "store_impl"; "func_impl"; "field_impl"].
(** simp_worker/ops.py:171-178 and simp_driver/ops.py:128-135 have the same keys *)
Definition simp_handlers : list string :=
  ["simp.pcall_static"; "simp.pcall_dynamic"; "simp.shuffle"; "simp.converge"; "simp.uniform_cond"; "simp.while_loop"].

Fixpoint get {V} (d : list (string * V)) (k : string) : option V :=
  match d with [] => None | (k', v) :: r => if String.eqb k' k then Some v else get r k end.
(** registry.py:185: dict assignment *)
Definition register_impl {F} (reg : list (string * F)) (op : string) (f : F) : list (string * F) := (op, f) :: reg.
Definition register_all {F} (reg : list (string * F)) (events : list (string * F)) : list (string * F) :=
  fold_left (fun r e => register_impl r (fst e) (snd e)) events reg.
(** importing a module of the table; __init__.py:55-59: an ImportError is logged, the rest is loaded *)
Definition decorators (m : string) : list (string * string) :=
  match get backends m with Some ops => map (fun o => (o, m)) ops | None => [] end.
Definition load_builtins (importable : string -> bool) (reg : list (string * string)) : list (string * string) :=
  fold_left (fun r m => if importable m then register_all r (decorators m) else r) builtin_backends reg.
(** interpreter.py:966-979; None is NotImplementedError *)
Definition dispatch {F} (handlers reg : list (string * F)) (op : string) : option F :=
  match get handlers op with Some h => Some h | None => get reg op end.
(** the operations of a graph in order: those executed, and whether all were (the others raise) *)
Fixpoint run {F} (handlers reg : list (string * F)) (ops : list string) : list (string * F) * bool :=
  match ops with
  | [] => ([], true)
  | o :: r => match dispatch handlers reg o with
              | Some f => let (done, ok) := run handlers reg r in ((o, f) :: done, ok)
              | None => ([], false)
              end
  end.
(** a worker's or driver's interpreter *)
Definition handlers_of : list (string * string) := map (fun o => (o, "simp")) simp_handlers.

(** ** the profiler *)
(** what an interpreter executes: an operation takes time of its own, executes others inside (the
    regions of pcall, cond, while and elementwise, the body of func.call), and returns or raises *)
Inductive call := Call (op : string) (own : nat) (returns : bool) (inside : list call).
Fixpoint duration (c : call) : nat :=
  match c with Call _ own _ inside => own + fold_right (fun c n => duration c + n) 0 inside end.
(** 196-207 with profiling on: operations found in the interpreter's handlers (964-967) never pass
    through get_impl; the wrapper records after the implementation has returned *)
Fixpoint timings (handled : string -> bool) (c : call) : list (string * nat) :=
  match c with
  | Call op own returns inside =>
      flat_map (timings handled) inside ++ (if negb (handled op) && returns then [(op, duration c)] else [])
  end.
Definition times_of (op : string) (ts : list (string * nat)) : list nat := map snd (filter (fun t => String.eqb (fst t) op) ts).
(** 55-67: count, total, min, max (the mean is total/count); no entry for an operation never recorded *)
Definition summary (op : string) (ts : list (string * nat)) : option (nat * nat * nat * nat) :=
  match times_of op ts with
  | [] => None
  | t :: r => Some (S (List.length r), list_sum (t :: r), fold_left Nat.min r t, fold_left Nat.max r t)
  end.
(** 110-117 *)
Definition container_ops : list string :=
  ["simp.pcall_static"; "simp.pcall_dynamic"; "simp.shuffle_static"; "simp.shuffle"; "simp.uniform_cond"; "simp.while_loop"].
(** 119-149: the TOTAL line of the leaf summary *)
Definition leaf_total (ts : list (string * nat)) : nat :=
  list_sum (map snd (filter (fun t => negb (existsb (String.eqb (fst t)) container_ops)) ts)).
