(** Model of [mplang/cli.py:186-223] cmd_config_gen: the configuration file it writes, as the commands
    read it back (a YAML round trip; member lists and the SPU's protocol are not kept, as in CliModel). *)
From Coq Require Import String Ascii.
From Coq Require Import List Arith.
From Verif Require Import CliModel.
Import ListNotations.
Local Open Scope string_scope.

(** cli.py:186-214: the file's nodes and devices for -w, -p and --spu-base-port *)
Definition config_gen (world_size base_port : nat) (spu_base_port : option nat) : conf :=
  {| nodes := map (fun i => ("node_" ++ dec i, "127.0.0.1:" ++ dec (base_port + i))) (seq 0 world_size);
     devices := app (map (fun i => ("P" ++ dec i, "ppu")) (seq 0 world_size))
                    (match spu_base_port with Some (S _) => [("SPU0", "SPU")] | _ => [] end) |}.
