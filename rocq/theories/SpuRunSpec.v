(** What the SPU library promises, and what a program on an SPU device should compute. *)
From Coq Require Import Bool Arith String List.
From Verif Require Import SimpModel DeviceModel DeviceSpec SpuRunModel.
Import ListNotations.
Local Open Scope nat_scope.

(** The j-th column of a matrix of shares (one row per party). *)
Definition column {V : Type} (rows : list (list V)) (j : nat) (col : list V) : Prop :=
  length col = length rows /\ forall k row, nth_error rows k = Some row -> nth_error row j = nth_error col k /\ j < length row.

(** The promises of the SPU library, for some relation "these shares, in the order of the
    local ranks, share this value":
    - Io.make_shares shares the encoding [enc] of its value (for instance rounded to fixed
      point), with one share per party;
    - Io.reconstruct of shares of a value is the value;
    - running compiled code on shares of values gives shares of what the SPU computes for
      the function on these values ([sec g]: the function in SPU arithmetic);
    - shares are shares (SPUShareValue). *)
Record spu_laws {V code : Type} (make_shares : V -> nat -> list V) (reconstruct : list V -> V)
    (compile : nat -> (list V -> list V) -> option (code * nat)) (joint : code -> list (list V) -> option (list (list V)))
    (is_share : V -> bool) (enc : V -> V) (sec : (list V -> list V) -> list V -> list V) (shared : V -> list V -> Prop) : Prop := {
  law_make : forall v k, 0 < k -> length (make_shares v k) = k /\ shared (enc v) (make_shares v k);
  law_rec : forall v col, shared v col -> reconstruct col = v;
  law_is : forall v col s, shared v col -> In s col -> is_share s = true;
  law_run : forall m g c nout, compile m g = Some (c, nout) ->
    forall (rows : list (list V)) (vs : list V), 0 < length rows -> length vs = m -> Forall (fun row => length row = m) rows ->
    (forall i v, nth_error vs i = Some v -> exists col, column rows i col /\ shared v col) ->
    exists outs, joint c rows = Some outs /\ length outs = length rows /\ Forall (fun row => length row = nout) outs /\ length (sec g vs) = nout /\
      forall j v, nth_error (sec g vs) j = Some v -> exists col, column outs j col /\ shared v col }.

(** The functions of a program as the SPU sees them: Python values are part of the function. *)
Section Plain.
Context {V : Type}.
Variables (enc : V -> V) (sec : (list V -> list V) -> list V -> list V).
Fixpoint refs (args : list (ref V)) : list nat :=
  match args with [] => [] | Ref _ i :: r => i :: refs r | Lit _ _ :: r => refs r end.
(** its Python values; the places of the references are filled in order ([fill]) *)
Definition lits (args : list (ref V)) : list (option V) := map (fun a => match a with Ref _ _ => None | Lit _ v => Some v end) args.
Definition plain_call (env : list V) (c : call V) : option (list V) :=
  option_map (sec (fun vs => c_fn _ c (fill V (lits (c_args _ c)) vs))) (mapO (nth_error env) (refs (c_args _ c))).
(** the values of a program: the encoded inputs and then the outputs of every call *)
Fixpoint plain_calls (cs : list (call V)) (env : list V) : option (list V) :=
  match cs with
  | [] => Some env
  | c :: cs => match plain_call env c with Some outs => plain_calls cs (env ++ outs) | None => None end
  end.
End Plain.

(** the same program in plain Python: every function gets its arguments, as written *)
Definition direct_call {V : Type} (env : list V) (c : call V) : option (list V) :=
  option_map (c_fn _ c) (mapO (fun a => match a with Ref _ i => nth_error env i | Lit _ v => Some v end) (c_args _ c)).
Fixpoint direct_calls {V : Type} (cs : list (call V)) (env : list V) : option (list V) :=
  match cs with
  | [] => Some env
  | c :: cs => match direct_call env c with Some outs => direct_calls cs (env ++ outs) | None => None end
  end.

(** every function of the program can be traced *)
Definition traceable {V code : Type} (compile : nat -> (list V -> list V) -> option (code * nat)) (cs : list (call V)) : Prop :=
  forall c, In c cs -> exists p, compile (length (refs (c_args _ c))) (fun vs => c_fn _ c (fill V (lits (c_args _ c)) vs)) = Some p.

(** Value [v] lies on the SPU device with members [ms]: the members hold, in their order, the
    shares of a sharing of v, and nobody else holds anything. *)
Definition on_spu {VT V : Type} (shared : V -> list V -> Prop) (ms : list nat) (v : V) (x : object VT V) : Prop :=
  exists col, length col = length ms /\ shared v col /\
    (exists Q, parties _ (fst x) = Some Q /\ forall r, In r Q <-> In r ms) /\ only_at x ms /\
    forall k r, nth_error ms k = Some r -> snd x r = nth_error col k.

(** an input: a plain value on a PPU or TEE *)
Definition input_at {VT V : Type} (n : nat) (spu : device) (p : device * object VT V) (v : V) : Prop :=
  dv_name (fst p) <> dv_name spu /\ (dv_kind (fst p) = PPU \/ dv_kind (fst p) = TEE) /\
  exists a t, dv_members (fst p) = [a] /\ a < n /\ plain_at (snd p) t a v.
