(** * The JAX / XLA side of [tensor.run_jax], as its documentation states it.

    Nothing here is code of the repository: arrays, the dtype rules of JAX
    ([jax_enable_x64]), what [jax.export] promises about the module it returns,
    what [stablehlo-opt --stablehlo-refine-arguments] accepts, and what
    compiling, running, saving and loading an executable do.  The library is a
    record [jaxlib] and the promises are the predicate [jax_laws]. *)
From Coq Require Import String.
From Coq Require Import List ZArith Bool Arith Lia.
Import ListNotations.

(** The fourteen dtypes that [dtypes.py:48-69] maps to JAX. *)
Inductive dt := I8 | I16 | I32 | I64 | U8 | U16 | U32 | U64 | F16 | F32 | F64
              | C64 | C128 | B1.

Definition dt_eqb (a b : dt) : bool :=
  match a, b with
  | I8, I8 | I16, I16 | I32, I32 | I64, I64 | U8, U8 | U16, U16 | U32, U32
  | U64, U64 | F16, F16 | F32, F32 | F64, F64 | C64, C64 | C128, C128 | B1, B1 => true
  | _, _ => false
  end.

(** An array: dtype, shape, and its elements in row-major order.  Elements of an
    integer dtype are the integers themselves; elements of the other dtypes are
    opaque payloads. *)
Record arr := { a_dt : dt; a_shape : list Z; a_data : list Z }.

(** Two's complement conversion to an integer dtype (NumPy/JAX [astype]). *)
Definition wrap (d : dt) (z : Z) : Z :=
  let s n := ((z + 2 ^ (n - 1)) mod 2 ^ n - 2 ^ (n - 1))%Z in
  match d with
  | I8 => s 8%Z | I16 => s 16%Z | I32 => s 32%Z | I64 => s 64%Z
  | U8 => (z mod 2 ^ 8)%Z | U16 => (z mod 2 ^ 16)%Z
  | U32 => (z mod 2 ^ 32)%Z | U64 => (z mod 2 ^ 64)%Z
  | _ => z
  end.

Definition is_int (d : dt) : bool :=
  match d with I8 | I16 | I32 | I64 | U8 | U16 | U32 | U64 => true | _ => false end.

(** JAX documentation, "Double (64 bit) precision": unless [jax_enable_x64] is
    set, 64-bit types are replaced by their 32-bit versions everywhere. *)
Definition canon (x64 : bool) (d : dt) : dt :=
  if x64 then d else
  match d with I64 => I32 | U64 => U32 | F64 => F32 | C128 => C64 | _ => d end.

(** A dimension of an exported function's argument: a number or a named
    dimension variable. *)
Inductive pdim := Stat (n : Z) | Sym (name : string).
Record ptype := { p_dt : dt; p_dims : list pdim }.

Definition pdim_static (d : pdim) : bool := match d with Stat _ => true | Sym _ => false end.
Definition static_type (p : ptype) : bool := forallb pdim_static (p_dims p).
Definition static_types (ps : list ptype) : bool := forallb static_type ps.

Definition dim_val (env : string -> Z) (d : pdim) : Z :=
  match d with Stat n => n | Sym s => env s end.
Definition inst (env : string -> Z) (p : ptype) : dt * list Z :=
  (p_dt p, map (dim_val env) (p_dims p)).
Definition type_of (a : arr) : dt * list Z := (a_dt a, a_shape a).
Definition stat_of (t : dt * list Z) : ptype :=
  {| p_dt := fst t; p_dims := map Stat (snd t) |}.

(** JAX documentation, "Shape polymorphism": dimension variables range over the
    integers that are at least 1, and every occurrence of one name has one value. *)
Definition instance_of (ps : list ptype) (ts : list (dt * list Z)) : Prop :=
  exists env : string -> Z,
    (forall p s, In p ps -> In (Sym s) (p_dims p) -> (1 <= env s)%Z) /\
    ts = map (inst env) ps.

(** An exported module: all parameters of the function, which of them the
    module still has, and the function it computes. *)
Record hlo (src : Type) := { h_prog : src; h_params : list ptype; h_keep : list bool }.
Arguments h_prog {src}. Arguments h_params {src}. Arguments h_keep {src}.
Arguments Build_hlo {src}.

Definition zeros (p : ptype) : arr :=
  let sh := map (dim_val (fun _ => 1%Z)) (p_dims p) in
  {| a_dt := p_dt p; a_shape := sh;
     a_data := repeat 0%Z (Z.to_nat (fold_right Z.mul 1%Z sh)) |}.

(** The full argument list of a module called with the kept arguments only. *)
Fixpoint expand (ps : list ptype) (keep : list bool) (xs : list arr) : list arr :=
  match ps, keep with
  | p :: ps', true :: ks => match xs with
                            | x :: xs' => x :: expand ps' ks xs'
                            | [] => []
                            end
  | p :: ps', false :: ks => zeros p :: expand ps' ks xs
  | _, _ => []
  end.

Fixpoint select {A} (keep : list bool) (xs : list A) : list A :=
  match keep, xs with
  | true :: ks, x :: xs' => x :: select ks xs'
  | false :: ks, _ :: xs' => select ks xs'
  | _, _ => []
  end.

Fixpoint zlist_eqb (a b : list Z) : bool :=
  match a, b with
  | [], [] => true
  | x :: a', y :: b' => Z.eqb x y && zlist_eqb a' b'
  | _, _ => false
  end.
Definition ty_eqb (s t : dt * list Z) : bool :=
  dt_eqb (fst s) (fst t) && zlist_eqb (snd s) (snd t).
Fixpoint tys_eqb (a b : list (dt * list Z)) : bool :=
  match a, b with
  | [], [] => true
  | x :: a', y :: b' => ty_eqb x y && tys_eqb a' b'
  | _, _ => false
  end.

(** Running a static module: the arguments must have exactly the parameter types. *)
Definition run_module {src} (fn : src -> list arr -> list arr) (m : hlo src) (xs : list arr) : option (list arr) :=
  if tys_eqb (map type_of xs)
             (select (h_keep m) (map (inst (fun _ => 1%Z)) (h_params m)))
  then Some (fn (h_prog m) (expand (h_params m) (h_keep m) xs))
  else None.

(** MLIR's names of the element types. *)
Definition mlir_name (d : dt) : string :=
  match d with
  | I8 => "i8" | I16 => "i16" | I32 => "i32" | I64 => "i64"
  | U8 => "ui8" | U16 => "ui16" | U32 => "ui32" | U64 => "ui64"
  | F16 => "f16" | F32 => "f32" | F64 => "f64"
  | C64 => "complex<f32>" | C128 => "complex<f64>" | B1 => "i1"
  end%string.

(** [tensor<...>] texts name the types [ts]. *)
Definition names_types (txt : list (list Z * string)) (ts : list (dt * list Z)) : Prop :=
  map (fun t => (snd t, mlir_name (fst t))) ts = txt.

(** The library: JAX export, stablehlo-opt, PJRT compile / execute / serialize,
    [astype] to a non-integer dtype, and SHA-256. *)
Record jaxlib := {
  (** user functions: what each computes, and which arguments its trace reads *)
  src : Type; pg_fn : src -> list arr -> list arr; pg_uses : src -> list bool;
  code : Type; exe : Type; byte : Type; key : Type;
  x64 : bool;
  fcast : dt -> dt -> Z -> Z;
  export : src -> list ptype -> option code;
  meaning : code -> hlo src;
  refine : code -> list (list Z * string) -> option code;
  compile : code -> option exe;
  run : exe -> list arr -> option (list arr);
  ser : exe -> list byte;
  deser : list byte -> option exe;
  hash : code -> key;
  key_eqb : key -> key -> bool }.

Definition canon_p (b : bool) (p : ptype) : ptype :=
  {| p_dt := canon b (p_dt p); p_dims := p_dims p |}.

Record jax_laws (J : jaxlib) : Prop := {
  (** The result does not depend on the contents of the arguments that the trace
      does not read (their types are known while tracing). *)
  law_uses : forall p xs ys,
      length xs = length (pg_uses J p) -> map type_of xs = map type_of ys ->
      (forall i, nth i (pg_uses J p) false = true -> nth_error xs i = nth_error ys i) ->
      pg_fn J p xs = pg_fn J p ys;
  (** [jax.export.export(jit(f))(placeholders)]: the module has the canonical
      dtypes; JAX drops the arguments the trace does not read, unless some
      argument has a symbolic shape, in which case it keeps all of them. *)
  law_export : forall p ps c, export J p ps = Some c ->
      length (pg_uses J p) = length ps ->
      meaning J c = {| h_prog := p; h_params := map (canon_p (x64 J)) ps;
                       h_keep := if static_types ps then pg_uses J p
                                 else map (fun _ => true) ps |};
  (** stablehlo-opt refines exactly when the texts name an instance of the
      module's parameters, and the refined module has those static types. *)
  law_refine : forall c c' txt, refine J c txt = Some c' ->
      exists ts, names_types txt ts /\
        instance_of (select (h_keep (meaning J c)) (h_params (meaning J c))) ts /\
        meaning J c' = {| h_prog := h_prog (meaning J c);
                          h_params := map stat_of ts;
                          h_keep := map (fun _ => true) ts |};
  law_refine_total : forall c txt ts, names_types txt ts ->
      instance_of (select (h_keep (meaning J c)) (h_params (meaning J c))) ts ->
      refine J c txt <> None;
  (** XLA compiles static modules only, and the executable computes the module. *)
  law_compile : forall c, compile J c <> None <-> static_types (h_params (meaning J c)) = true;
  law_run : forall c e xs, compile J c = Some e -> run J e xs = run_module (pg_fn J) (meaning J c) xs;
  (** A saved executable loads back; a file cut short does not load. *)
  law_deser : forall e, deser J (ser J e) = Some e;
  law_deser_cut : forall e n, n < length (ser J e) -> deser J (firstn n (ser J e)) = None;
  (** SHA-256 has no collision. *)
  law_hash : forall c1 c2, hash J c1 = hash J c2 -> c1 = c2;
  law_key : forall k1 k2, key_eqb J k1 k2 = true <-> k1 = k2 }.

(** [astype]: same shape, every element converted. *)
Definition cast (J : jaxlib) (d : dt) (a : arr) : arr :=
  if dt_eqb (a_dt a) d then a
  else {| a_dt := d; a_shape := a_shape a;
          a_data := map (if is_int d && is_int (a_dt a) then wrap d
                         else fcast J (a_dt a) d) (a_data a) |}.

(** ** What the user sees *)

(** A declared input type (edsl TensorType with dimensions, ScalarType, or any
    other type); [None] is a missing dimension. *)
Inductive vtype := TTensor (d : dt) (dims : list (option Z)) | TScalar (d : dt) | TOther.

(** Every dimension of the declared type is a number. *)
Definition static_decl (t : vtype) : Prop :=
  match t with
  | TTensor _ dims => Forall (fun o => exists d, o = Some d /\ (0 <= d)%Z) dims
  | TScalar _ => True
  | TOther => False
  end.

(** The argument has the declared shape when every unknown dimension (-1) is
    [n]; an argument declared as a scalar type is not converted, so it must have
    its dtype. *)
Definition fits (n : Z) (t : vtype) (a : arr) : Prop :=
  match t with
  | TTensor _ dims =>
      map Some (a_shape a) =
      map (option_map (fun d => if (d =? -1)%Z then n else d)) dims
  | TScalar d => a_shape a = [] /\ a_dt a = d
  | TOther => False
  end.

Definition decl_dt (t : vtype) : dt :=
  match t with TTensor d _ => d | TScalar d => d | TOther => B1 end.

(** What the user's function is meant to receive: the argument, converted to the
    dtype its type declares. *)
Definition declared_value (J : jaxlib) (t : vtype) (a : arr) : arr := cast J (decl_dt t) a.

Fixpoint zipw {A B C} (f : A -> B -> C) (xs : list A) (ys : list B) : list C :=
  match xs, ys with
  | x :: xs', y :: ys' => f x y :: zipw f xs' ys'
  | _, _ => []
  end.

Definition complex (d : dt) : bool := match d with C64 | C128 => true | _ => false end.

(** The function is called with some unknown dimension. *)
Definition some_unknown (vars : list vtype) : Prop :=
  exists d dims, In (TTensor d dims) vars /\ In (Some (-1)%Z) dims.
