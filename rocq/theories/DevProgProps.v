(** C209: programs of device calls. *)
From Coq Require Import Bool Arith ZArith String List Lia Sorted.
From Verif Require Import SimpModel DeviceModel DeviceSpec SpuRunModel SpuRunSpec SpuRunExample DevProgModel DevProgSpec DevProgProofs.
Import ListNotations.
Local Open Scope nat_scope.

(** *** C209.  A program puts values on devices, moves objects and calls functions on devices,
    written down or inferred.  For every library that keeps its promises and every cluster whose
    PPUs and TEEs have one member and whose SPU members are listed in increasing rank order:
    if the program has a meaning, it runs; every object lies on the device the meaning says, stands
    for the value the meaning says, and nobody outside that device holds a part of it; and fetching
    it from a PPU or TEE gives that value.  Whatever sessions are made on the way, and whatever
    variables the SPU runtimes hold. *)
Theorem C209_device_programs : forall (VT V code : Type) (vt_eqb : VT -> VT -> bool) (n : nat) (share_t key_t : VT)
    (make_shares : V -> nat -> list V) (reconstruct : list V -> V) (encrypt decrypt : V -> V -> V) (pub hkdf quote attest : V -> V) (derive : V -> V -> V)
    (compile : nat -> (list V -> list V) -> option (code * nat)) (joint : code -> list (list V) -> option (list (list V))) (is_share : V -> bool)
    (enc : V -> V) (sec : (list V -> list V) -> list V -> list V) (shared : V -> list V -> Prop)
    (typ : V -> VT) (cluster : string -> option device) (draw : nat -> V * V) (left : nat -> runtimes V)
    (program : list (stmt VT V)) (results : list (string * V)),
  (forall x y, vt_eqb x y = true <-> x = y) ->
  (forall k v, decrypt k (encrypt k v) = v) -> (forall x, attest (quote x) = x) -> (forall s s', derive s (pub s') = derive s' (pub s)) ->
  spu_laws make_shares reconstruct compile joint is_share enc sec shared ->
  well_formed cluster n ->
  meaning cluster enc sec (fun m g => match compile m g with Some _ => true | None => false end) [] program = Some results ->
  exists objects,
    run VT V vt_eqb n share_t key_t make_shares reconstruct encrypt decrypt pub hkdf quote attest derive code compile joint is_share typ cluster draw left program = Some objects /\
    length objects = length results /\
    forall i d v, nth_error results i = Some (d, v) ->
    exists x, nth_error objects i = Some (d, x) /\ lies_on cluster shared d x v /\
      forall dev, cluster d = Some dev -> dv_kind dev = PPU \/ dv_kind dev = TEE -> fetch VT V dev x = Some v.
Proof.
  intros VT V code vt_eqb n share_t key_t make_shares reconstruct encrypt decrypt pub hkdf quote attest derive compile joint is_share enc sec shared typ cluster draw left program results H1 H2 H3 H4 HL HW HM.
  destruct (prog_ok vt_eqb H1 n share_t key_t make_shares reconstruct encrypt decrypt pub hkdf quote attest derive H2 H3 H4 compile joint is_share enc sec shared HL typ cluster HW draw left
              program (State VT V [] 0 0) [] [] results) as (out & R & G).
  { intros p t sf sts []. } { constructor. } { exact HM. }
  exists out. split; [exact R|]. split; [clear -G; induction G; cbn; congruence|].
  clear -G. intros i d v. revert i. induction G as [|[d' x] [d'' w] ps qs [Hd Hl] G IH]; intros [|i] Hi; try discriminate Hi; cbn in *; [|exact (IH i Hi)].
  injection Hi as -> ->. subst d'. exists x. split; [reflexivity|]. split; [exact Hl|]. intros dev C K. exact (lies_fetch shared cluster d dev x v C K Hl).
Qed.
Print Assumptions C209_device_programs.

(** With exact arithmetic the devices make no difference: the values are those of the same program
    in plain Python. *)
Theorem C209_places_do_not_matter : forall (VT V : Type) (cluster : string -> option device)
    (enc : V -> V) (sec : (list V -> list V) -> list V -> list V) (accepts : nat -> (list V -> list V) -> bool) (program : list (stmt VT V)) (results : list (string * V)),
  (forall v, enc v = v) -> (forall g vs, sec g vs = g vs) ->
  meaning cluster enc sec accepts [] program = Some results -> python program [] = Some (map snd results).
Proof. intros VT V cluster enc sec acc p ws He Hs H. exact (meaning_python cluster enc sec acc He Hs p [] ws H). Qed.
Print Assumptions C209_places_do_not_matter.

(** An instance: two data owners, a TEE and an SPU of three ranks.  x on P0 and y on P2; their
    product on the SPU (inferred); moved to the TEE, which adds y (moved there through a session
    with P2); the sum goes through the same kind of session to P0 and back, and is fetched at P0. *)
Definition ex_cluster (d : string) : option device :=
  if String.eqb d "P0" then Some (Device "P0" PPU [0]) else if String.eqb d "P2" then Some (Device "P2" PPU [2])
  else if String.eqb d "T" then Some (Device "T" TEE [3]) else if String.eqb d "S" then Some (Device "S" SPU [0; 1; 2]) else None.
Definition add2 (l : list XV) : list XV := match l with [x; y] => [inl (toZ x + toZ y)%Z] | _ => [] end.
Definition mul2 (l : list XV) : list XV := match l with [x; y] => [inl (toZ x * toZ y)%Z] | _ => [] end.
Definition ex_program : list (stmt nat XV) :=
  [ PutValue _ _ "P0" (inl 6%Z); PutValue _ _ "P2" (inl 7%Z); PutValue _ _ "S" (inl 2%Z);
    CallOn _ _ None mul2 [0] [Ref _ 2; Ref _ 0];
    CallOn _ _ (Some "S"%string) mul2 [0] [Ref _ 3; Ref _ 1];
    CallOn _ _ (Some "T"%string) add2 [0] [Ref _ 4; Ref _ 1];
    CallOn _ _ (Some "P0"%string) add2 [0] [Ref _ 5; Ref _ 0];
    PutObject _ _ "T" 6; CallOn _ _ None add2 [0] [Ref _ 7; Lit _ (inl 1%Z)]; PutObject _ _ "P0" 8 ].
(** a symmetric key agreement and a cipher that adds the key *)
Definition ex_enc (k v : XV) : XV := inl (toZ k + toZ v)%Z.
Definition ex_dec (k v : XV) : XV := inl (toZ v - toZ k)%Z.
Definition ex_env := run nat XV Nat.eqb 4 7 8 x_make x_rec ex_enc ex_dec (fun v => v) (fun v => v) (fun v => v) (fun v => v) (fun s p => inl (toZ s * toZ p)%Z) x_code x_compile x_joint x_is
    (fun _ => 0) ex_cluster (fun i => (inl (3 + Z.of_nat i)%Z, inl 5%Z)) (fun k => fun _ => [(InV 0, inr (9, Z.of_nat k)); (OutV 0, inr (9, 9%Z))]) ex_program.
Example C209_example :
  well_formed ex_cluster 4 /\
  (exists results, meaning ex_cluster (fun v : XV => inl (toZ v)) x_sec (fun m g => match x_compile m g with Some _ => true | None => false end) [] ex_program = Some results /\
    map snd results = [inl 6%Z; inl 7%Z; inl 2%Z; inl 12%Z; inl 84%Z; inl 91%Z; inl 97%Z; inl 97%Z; inl 98%Z; inl 98%Z] /\
    map fst results = ["P0"; "P2"; "S"; "S"; "S"; "T"; "P0"; "T"; "T"; "P0"]%string) /\
  spu_laws x_make x_rec x_compile x_joint x_is (fun v => inl (toZ v)) x_sec x_shared /\
  match ex_env with Some e => match nth_error e 9 with Some (d, x) => Some (d, fetch nat XV (Device "P0" PPU [0]) x) | None => None end | None => None end = Some ("P0"%string, Some (inl 98%Z)).
Proof.
  split; [|split; [|split; [exact x_laws|]]].
  - intros d dev. unfold ex_cluster.
    assert (D : forall dv : device, (forall m, In m (dv_members dv) -> m < 4) ->
      match dv_kind dv with PPU | TEE => exists a, dv_members dv = [a] | SPU => StronglySorted lt (dv_members dv) /\ dv_members dv <> [] | OtherKind => True end ->
      dv_name dv = d -> Some dv = Some dev -> dv_name dev = d /\ (forall m, In m (dv_members dev) -> m < 4) /\
      match dv_kind dev with PPU | TEE => exists a, dv_members dev = [a] | SPU => StronglySorted lt (dv_members dev) /\ dv_members dev <> [] | OtherKind => True end).
    { intros dv A B C E. injection E as <-. auto. }
    destruct (String.eqb_spec d "P0") as [->|_]; [apply D; cbn; [lia|eauto|reflexivity]|].
    destruct (String.eqb_spec d "P2") as [->|_]; [apply D; cbn; [lia|eauto|reflexivity]|].
    destruct (String.eqb_spec d "T") as [->|_]; [apply D; cbn; [lia|eauto|reflexivity]|].
    destruct (String.eqb_spec d "S") as [->|_]; [apply D; cbn; [lia|split; [repeat constructor|congruence]|reflexivity]|].
    intros E. discriminate E.
  - eexists. split; [vm_compute; reflexivity|]. split; reflexivity.
  - vm_compute. reflexivity.
Qed.
