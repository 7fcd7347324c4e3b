(** Property C213: traced programs of device calls run on the network. *)
From stdpp Require Import gmap.
From Coq Require Import Bool Arith String List Lia.
From Verif Require Import NetSpec NetModel NetProofs CollModel CollProofs FaultModel FaultProofs SpmdModel SpmdSpec SpmdProofs SpmdProps.
From Verif Require Import SimpModel DeviceModel DeviceSpec SpuRunModel SpuRunSpec DevProgModel DevProgSpec DevProgProofs DevProgProps DevTraceModel DevTraceSpec DevTraceProofs DevTraceProofs2.
Import ListNotations.
Local Open Scope nat_scope.

Lemma no_spu_laws (V : Type) (v0 : V) : spu_laws (code := unit) (fun v k => repeat v k) (fun l => hd v0 l) (fun _ _ => None) (fun _ _ => None) (fun _ => true) (fun v => v) (fun g => g)
  (fun v col => col <> [] /\ forall s, In s col -> s = v).
Proof.
  split.
  - intros v k Hk. split; [apply repeat_length|]. split; [destruct k; [lia|discriminate]|]. intros s. apply repeat_spec.
  - intros v [|s col] [N H]; [congruence|]. apply H. left. reflexivity.
  - reflexivity.
  - discriminate.
Qed.


Section T.
Context {VT V : Type}.
Variable vt_eqb : VT -> VT -> bool.
Hypothesis H1 : forall x y, vt_eqb x y = true <-> x = y.
Variable truthy : V -> bool.
Variable n : nat.
Variable key_t : VT.
Variables (encrypt decrypt : V -> V -> V) (pub hkdf quote attest : V -> V) (derive : V -> V -> V).
Hypothesis H2 : forall k v, decrypt k (encrypt k v) = v.
Hypothesis H3 : forall x, attest (quote x) = x.
Hypothesis H4 : forall s s', derive s (pub s') = derive s' (pub s).
Variable typ : V -> VT.
Variable cluster : string -> option device.
Hypothesis HW : well_formed cluster n.
Hypothesis HK : forall d dev, cluster d = Some dev -> dv_kind dev = PPU \/ dv_kind dev = TEE.
Variable draw : nat -> V * V.
Lemma trace_result program results : meaning cluster (fun v => v) (fun g => g) (fun _ _ => false) [] program = Some results ->
  exists g ws, trace VT V key_t encrypt decrypt pub hkdf quote attest derive typ cluster draw program = Some g /\
    means truthy n g [] (Done ws) /\ forall r, at_party r ws = held cluster results r.
Proof.
  intros HM.
  destruct (C209_device_programs VT V unit vt_eqb n key_t key_t (fun v k => repeat v k) (fun l => hd (fst (draw 0)) l) encrypt decrypt pub hkdf quote attest derive
              (fun _ _ => None) (fun _ _ => None) (fun _ => true) (fun v => v) (fun g => g) (fun v col => col <> [] /\ forall s, In s col -> s = v)
              typ cluster draw (fun _ _ => []) program results H1 H2 H3 H4 (no_spu_laws V (fst (draw 0))) HW HM) as (objects & R & L & G).
  destruct (trace_means vt_eqb truthy n key_t key_t _ _ encrypt decrypt pub hkdf quote attest derive _ _ _ typ cluster HW HK draw _ program objects R) as (g & ws & T & M & A).
  exists g, ws. split; [exact T|]. split; [exact M|]. intros r. rewrite (A r). unfold held. clear -L G HK.
  revert results L G. induction objects as [|[d' x] objects IH]; intros [|[d v] results] L G; try discriminate L; [reflexivity|]. cbn [map].
  f_equal; [|apply IH; [cbn in L; lia|intros i; exact (G (S i))]].
  destruct (G 0 d v eq_refl) as (x' & E & (dev & C & O & D) & _). cbn in E. injection E as -> ->. cbn. rewrite C.
  assert (exists t a, dv_members dev = [a] /\ plain_at x' t a v) as (t & a & Ea & _ & _ & Pa & Po) by (destruct (HK _ _ C) as [K|K]; rewrite K in D; exact D).
  rewrite Ea. cbn. destruct (Nat.eqb_spec r a) as [->|N]; cbn; [exact Pa|]. apply Po. intros [F|[]]. congruence.
Qed.
End T.

(** A program of calls on PPUs and TEEs, traced and given to the workers: if it means something,
    tracing succeeds, and every execution of the workers on the network - whatever the order in
    which they proceed and messages arrive - is finite and ends with every rank holding the results
    of the devices it is a member of, with the values the program means, and None for all others; no
    message is left over. *)
Theorem C213_traced_programs_run : forall (VT V : Type) (vt_eqb : VT -> VT -> bool) (truthy : V -> bool) (n : nat) (key_t : VT)
    (encrypt decrypt : V -> V -> V) (pub hkdf quote attest : V -> V) (derive : V -> V -> V)
    (typ : V -> VT) (cluster : string -> option device) (draw : nat -> V * V) (program : list (stmt VT V)) (results : list (string * V)),
  (forall x y, vt_eqb x y = true <-> x = y) ->
  (forall k v, decrypt k (encrypt k v) = v) -> (forall x, attest (quote x) = x) -> (forall s s', derive s (pub s') = derive s' (pub s)) ->
  well_formed cluster n -> (forall d dev, cluster d = Some dev -> dv_kind dev = PPU \/ dv_kind dev = TEE) ->
  meaning cluster (fun v => v) (fun g => g) (fun _ _ => false) [] program = Some results ->
  exists g bound, trace VT V key_t encrypt decrypt pub hkdf quote attest derive typ cluster draw program = Some g /\
  forall fuel c, bound <= fuel -> matched c ->
  exists c', matched c' /\
    every_schedule_ends_in net_step (start (workers truthy n fuel g []) c)
      (start (group (seq 0 n) (fun r => NetSpec.Ret (Some (held cluster results r)))) c').
Proof.
  intros VT V vt_eqb truthy n key_t encrypt decrypt pub hkdf quote attest derive typ cluster draw program results H1 H2 H3 H4 HW HK HM.
  destruct (trace_result vt_eqb H1 truthy n key_t encrypt decrypt pub hkdf quote attest derive H2 H3 H4 typ cluster HW HK draw program results HM) as (g & ws & T & M & A).
  destruct (C204_workers VT V truthy n g [] ws M) as [bound K]. exists g, bound. split; [exact T|]. intros fuel c L HM'. destruct (K fuel c L HM') as (c' & M' & E). exists c'. split; [exact M'|].
  replace (group (seq 0 n) (fun r => NetSpec.Ret (Some (held cluster results r)))) with (group (M := val (option V)) (X := cexn) (seq 0 n) (fun r => NetSpec.Ret (Some (at_party r ws)))); [exact E|].
  apply group_ext. intros r _. rewrite (A r). reflexivity.
Qed.
Print Assumptions C213_traced_programs_run.

(** Ranks die at any points and messages get lost: a rank that finishes all the same holds its
    results of what the program means. *)
Theorem C213_survivors_are_right : forall (VT V : Type) (vt_eqb : VT -> VT -> bool) (truthy : V -> bool) (n : nat) (key_t : VT)
    (encrypt decrypt : V -> V -> V) (pub hkdf quote attest : V -> V) (derive : V -> V -> V)
    (typ : V -> VT) (cluster : string -> option device) (draw : nat -> V * V) (program : list (stmt VT V)) (results : list (string * V)),
  (forall x y, vt_eqb x y = true <-> x = y) ->
  (forall k v, decrypt k (encrypt k v) = v) -> (forall x, attest (quote x) = x) -> (forall s s', derive s (pub s') = derive s' (pub s)) ->
  well_formed cluster n -> (forall d dev, cluster d = Some dev -> dv_kind dev = PPU \/ dv_kind dev = TEE) ->
  meaning cluster (fun v => v) (fun g => g) (fun _ _ => false) [] program = Some results ->
  exists g bound, trace VT V key_t encrypt decrypt pub hkdf quote attest derive typ cluster draw program = Some g /\
  forall fuel c state r out, bound <= fuel -> matched c -> r < n ->
  rtc faulty_step (start (workers truthy n fuel g []) c) state ->
  NetModel.parties state !! r = Some (NetSpec.Ret (Some out)) -> out = held cluster results r.
Proof.
  intros VT V vt_eqb truthy n key_t encrypt decrypt pub hkdf quote attest derive typ cluster draw program results H1 H2 H3 H4 HW HK HM.
  destruct (trace_result vt_eqb H1 truthy n key_t encrypt decrypt pub hkdf quote attest derive H2 H3 H4 typ cluster HW HK draw program results HM) as (g & ws & T & M & A).
  destruct (C206_survivors_are_right VT V truthy n g [] ws M) as [bound K]. exists g, bound. split; [exact T|]. intros fuel c state r out L HM' Hr S R.
  rewrite <- (A r). exact (K fuel c state r out L HM' Hr S R).
Qed.
Print Assumptions C213_survivors_are_right.

(** A rank that is no member of a device the program names takes no part: its copy of the program
    neither sends nor receives anything, and it holds none of the results. *)
Theorem C213_bystanders : forall (VT V : Type) (vt_eqb : VT -> VT -> bool) (truthy : V -> bool) (n : nat) (key_t : VT)
    (encrypt decrypt : V -> V -> V) (pub hkdf quote attest : V -> V) (derive : V -> V -> V)
    (typ : V -> VT) (cluster : string -> option device) (draw : nat -> V * V) (program : list (stmt VT V)) (results : list (string * V)) (r : nat),
  (forall x y, vt_eqb x y = true <-> x = y) ->
  (forall k v, decrypt k (encrypt k v) = v) -> (forall x, attest (quote x) = x) -> (forall s s', derive s (pub s') = derive s' (pub s)) ->
  well_formed cluster n -> (forall d dev, cluster d = Some dev -> dv_kind dev = PPU \/ dv_kind dev = TEE) ->
  meaning cluster (fun v => v) (fun g => g) (fun _ _ => false) [] program = Some results ->
  (forall d dev, In d (named program) -> cluster d = Some dev -> ~ In r (dv_members dev)) ->
  exists g, trace VT V key_t encrypt decrypt pub hkdf quote attest derive typ cluster draw program = Some g /\
  forall fuel, wregion truthy n fuel r g [] = NetSpec.Ret (Some (repeat None (length results))).
Proof.
  intros VT V vt_eqb truthy n key_t encrypt decrypt pub hkdf quote attest derive typ cluster draw program results r H1 H2 H3 H4 HW HK HM HF.
  destruct (trace_result vt_eqb H1 truthy n key_t encrypt decrypt pub hkdf quote attest derive H2 H3 H4 typ cluster HW HK draw program results HM) as (g & ws & T & M & A).
  exists g. split; [exact T|]. intros fuel. unfold trace in T.
  assert (Forall (far cluster r) (named program)) as F by (apply Forall_forall; intros d Hd dev C; exact (HF d dev Hd C)).
  destruct (t_prog VT V key_t encrypt decrypt pub hkdf quote attest derive typ cluster draw (TState [] 0) 0 [] program) as [[ops outs]|] eqn:E; [|discriminate T]. cbn in T. injection T as <-.
  pose proof (prog_away key_t encrypt decrypt pub hkdf quote attest derive typ cluster draw r program _ _ _ _ _ (List.Forall_nil _) F E) as W.
  rewrite <- (held_far cluster r results (meaning_far cluster r _ program [] results (List.Forall_nil _) F HM)), <- (A r).
  exact (away_means truthy n r fuel ops _ [] ws W M).
Qed.
Print Assumptions C213_bystanders.

(** An instance: two data owners, a TEE, a bystander.  x on P0 goes to the TEE, where y of P1 is
    added; the sum goes back to P0 within the session made before. *)
Definition tr_cluster (d : string) : option device :=
  if String.eqb d "P0" then Some (Device "P0" PPU [0]) else if String.eqb d "P1" then Some (Device "P1" PPU [1])
  else if String.eqb d "T" then Some (Device "T" TEE [2]) else None.
Definition tr_add (l : list nat) : list nat := match l with [x; y] => [x + y] | _ => [] end.
Definition tr_program : list (stmt nat nat) :=
  [ PutValue _ _ "P0" 6; PutValue _ _ "P1" 7; CallOn _ _ None tr_add [0] [Ref _ 0; Lit _ 1] ;
    CallOn _ _ (Some "T"%string) tr_add [0] [Ref _ 2; Ref _ 1]; PutObject _ _ "P0" 3 ].
Definition tr_swap (k v : nat) : nat := if Nat.even v then v + 1 else v - 1.
Definition tr_trace : option (region nat nat) :=
  trace nat nat 9 tr_swap tr_swap (fun v => v) (fun v => v) (fun v => v) (fun v => v) Nat.mul (fun _ => 0) tr_cluster (fun i => (3 + i, 5)) tr_program.
Example C213_example :
  well_formed tr_cluster 4 /\ (forall d dev, tr_cluster d = Some dev -> dv_kind dev = PPU \/ dv_kind dev = TEE) /\
  (forall k v, tr_swap k (tr_swap k v) = v) /\
  meaning tr_cluster (fun v => v) (fun g => g) (fun _ _ => false) [] tr_program = Some [("P0", 6); ("P1", 7); ("P0", 7); ("T", 14); ("P0", 14)]%string /\
  held tr_cluster [("P0", 6); ("P1", 7); ("P0", 7); ("T", 14); ("P0", 14)]%string 0 = [Some 6; None; Some 7; None; Some 14] /\
  (forall d dev, In d (named tr_program) -> tr_cluster d = Some dev -> ~ In 3 (dv_members dev)) /\
  match tr_trace with Some g => wregion (VT := nat) (fun v : nat => 0 <? v) 4 0 3 g [] = NetSpec.Ret (Some [None; None; None; None; None]) | None => False end.
Proof.
  split; [|split; [|split; [|split; [reflexivity|split; [reflexivity|split; [|vm_compute; reflexivity]]]]]].
  - intros d dev. unfold tr_cluster. destruct (String.eqb_spec d "P0") as [->|_]; [|destruct (String.eqb_spec d "P1") as [->|_]; [|destruct (String.eqb_spec d "T") as [->|_]; [|discriminate]]];
      intros E; injection E as <-; cbn; (split; [reflexivity|split; [lia|eauto]]).
  - intros d dev. unfold tr_cluster. repeat match goal with |- context[if ?b then _ else _] => destruct b end; intros E; try discriminate E; injection E as <-; cbn; auto.
  - intros k v. unfold tr_swap. destruct (Nat.even v) eqn:E.
    + rewrite Nat.add_1_r, Nat.even_succ, <- Nat.negb_even, E. cbn. lia.
    + destruct v as [|v]; [discriminate E|]. cbn [Nat.sub]. rewrite Nat.sub_0_r. rewrite Nat.even_succ, <- Nat.negb_even in E. destruct (Nat.even v); [lia|discriminate E].
  - intros d dev _. unfold tr_cluster. repeat match goal with |- context[if ?b then _ else _] => destruct b end; intros E; try discriminate E; injection E as <-; cbn; lia.
Qed.
