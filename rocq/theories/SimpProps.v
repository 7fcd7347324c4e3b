(** Properties of the SIMP layer: party typing (C38), converge (C39), the collective library
    (C40), the driver's collection of results (C41) and loops (C67, C68).

    VT are value types, V local values, n the world size. A program is a [region]; [type_region]
    is what tracing computes, [run_region] what the workers compute together; every rank starts
    active. *)
From Coq Require Import List Bool Arith Lia Sorted.
From Verif Require Import SimpModel SimpSpec SimpProofs SimpProofs2.
Import ListNotations.
Local Open Scope nat_scope.

Definition everyone : nat -> bool := fun _ => true.
(** the concrete instance of the examples: types and values are numbers *)
Definition nz (v : nat) : bool := negb (v =? 0).
Definition inc : local nat nat := Local _ _ [7] (fun args _ => match args with [Some a] => Some (S a) | _ => None end).
Definition dec : local nat nat := Local _ _ [7] (fun args _ => match args with [Some a] => Some (pred a) | _ => None end).
Definition idl : local nat nat := Local _ _ [7] (fun args _ => match args with [Some a] => Some a | _ => None end).
Definition konst (c : nat) : local nat nat := Local _ _ [7] (fun _ _ => Some c).
Definition addl : local nat nat := Local _ _ [7] (fun args _ => match args with [Some a; Some b] => Some (a + b) | _ => None end).
(** the values of an output list at the ranks of a world *)
Definition table (n : nat) (vs : list (mpval nat)) : list (list (option nat)) := map (fun v : mpval nat => map v (seq 0 n)) vs.

(* ================================================================ C38 *)

(** In any program that traces and completes, a value with a static party set is held by no
    other rank. *)
Theorem C38_confined : forall (VT V : Type) (vt_eqb : VT -> VT -> bool) (truthy : V -> bool) (n fuel : nat)
    (g : region VT V) (ts tso : list (mptype VT)) (env vs : list (mpval V)),
  env_is confined n everyone ts env -> type_region VT V vt_eqb g ts = Some tso -> run_region VT V truthy n false fuel everyone g env = Some vs ->
  env_is confined n everyone tso vs.
Proof. intros VT V e tr n fuel g ts tso env vs H1 H2 H3. exact (confined_sound e tr n g false fuel everyone ts env tso vs H1 H2 H3). Qed.
Print Assumptions C38_confined.

(** In programs without pcall_dynamic, made of local functions that return something, exactly
    the parties of the static type hold a value; and every party executing a pcall held every
    argument: the run in which a missing argument is an error gives the same result.
    Missing: programs with dynamically typed values, for which it is false (next theorem). *)
Theorem C119_exact_partial : forall (VT V : Type) (vt_eqb : VT -> VT -> bool) (truthy : V -> bool) (n fuel : nat)
    (g : region VT V) (ts tso : list (mptype VT)) (env vs : list (mpval V)),
  static_region g -> env_is exact n everyone ts env -> type_region VT V vt_eqb g ts = Some tso -> run_region VT V truthy n false fuel everyone g env = Some vs ->
  env_is exact n everyone tso vs /\ run_region VT V truthy n true fuel everyone g env = Some vs.
Proof. intros VT V e tr n fuel g ts tso env vs H0 H1 H2 H3. exact (exact_sound e tr n g fuel everyone ts env tso vs H0 H1 H2 H3). Qed.
Print Assumptions C119_exact_partial.

(** a program with pcalls, a loop, a shuffle and a converge: party 0 counts down from 3, party 1
    gets the 3, both merge and increment *)
Definition tot (f : nat -> nat) : local nat nat := Local _ _ [7] (fun args _ => match args with Some a :: _ => Some (f a) | _ => Some 0 end).
Definition prog38 : region nat nat :=
  Let _ _ (PCallStatic _ _ [0] [] (konst 3))
  (Let _ _ (WhileLoop _ _ [0] [] None (Let _ _ (PCallStatic _ _ [0] [0] (tot (fun a => a))) (Ret _ _ [1])) (Let _ _ (PCallStatic _ _ [0] [0] (tot pred)) (Ret _ _ [1])))
  (Let _ _ (Shuffle _ _ 0 [(1, 0)])
  (Let _ _ (Converge _ _ [1; 2])
  (Let _ _ (PCallStatic _ _ [1; 0] [3] (tot S)) (Ret _ _ [1; 2; 3; 4]))))).
Example C38_ex_static : static_region prog38.
Proof. repeat split; try discriminate; intros args k F Hk; cbn; try discriminate; destruct args as [|[a|] l]; cbn; discriminate. Qed.
Example C38_ex_runs :
  option_map (map (parties _)) (type_region nat nat Nat.eqb prog38 []) = Some [Some [0]; Some [1]; Some [0; 1]; Some [0; 1]] /\
  option_map (table 3) (run_region nat nat nz 3 false 10 everyone prog38 []) =
    Some [[Some 0; None; None]; [None; Some 3; None]; [Some 0; Some 3; None]; [Some 1; Some 4; None]].
Proof. split; vm_compute; reflexivity. Qed.

(** A single dynamically typed argument switches off the check on all the others: a pcall by
    parties 0 and 1 is accepted although party 1 does not hold the static argument. It then
    runs the function there with a missing argument. *)
Theorem C119_dynamic_argument_refuted : exists (g : region nat nat) (t : mptype nat) (v : mpval nat),
  type_region nat nat Nat.eqb g [] = Some [t] /\ parties _ t = Some [0; 1] /\
  run_region nat nat nz 2 false 1 everyone g [] = Some [v] /\ v 1 = None /\
  run_region nat nat nz 2 true 1 everyone g [] = None.
Proof.
  exists (Let _ _ (PCallStatic _ _ [0] [] (konst 3)) (Let _ _ (PCallDynamic _ _ [] (konst 4)) (Let _ _ (PCallStatic _ _ [0; 1] [0; 1] addl) (Ret _ _ [2])))).
  eexists. eexists. split; [vm_compute; reflexivity|]. split; [reflexivity|]. split; [vm_compute; reflexivity|]. split; vm_compute; reflexivity.
Qed.
Print Assumptions C119_dynamic_argument_refuted.
(** without the dynamic argument the same pcall is rejected when traced *)
Example C38_static_rejected :
  type_region nat nat Nat.eqb (Let _ _ (PCallStatic _ _ [0] [] (konst 3)) (Let _ _ (PCallStatic _ _ [0; 1] [0] (tot S)) (Ret _ _ [1]))) [] = None.
Proof. vm_compute. reflexivity. Qed.

(* ================================================================ C39 *)

(** With static party sets [ps], converge is accepted exactly when there is an argument, the
    value types agree and the sets are pairwise disjoint. *)
Theorem C39_accepts_iff : forall (VT : Type) (vt_eqb : VT -> VT -> bool) (ts : list (mptype VT)) (ps : list (list nat)),
  (forall a b : VT, vt_eqb a b = true <-> a = b) -> map (parties VT) ts = map Some ps ->
  ((exists t : mptype VT, type_converge VT vt_eqb ts = Some t) <->
   ts <> [] /\ (forall t u : mptype VT, In t ts -> In u ts -> vt _ t = vt _ u) /\ ForallOrdPairs disjoint ps).
Proof. intros VT e ts ps He H. exact (converge_iff e He ts ps H). Qed.
Print Assumptions C39_accepts_iff.

(** The result has the common value type and is held by the union (an empty union is typed
    dynamic). *)
Theorem C39_union : forall (VT : Type) (vt_eqb : VT -> VT -> bool) (ts : list (mptype VT)) (ps : list (list nat)) (t : mptype VT),
  (forall a b : VT, vt_eqb a b = true <-> a = b) -> map (parties VT) ts = map Some ps -> type_converge VT vt_eqb ts = Some t ->
  (forall u : mptype VT, In u ts -> vt _ t = vt _ u) /\
  ((concat ps = [] /\ parties _ t = None) \/ (concat ps <> [] /\ exists P : list nat, parties _ t = Some P /\ StronglySorted lt P /\ forall r : nat, In r P <-> In r (concat ps))).
Proof. intros VT e ts ps t He H1 H2. exact (converge_type e He ts ps t H1 H2). Qed.
Print Assumptions C39_union.

(** Each party's value is the one it held: with static disjoint sets, the value at a party of
    the i-th set is the i-th argument's; nobody else has one. *)
Theorem C39_values : forall (VT V : Type) (vt_eqb : VT -> VT -> bool) (xs : list (object VT V)) (y : object VT V),
  (forall a b : VT, vt_eqb a b = true <-> a = b) ->
  (forall (x : object VT V) (r : nat), In x xs -> exists P : list nat, parties _ (fst x) = Some P /\ (In r P <-> snd x r <> None)) ->
  converge VT V vt_eqb xs = Some y ->
  (forall (x : object VT V) (P : list nat) (r : nat), In x xs -> parties _ (fst x) = Some P -> In r P -> snd y r = snd x r) /\
  (forall r : nat, (forall x : object VT V, In x xs -> snd x r = None) -> snd y r = None).
Proof. intros VT V e xs y He Hex H. exact (converge_values e He xs y Hex H). Qed.
Print Assumptions C39_values.

(** arguments by parties {0}, {2} and {1}: accepted, held by {0,1,2}; overlapping ones are not *)
Definition obj (P : list nat) (c : nat) : object nat nat := (MP _ 7 (Some P), fun r => if existsb (Nat.eqb r) P then Some (c + r) else None).
Example C39_ex :
  option_map (fun y : object nat nat => (parties _ (fst y), map (snd y) (seq 0 4))) (converge nat nat Nat.eqb [obj [0] 10; obj [2] 20; obj [1] 30])
    = Some (Some [0; 1; 2], [Some 10; Some 31; Some 22; None]) /\
  converge nat nat Nat.eqb [obj [0; 1] 10; obj [1] 20] = None /\
  (forall (x : object nat nat) (r : nat), In x [obj [0] 10; obj [2] 20; obj [1] 30] -> exists P : list nat, parties _ (fst x) = Some P /\ (In r P <-> snd x r <> None)).
Proof.
  split; [vm_compute; reflexivity|]. split; [reflexivity|].
  intros x r [<-|[<-|[<-|[]]]]; eexists; (split; [reflexivity|]); cbn; destruct r as [|[|[|r]]]; cbn; split; intros H; try congruence; intuition discriminate.
Qed.

(** When some argument is dynamically typed nothing is checked; a party then gets the first
    value it holds. *)
Theorem C39_dynamic_first : forall (VT V : Type) (vt_eqb : VT -> VT -> bool) (xs : list (object VT V)) (y : object VT V) (r : nat),
  converge VT V vt_eqb xs = Some y -> snd y r = first_held (map snd xs) r.
Proof.
  intros VT V e xs y r H. unfold converge in H. destruct (type_converge VT e (map fst xs)) as [t|]; [|discriminate H]. injection H as <-. apply first_held_spec.
Qed.
Print Assumptions C39_dynamic_first.
Example C39_dynamic_ex :
  option_map (fun y : object nat nat => (parties _ (fst y), map (snd y) (seq 0 3))) (converge nat nat Nat.eqb [(MP _ 7 None, fun _ => Some 1); obj [0] 9]) = Some (None, [Some 1; Some 1; Some 1]).
Proof. vm_compute. reflexivity. Qed.

(* ================================================================ C40 *)

(** transfer: held by [to] alone, with the source's value *)
Theorem C40_transfer : forall (VT V : Type) (n to frm : nat) (x : object VT V),
  parties _ (fst x) = Some [frm] -> (forall r : nat, r <> frm -> snd x r = None) -> frm < n -> to < n ->
  exists y : object VT V, transfer VT V n x to = Some y /\ vt _ (fst y) = vt _ (fst x) /\ held_by y [to] (fun _ => snd x frm).
Proof.
  intros VT V n to frm x HP Hc Hf Ht. unfold transfer, single_party. rewrite HP. destruct (Nat.eqb_spec frm to) as [->|Ne].
  - exists x. split; [reflexivity|]. split; [reflexivity|]. split; [exists [to]; split; [exact HP|split; [repeat constructor|tauto]]|]. split.
    + intros r [<-|[]]. reflexivity.
    + intros r Hr. apply Hc. intros ->. apply Hr. left. reflexivity.
  - apply (fromkeys_sound n x [to] frm [frm]); [discriminate|exact HP|left; reflexivity|exact Hf|]. intros k [<-|[]]. exact Ht.
Qed.
Print Assumptions C40_transfer.

(** replicate: every target holds the source's value, nobody else holds one *)
Theorem C40_replicate : forall (VT V : Type) (n frm : nat) (to : list nat) (x : object VT V),
  parties _ (fst x) = Some [frm] -> frm < n -> to <> [] -> (forall k : nat, In k to -> k < n) ->
  exists y : object VT V, replicate VT V n x to = Some y /\ vt _ (fst y) = vt _ (fst x) /\ held_by y to (fun _ => snd x frm).
Proof.
  intros VT V n frm to x HP Hf Hne Hto. unfold replicate, single_party. rewrite HP.
  apply (fromkeys_sound n x to frm [frm]); [exact Hne|exact HP|left; reflexivity|exact Hf|exact Hto].
Qed.
Print Assumptions C40_replicate.

(** both refuse a value that is not held by exactly one statically known party *)
Theorem C40_single_source : forall (VT V : Type) (n t : nat) (to : list nat) (x : object VT V),
  (forall p : nat, parties _ (fst x) <> Some [p]) -> transfer VT V n x t = None /\ replicate VT V n x to = None.
Proof.
  intros VT V n t to x H. unfold transfer, replicate, single_party. destruct (parties VT (fst x)) as [[|a [|b l]]|]; auto. exfalso. apply (H a). reflexivity.
Qed.
Print Assumptions C40_single_source.

(** distribute: party i holds values[i], for i below the number of values *)
Theorem C40_distribute : forall (VT V : Type) (vt_eqb : VT -> VT -> bool) (n frm : nat) (xs : list (object VT V)),
  (forall a b : VT, vt_eqb a b = true <-> a = b) ->
  xs <> [] -> (forall x : object VT V, In x xs -> parties _ (fst x) = Some [frm]) -> (forall x y : object VT V, In x xs -> In y xs -> vt _ (fst x) = vt _ (fst y)) ->
  frm < n -> length xs <= n ->
  exists y : object VT V, distribute VT V vt_eqb n xs frm = Some y /\
    held_by y (seq 0 (length xs)) (fun i => match nth_error xs i with Some x => snd x frm | None => None end).
Proof. intros VT V e n frm xs He. exact (distribute_sound e n He xs frm). Qed.
Print Assumptions C40_distribute.

(** collect: the i-th result is held by [to] and is the i-th source party's value *)
Theorem C40_collect : forall (VT V : Type) (n to : nat) (ps : list nat) (x : object VT V),
  parties _ (fst x) = Some ps -> (forall p : nat, In p ps -> p < n) -> to < n ->
  exists ys : list (object VT V), collect VT V n x to = Some ys /\ length ys = length ps /\
    forall (i p : nat), nth_error ps i = Some p -> exists y : object VT V, nth_error ys i = Some y /\ vt _ (fst y) = vt _ (fst x) /\ held_by y [to] (fun _ => snd x p).
Proof.
  intros VT V n to ps x HP Hn Ht. unfold collect. rewrite HP.
  assert (forall p, In p ps -> exists y : object VT V, shuffle_static VT V n x [(to, p)] = Some y /\ vt _ (fst y) = vt _ (fst x) /\ held_by y [to] (fun _ => snd x p)) as H1.
  { intros p Hp. apply (fromkeys_sound n x [to] p ps); [discriminate|exact HP|exact Hp|exact (Hn p Hp)|intros k [<-|[]]; exact Ht]. }
  destruct (mapO_total (fun src => shuffle_static VT V n x [(to, src)]) ps) as (ys & E); [intros p Hp; destruct (H1 p Hp) as (y & Ey & _); eauto|].
  exists ys. split; [exact E|]. destruct (mapO_nth _ _ _ E) as [L K]. split; [exact L|]. intros i p Hi. destruct (K i p Hi) as (y & Ey & Es). exists y. split; [exact Ey|].
  destruct (H1 p (nth_error_In _ _ Hi)) as (y' & Ey' & R). rewrite Es in Ey'. injection Ey' as <-. exact R.
Qed.
Print Assumptions C40_collect.

(** allreplicate: the i-th result is the i-th party's value, at every party *)
Theorem C40_allreplicate : forall (VT V : Type) (n : nat) (ps : list nat) (x : object VT V),
  parties _ (fst x) = Some ps -> (forall p : nat, In p ps -> p < n) ->
  exists ys : list (object VT V), allreplicate VT V n x = Some ys /\ length ys = length ps /\
    forall (i p : nat), nth_error ps i = Some p -> exists y : object VT V, nth_error ys i = Some y /\ vt _ (fst y) = vt _ (fst x) /\ held_by y ps (fun _ => snd x p).
Proof.
  intros VT V n ps x HP Hn. unfold allreplicate. rewrite HP.
  assert (forall p, In p ps -> exists y : object VT V, shuffle_static VT V n x (fromkeys ps p) = Some y /\ vt _ (fst y) = vt _ (fst x) /\ held_by y ps (fun _ => snd x p)) as H1.
  { intros p Hp. apply (fromkeys_sound n x ps p ps); [intros ->; destruct Hp|exact HP|exact Hp|exact (Hn p Hp)|exact Hn]. }
  destruct (mapO_total (fun src => shuffle_static VT V n x (fromkeys ps src)) ps) as (ys & E); [intros p Hp; destruct (H1 p Hp) as (y & Ey & _); eauto|].
  exists ys. split; [exact E|]. destruct (mapO_nth _ _ _ E) as [L K]. split; [exact L|]. intros i p Hi. destruct (K i p Hi) as (y & Ey & Es). exists y. split; [exact Ey|].
  destruct (H1 p (nth_error_In _ _ Hi)) as (y' & Ey' & R). rewrite Es in Ey'. injection Ey' as <-. exact R.
Qed.
Print Assumptions C40_allreplicate.

(** permute (= shuffle_static) by a dict target -> source: each target holds its source's value *)
Theorem C40_permute : forall (VT V : Type) (n : nat) (ps : list nat) (x : object VT V) (mapping : list (nat * nat)),
  NoDup (map fst mapping) -> mapping <> [] -> parties _ (fst x) = Some ps -> (forall t s : nat, In (t, s) mapping -> In s ps /\ s < n /\ t < n) ->
  exists y : object VT V, permute VT V n x mapping = Some y /\ vt _ (fst y) = vt _ (fst x) /\
    (forall t s : nat, In (t, s) mapping -> snd y t = snd x s) /\ held_by y (map fst mapping) (snd y).
Proof.
  intros VT V n ps x mp ND Hne HP H. destruct (shuffle_accepts n x mp ps Hne HP H) as (y & Ey & Ty & Vy). exists y. split; [exact Ey|]. rewrite Ty. split; [reflexivity|].
  assert (forall t s, In (t, s) mp -> dict_get mp t = Some s) as DG.
  { intros t s Hi. destruct (dict_get mp t) as [s'|] eqn:D.
    - apply dict_get_Some in D. f_equal. clear -ND Hi D. induction mp as [|[a b] l IH]; [destruct Hi|]. cbn in ND. inversion ND as [|? ? Nn ND']; subst.
      destruct Hi as [E|Hi], D as [E'|D]; try (injection E as -> ->); try (injection E' as -> ->).
      + congruence.
      + exfalso. apply Nn. apply in_map_iff. exists (t, s'). auto.
      + exfalso. apply Nn. apply in_map_iff. exists (t, s). auto.
      + apply IH; assumption.
    - exfalso. apply dict_get_None in D. apply D. apply in_map_iff. exists (t, s). auto. }
  split; [intros t s Hi; rewrite Vy, (DG t s Hi); reflexivity|]. split; [rewrite Ty; eexists; split; [reflexivity|split; [apply norm_sorted|intros r; apply norm_In]]|]. split; [reflexivity|].
  intros r Hr. rewrite Vy. destruct (dict_get mp r) as [s|] eqn:D; [|reflexivity]. exfalso. apply Hr. apply dict_get_Some in D. apply in_map_iff. exists (r, s). auto.
Qed.
Print Assumptions C40_permute.

(** collect undoes distribute, wherever the values are collected *)
Theorem C40_collect_distribute : forall (VT V : Type) (vt_eqb : VT -> VT -> bool) (n frm to : nat) (xs : list (object VT V)) (y : object VT V) (ys : list (object VT V)) (i : nat) (x : object VT V),
  (forall a b : VT, vt_eqb a b = true <-> a = b) ->
  xs <> [] -> (forall x : object VT V, In x xs -> parties _ (fst x) = Some [frm]) -> (forall x y : object VT V, In x xs -> In y xs -> vt _ (fst x) = vt _ (fst y)) ->
  frm < n -> to < n -> length xs <= n ->
  distribute VT V vt_eqb n xs frm = Some y -> collect VT V n y to = Some ys ->
  nth_error xs i = Some x -> exists z : object VT V, nth_error ys i = Some z /\ snd z to = snd x frm.
Proof.
  intros VT V e n frm to xs y ys i x He Hne Hp Hv Hf Ht Hl Hd Hc Hx.
  destruct (C40_distribute VT V e n frm xs He Hne Hp Hv Hf Hl) as (y' & Ey & HB). rewrite Hd in Ey. injection Ey as <-.
  assert (parties _ (fst y) = Some (seq 0 (length xs))) as HP.
  { destruct HB as ((Q & HQ & SQ & MQ) & _). rewrite HQ. f_equal. apply sorted_ext; [exact SQ|apply seq_sorted|exact MQ]. }
  destruct (C40_collect VT V n to (seq 0 (length xs)) y HP) as (ys' & Ec & Ly & K); [intros p Hp'; apply in_seq in Hp'; lia|exact Ht|]. rewrite Hc in Ec. injection Ec as <-.
  assert (i < length xs) as Hi by (apply nth_error_Some; congruence).
  destruct (K i i (seq_nth_error 0 (length xs) i Hi)) as (z & Ez & _ & HZ). exists z. split; [exact Ez|].
  destruct HZ as (_ & HZ & _). rewrite (HZ to (or_introl eq_refl)). destruct HB as (_ & HB & _). rewrite (HB i); [rewrite Hx; reflexivity|apply in_seq; lia].
Qed.
Print Assumptions C40_collect_distribute.

Definition show (n : nat) (y : object nat nat) : option (list nat) * list (option nat) := (parties _ (fst y), map (snd y) (seq 0 n)).
Example C40_ex :
  option_map (show 3) (transfer nat nat 3 (obj [0] 10) 2) = Some (Some [2], [None; None; Some 10]) /\
  option_map (show 3) (replicate nat nat 3 (obj [1] 10) [2; 0]) = Some (Some [0; 2], [Some 11; None; Some 11]) /\
  option_map (show 3) (distribute nat nat Nat.eqb 3 [obj [1] 10; obj [1] 20; obj [1] 30] 1) = Some (Some [0; 1; 2], [Some 11; Some 21; Some 31]) /\
  option_map (map (show 3)) (collect nat nat 3 (obj [0; 2] 10) 1) = Some [(Some [1], [None; Some 10; None]); (Some [1], [None; Some 12; None])] /\
  option_map (map (show 3)) (allreplicate nat nat 3 (obj [0; 2] 10)) = Some [(Some [0; 2], [Some 10; None; Some 10]); (Some [0; 2], [Some 12; None; Some 12])] /\
  option_map (show 3) (permute nat nat 3 (obj [0; 1] 10) [(0, 1); (1, 0)]) = Some (Some [0; 1], [Some 11; Some 10; None]).
Proof. repeat split; vm_compute; reflexivity. Qed.

(* ================================================================ C41 *)

(** Dispatching an operation with k outputs over a world: the driver gets k variables with one
    entry per rank; entry i of variable j is the j-th result worker i computed from its own
    entries of the arguments. *)
Theorem C41_transpose : forall (A : Type) (world : nat) (worker : nat -> list (option A) -> option (list (option A))) (args : list (hostarg A)) (k : nat) (ys : list (list (option A))),
  dispatch world worker args k = Some ys ->
  length ys = k /\ forall (j : nat) (y : list (option A)), nth_error ys j = Some y -> length y = world /\ forall i : nat, i < world ->
    exists inputs outs : list (option A), length inputs = length args /\ (forall (a : nat) (arg : hostarg A), nth_error args a = Some arg -> nth_error inputs a = party_input i arg) /\
      worker i inputs = Some outs /\ nth_error y i = nth_error outs j.
Proof. intros A world worker args k ys. apply dispatch_spec. Qed.
Print Assumptions C41_transpose.

(** and it succeeds whenever the arguments have an entry per rank and every worker returns k
    results *)
Theorem C41_total : forall (A : Type) (world : nat) (worker : nat -> list (option A) -> option (list (option A))) (args : list (hostarg A)) (k : nat),
  (forall l : list (option A), In (DVar l) args -> length l = world) ->
  (forall (i : nat) (inputs : list (option A)), i < world -> length inputs = length args -> exists outs : list (option A), worker i inputs = Some outs /\ length outs = k) ->
  exists ys : list (list (option A)), dispatch world worker args k = Some ys.
Proof. intros A world worker args k. apply dispatch_total. Qed.
Print Assumptions C41_total.
Example C41_ex :
  dispatch 3 (fun rank inputs => match inputs with [Some a; Some b] => Some [Some (a + b); Some rank] | _ => Some [None; Some rank] end)
    [DVar [Some 10; None; Some 30]; Plain 5] 2 = Some [[Some 15; None; Some 35]; [Some 0; Some 1; Some 2]].
Proof. vm_compute. reflexivity. Qed.

(* ================================================================ C67, C68 *)

(** while_loop "synchronizes across parties", but nothing is verified: each rank evaluates the
    condition on its own value, so ranks leave the loop after different numbers of iterations
    without error... *)
Definition loop67 (body : region nat nat) : region nat nat :=
  Let _ _ (WhileLoop _ _ [0; 1] [] None (Let _ _ (PCallStatic _ _ [0; 1] [0] (tot (fun a => a))) (Ret _ _ [2])) body) (Ret _ _ [2; 3]).
Theorem C67_unverified_refuted : exists (g : region nat nat) (ts tso : list (mptype nat)) (env vs : list (mpval nat)),
  type_region nat nat Nat.eqb g ts = Some tso /\ run_region nat nat nz 2 false 10 everyone g env = Some vs /\
  (exists counter : mpval nat, nth_error vs 1 = Some counter /\ counter 0 = Some 3 /\ counter 1 = Some 1).
Proof.
  exists (loop67 (Let _ _ (PCallStatic _ _ [0; 1] [0] (tot pred)) (Let _ _ (PCallStatic _ _ [0; 1] [1] (tot S)) (Ret _ _ [2; 3])))).
  exists [MP _ 7 (Some [0; 1]); MP _ 7 (Some [0; 1])]. eexists. exists [fun r => nth_error [3; 1] r; fun r => nth_error [0; 0] r]. eexists.
  split; [vm_compute; reflexivity|]. split; [vm_compute; reflexivity|]. eexists. split; [reflexivity|]. split; vm_compute; reflexivity.
Qed.
Print Assumptions C67_unverified_refuted.
(** ... and if the body communicates, the rank that goes on waits for ever for a rank that left:
    however long one waits the program does not complete, while the same program completes when
    the ranks agree. *)
Definition chat : region nat nat :=
  Let _ _ (PCallStatic _ _ [0; 1] [0] (tot pred)) (Let _ _ (Shuffle _ _ 1 [(0, 1); (1, 0)]) (Ret _ _ [2; 3])).
Theorem C67_stuck_refuted :
  (exists tso : list (mptype nat), type_region nat nat Nat.eqb (loop67 chat) [MP _ 7 (Some [0; 1]); MP _ 7 (Some [0; 1])] = Some tso) /\
  (forall fuel : nat, run_region nat nat nz 2 false fuel everyone (loop67 chat) [fun r => nth_error [3; 1] r; fun r => nth_error [0; 0] r] = None) /\
  (exists vs : list (mpval nat), run_region nat nat nz 2 false 10 everyone (loop67 chat) [fun r => nth_error [3; 3] r; fun r => nth_error [0; 0] r] = Some vs).
Proof.
  split; [eexists; vm_compute; reflexivity|]. split; [|eexists; vm_compute; reflexivity].
  intros [|[|fuel]]; vm_compute; reflexivity.
Qed.
Print Assumptions C67_stuck_refuted.

(** A condition that is a Python constant is accepted but ignored: the region has no output, so
    a loop "while True" returns its initial state without running the body once. *)
Theorem C68_constant_condition_refuted : forall (VT V : Type) (truthy : V -> bool) (n fuel : nat) (body : region VT V) (env st : list (mpval V)) (init : list nat),
  lookup env init = Some st -> 0 < fuel ->
  run_op VT V truthy n false fuel everyone (WhileLoop _ _ init [] (Some true) (Ret _ _ []) body) env = Some st.
Proof.
  intros VT V tr n fuel body env st init Hi Hf. rewrite run_region_while. rewrite Hi. destruct fuel as [|fuel]; [lia|]. reflexivity.
Qed.
Print Assumptions C68_constant_condition_refuted.
Example C68_typed :
  (exists tso : list (mptype nat), type_op nat nat Nat.eqb (WhileLoop _ _ [0] [] (Some true) (Ret _ _ []) (Let _ _ (PCallStatic _ _ [0] [0] (tot S)) (Ret _ _ [1]))) [MP _ 7 (Some [0])] = Some tso) /\
  option_map (table 1) (run_op nat nat nz 1 false 10 everyone (WhileLoop _ _ [0] [] (Some true) (Ret _ _ []) (Let _ _ (PCallStatic _ _ [0] [0] (tot S)) (Ret _ _ [1]))) [fun _ => Some 5]) = Some [[Some 5]].
Proof. split; [eexists; vm_compute; reflexivity|vm_compute; reflexivity]. Qed.
