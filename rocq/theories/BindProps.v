(** C201: every value given to an operation takes part in it. *)
From Coq Require Import List Bool Arith ZArith Lia.
From Verif Require Import TensorModel BindModel.
Import ListNotations.
Local Open Scope nat_scope.
Local Open Scope list_scope.

(** Objects: all take part, in the order given. *)
Theorem C201_objects_used_partial :
  forall (T V R : Type) rule (impl : list V -> R) (args : list (T * V)) s,
    s = ListRule \/ s = Params (List.length args) ->
    bind s rule impl (map (fun a => Obj (fst a) (snd a)) args) = option_map (fun t => (t, impl (map snd args))) (rule (map fst args)).
Proof.
  intros T V R rule impl args s Hs.
  assert (E : objects (map (fun a : T * V => Obj (fst a) (snd a)) args) = args) by (clear Hs; induction args as [|[t v] l IH]; cbn; [|rewrite IH]; auto).
  unfold bind. rewrite E. destruct Hs as [-> | ->]; [|rewrite Nat.eqb_refl]; reflexivity.
Qed.
Print Assumptions C201_objects_used_partial.

Lemma objects_length {T V} (l : list (given T V)) : List.length (objects l) <= List.length l /\ (List.length (objects l) = List.length l -> forallb is_obj l = true).
Proof.
  induction l as [|[t v|v] l [IH1 IH2]]; cbn [objects List.length forallb is_obj andb].
  - auto.
  - split; [lia|]. intros H. apply IH2. lia.
  - split; [lia|]. intros H. exfalso. lia.
Qed.
(** Operations with a fixed number of inputs refuse a host value among them, whatever their rule. *)
Theorem C201_fixed_inputs_partial :
  forall (T V R : Type) rule (impl : list V -> R) (args : list (given T V)) r,
    bind (Params (List.length args)) rule impl args = Some r -> forallb is_obj args = true.
Proof.
  intros T V R rule impl args r. unfold bind. destruct (Nat.eqb_spec (List.length (objects args)) (List.length args)); [|discriminate].
  intros _. now apply objects_length.
Qed.
Print Assumptions C201_fixed_inputs_partial.

(** Operations over a list of inputs drop the host values. *)
Theorem C201_dropped_partial :
  forall (T V R : Type) rule (impl : list V -> R) (args : list (given T V)),
    bind ListRule rule impl args = bind ListRule rule impl (filter is_obj args).
Proof.
  intros. unfold bind. replace (objects (filter is_obj args)) with (objects args); auto.
  induction args as [|[t v|v] l IH]; cbn; auto. now rewrite IH.
Qed.
Print Assumptions C201_dropped_partial.

(** concat of a traced vector [7 8] with the array [9] is accepted and is [7 8], of length 2 also
    statically, where the concatenation of what was given has three elements. *)
Theorem C201_concat_refuted :
  exists (x c : arr) a b,
    concat 0 [Obj (STens (EInt 64 true) [2%Z]) x; Host c] = Some (STens (EInt 64 true) [2%Z], Ok a) /\
    np_concat 0 (map value [Obj (STens (EInt 64 true) [2%Z]) x; Host c]) = Ok b /\
    sh a = [2] /\ map (fun i => get a [i]) [0; 1] = [7; 8]%Z /\
    sh b = [3] /\ map (fun i => get b [i]) [0; 1; 2] = [7; 8; 9]%Z.
Proof.
  exists {| sh := [2]; get := fun i => (7 + Z.of_nat (hd O i))%Z |}, {| sh := [1]; get := fun _ => 9%Z |}.
  eexists _, _. split; [reflexivity|]. split; [reflexivity|]. repeat split.
Qed.
Print Assumptions C201_concat_refuted.
Example C201_concat_objects : forall x c : arr,
  concat 0 [Obj (STens (EInt 64 true) [2%Z]) x; Obj (STens (EInt 64 true) [1%Z]) c] = Some (STens (EInt 64 true) [3%Z], np_concat 0 [x; c]).
Proof. reflexivity. Qed.
