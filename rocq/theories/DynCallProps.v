(** C210: pcall_dynamic. *)
From Coq Require Import List Bool Arith Lia.
From Verif Require Import SimpModel SimpProofs2 DynCallModel.
Import ListNotations.
Local Open Scope nat_scope.

(** What the function computes from plain values: [f]; the graph traced for it computes [f] on
    arguments that are all there. *)
Definition traced_from {V : Type} (g : lgraph V) (f : list V -> list V) (inputs : nat) : Prop :=
  forall vs, length vs = inputs -> eval_graph V g (map Some vs) = Some (map Some (f vs)).
(** party r holds [vs] *)
Definition holds_values {V : Type} (args : list (mpval V)) (r : nat) (vs : list V) : Prop := map (fun x => x r) args = map Some vs.

(** *** C210: "each party executes if all inputs are present, otherwise outputs None". *)
(** When a dynamic call returns, every party that holds all arguments has the values of the
    function.  Missing: the parties that do not (see below). *)
Theorem C210_holders_partial : forall (V : Type) (n : nat) (g : lgraph V) (f : list V -> list V) (args outs : list (mpval V)) (r : nat) (vs : list V),
  traced_from g f (length args) -> r < n -> holds_values args r vs ->
  pcall_dynamic V n g args = Some outs ->
  map (fun x => x r) outs = map Some (f vs).
Proof.
  intros V n g f args outs r vs HT Hr HH H. unfold pcall_dynamic in H. destruct (mapO _ (seq 0 n)) as [os|] eqn:E; [|discriminate H]. injection H as <-.
  destruct (mapO_nth _ _ _ E) as [Lo Ko]. assert (Es : nth_error (seq 0 n) r = Some r) by (rewrite nth_error_nth' with (d := 0) by (rewrite seq_length; exact Hr); rewrite seq_nth by exact Hr; reflexivity).
  destruct (Ko r r Es) as (o & Eo & Ev). rewrite HH in Ev. assert (Lv : length vs = length args) by (apply (f_equal (@length _)) in HH; rewrite !map_length in HH; auto).
  pose proof (HT vs Lv) as E2. rewrite Ev in E2. injection E2 as ->.
  rewrite map_map. cbn. rewrite Eo.
  assert (Ln : length (lg_out V g) = length (f vs)).
  { unfold eval_graph in Ev. destruct (eval_ops V (lg_ops V g) (map Some vs)) as [env|]; [|discriminate Ev]. clear -Ev. rewrite <- (map_length Some (f vs)).
    generalize dependent (map Some (f vs)). induction (lg_out V g) as [|i l IH]; intros m Ev; cbn in Ev; [injection Ev as <-; reflexivity|].
    destruct (nth_error env i) as [x|]; [|discriminate Ev]. destruct (lookup env l) as [m'|]; [|discriminate Ev]. injection Ev as <-. cbn. f_equal. exact (IH m' eq_refl). }
  rewrite Ln. clear. induction (f vs) as [|v l IH] using rev_ind; [reflexivity|].
  rewrite app_length. cbn [length]. rewrite Nat.add_1_r, seq_S. rewrite !map_app. cbn [map]. f_equal.
  - etransitivity; [|exact IH]. apply map_ext_in. intros k Hk. apply in_seq in Hk. rewrite app_nth1; [reflexivity|rewrite map_length; lia].
  - rewrite app_nth2 by (rewrite map_length; cbn; lia). rewrite map_length, Nat.add_0_l, Nat.sub_diag. reflexivity.
Qed.
Print Assumptions C210_holders_partial.

(** Refuted for the others, in both directions: a party that lacks an argument the function does
    not use outputs a value; *)
Theorem C210_not_skipped_refuted : forall (V : Type) (v w : V),
  exists (g : lgraph V) (f : list V -> list V) (x y : mpval V),
    traced_from g f 1 /\ x 0 = Some v /\ x 1 = None /\
    pcall_dynamic V 2 g [x] = Some [y] /\ y 1 = Some w.
Proof.
  intros V v w. exists (LGraph V [LOp V [] (fun _ => Some [Some w])] [1]), (fun _ => [w]), (fun r => if r =? 0 then Some v else None).
  eexists. split; [|split; [reflexivity|split; [reflexivity|split; [reflexivity|reflexivity]]]].
  intros [|a [|]] H; try discriminate H. reflexivity.
Qed.
Print Assumptions C210_not_skipped_refuted.

(** and when the function uses the missing argument in an operation whose back-end needs it (as
    those of the tensor dialect do, which unwrap their arguments), the whole call fails, at all
    parties: no output is None. *)
Theorem C210_call_fails_refuted : forall (V : Type) (n : nat) (g : lgraph V) (args : list (mpval V)) (r i : nat) (x : mpval V) (o : lop V),
  r < n -> nth_error args i = Some x -> x r = None ->
  In o (lg_ops V g) -> In i (lo_in V o) ->
  (forall a, In None a -> lo_impl V o a = None) ->
  pcall_dynamic V n g args = None.
Proof.
  intros V n g args r i x o Hr Hi Hx Ho Hin Hs. unfold pcall_dynamic. destruct (mapO _ (seq 0 n)) as [os|] eqn:E; [|reflexivity]. exfalso.
  destruct (mapO_nth _ _ _ E) as [Lo Ko]. assert (Es : nth_error (seq 0 n) r = Some r) by (rewrite nth_error_nth' with (d := 0) by (rewrite seq_length; exact Hr); rewrite seq_nth by exact Hr; reflexivity).
  destruct (Ko r r Es) as (ov & _ & Ev). unfold eval_graph in Ev.
  assert (HE : nth_error (map (fun x => x r) args) i = Some None) by (rewrite <- Hx; exact (map_nth_error (fun x : mpval V => x r) _ _ Hi)).
  revert HE Ev. generalize (map (fun x => x r) args). induction (lg_ops V g) as [|p l IH]; [destruct Ho|]. intros env HE Ev. cbn [eval_ops] in Ev.
  destruct Ho as [->|Ho].
  - destruct (lookup env (lo_in V o)) as [a|] eqn:El; [|discriminate Ev]. rewrite Hs in Ev; [discriminate Ev|].
    clear -El HE Hin. revert a El. induction (lo_in V o) as [|j js IH]; intros a El; [destruct Hin|]. cbn in El. destruct (nth_error env j) as [y|] eqn:Ey; [|discriminate El]. destruct (lookup env js) as [a'|]; [|discriminate El]. injection El as <-.
    destruct Hin as [->|Hin]; [left; congruence|right; exact (IH Hin a' eq_refl)].
  - destruct (lookup env (lo_in V p)) as [a|]; [|discriminate Ev]. destruct (lo_impl V p a) as [outs|]; [|discriminate Ev].
    apply (IH Ho (env ++ outs)); [|exact Ev]. rewrite nth_error_app1; [exact HE|apply nth_error_Some; congruence].
Qed.
Print Assumptions C210_call_fails_refuted.

(** x is held by party 0, y by both: x + y fails although party 0 could run; y + y runs at both. *)
Definition plus : list (option nat) -> option (list (option nat)) := fun a => match a with [Some x; Some y] => Some [Some (x + y)] | _ => None end.
Definition add_graph : lgraph nat := LGraph nat [LOp nat [0; 1] plus] [2].
Definition at0 : mpval nat := fun r => if r =? 0 then Some 5 else None.
Definition both : mpval nat := fun _ => Some 6.
Example C210_example :
  traced_from add_graph (fun l => match l with [x; y] => [x + y] | _ => [] end) 2 /\
  (forall a, In None a -> plus a = None) /\
  pcall_dynamic nat 2 add_graph [at0; both] = None /\
  option_map (map (fun y => (y 0, y 1))) (pcall_dynamic nat 2 add_graph [both; both]) = Some [(Some 12, Some 12)] /\
  option_map (map (fun y => y 0)) (pcall_dynamic nat 1 add_graph [at0; both]) = Some [Some 11].
Proof.
  split; [|split; [|split; [|split]; reflexivity]].
  - intros [|a [|b [|]]] H; try discriminate H. reflexivity.
  - intros [|[a|] [|[b|] [|c l]]] H; try reflexivity. cbn in H. destruct H as [H|[H|[]]]; discriminate H.
Qed.
