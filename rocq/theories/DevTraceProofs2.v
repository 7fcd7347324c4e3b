(** Proofs for traced device programs: a rank outside the devices a program names does nothing. *)
From Coq Require Import Bool Arith String List Lia.
From Verif Require Import NetSpec CollModel SpmdModel SimpModel SimpProofs SimpProofs2 DeviceModel SpuRunModel DevProgModel DevTraceModel DevTraceSpec SpmdSpec SpuRunSpec DevProgSpec DevTraceProofs.
Import ListNotations.
Local Open Scope nat_scope.

Section P.
Context {VT V : Type}.
Variable truthy : V -> bool.
Variable n : nat.
Variable key_t : VT.
Variables (encrypt decrypt : V -> V -> V) (pub hkdf quote attest : V -> V) (derive : V -> V -> V).
Variable typ : V -> VT.
Variable cluster : string -> option device.
Variable draw : nat -> V * V.
Variable r : nat.
Notation op := (SimpModel.op VT V).
Notation mpval := (nat -> option V).
Notation tobj := (DevTraceModel.tobj VT).
Notation t_ensure := (DevTraceModel.t_ensure VT V key_t pub hkdf quote attest derive draw).
Notation t_move := (DevTraceModel.t_move VT V key_t encrypt decrypt pub hkdf quote attest derive cluster draw).
Notation t_moves := (DevTraceModel.t_moves VT V key_t encrypt decrypt pub hkdf quote attest derive cluster draw).
Notation t_run_on := (DevTraceModel.t_run_on VT V key_t encrypt decrypt pub hkdf quote attest derive cluster draw).
Notation t_stmt := (DevTraceModel.t_stmt VT V key_t encrypt decrypt pub hkdf quote attest derive typ cluster draw).
Notation t_prog := (DevTraceModel.t_prog VT V key_t encrypt decrypt pub hkdf quote attest derive typ cluster draw).

(** rank r takes no part in an operation *)
Definition away (o : op) : Prop :=
  match o with
  | PCallStatic _ _ ps _ _ => exists a, ps = [a] /\ r <> a
  | Shuffle _ _ _ routing => exists a b, routing = [(a, b)] /\ r <> a /\ r <> b
  | _ => False
  end.
Definition far (d : string) : Prop := forall dev, cluster d = Some dev -> ~ In r (dv_members dev).

Lemma pick_lookup (m : list mpval) args (ws : list mpval) : pick m args ws -> SimpModel.lookup (at_party r m) args = Some (at_party r ws).
Proof.
  induction 1 as [|i w args ws E F IH]; cbn in *; [reflexivity|]. unfold at_party in *.
  rewrite (map_nth_error (fun v : mpval => v r) _ _ E). rewrite IH. reflexivity.
Qed.
Lemma away_op fuel (o : op) (m vs : list mpval) : away o -> op_means truthy n o m (Done vs) -> wop truthy n fuel r o (at_party r m) = ret (at_party r vs).
Proof.
  intros A H. destruct o as [ps args f|args f|src routing|args|pred args th el|init caps imm cond body]; cbn in A; try contradiction.
  - destruct A as (a & -> & N). inversion H; subst. cbn [wop]. match goal with P : pick m args _ |- _ => rewrite (pick_lookup _ _ _ P) end. cbn [need]. f_equal. unfold at_party. rewrite map_map. apply map_ext. intros k.
    rewrite norm_single. cbn. apply Nat.eqb_neq in N. rewrite N. reflexivity.
  - destruct A as (a & b & -> & N1 & N2). inversion H; subst. cbn [wop]. unfold at_party at 1. match goal with P : nth_error m src = Some _ |- _ => rewrite (map_nth_error (fun v : mpval => v r) _ _ P) end. cbn [need]. unfold shuffle. cbn [shuffle_sends assoc].
    assert (b =? r = false /\ r =? a = false /\ a =? r = false) as (E1 & E2 & E3) by (repeat split; apply Nat.eqb_neq; congruence).
    rewrite E1. cbn [andb]. unfold assoc. cbn. rewrite ?E2, ?E3. cbn. unfold at_party. cbn.
    match goal with P : forall t : nat, ~ In t ?l -> @?Q t |- _ => assert (Q r) as X by (apply P; cbn; intros [F|[]]; congruence) end. cbn in X. rewrite X. reflexivity.
Qed.
Lemma away_means fuel (ops : list op) outs (m ws : list mpval) : Forall away ops -> means truthy n (build VT V ops outs) m (Done ws) ->
  wregion truthy n fuel r (build VT V ops outs) (at_party r m) = NetSpec.Ret (Some (at_party r ws)).
Proof.
  intros F. revert m. induction F as [|o ops A F IH]; intros m M.
  - inversion M as [outs' env vs P| |]; subst. cbn. rewrite (pick_lookup _ _ _ P). reflexivity.
  - change (build VT V (o :: ops) outs) with (Let VT V o (build VT V ops outs)) in *. inversion M as [|o' rest env vs out H M'|]; subst.
    change (wregion truthy n fuel r (Let VT V o (build VT V ops outs)) (at_party r m)) with (seqo (wop truthy n fuel r o (at_party r m)) (fun vs => wregion truthy n fuel r (build VT V ops outs) (at_party r m ++ vs))).
    rewrite (away_op fuel o m vs A H). cbn. rewrite <- (IH _ M'). unfold at_party. rewrite map_app. reflexivity.
Qed.

Lemma far_away ps : ~ In r ps -> forall a, ps = [a] -> r <> a.
Proof. intros H a -> E. apply H. left. congruence. Qed.
Ltac away_tac := repeat constructor; cbn; eauto.
Lemma session_away k a b x y : r <> a -> r <> b -> Forall away (session_ops VT V key_t pub hkdf quote attest derive k a b x y).
Proof. intros Ha Hb. unfold session_ops. repeat (constructor; [cbn; eauto|]). constructor. Qed.
Lemma ensure_away st k p t ops ks st' : ~ In r (dv_members p) -> ~ In r (dv_members t) -> t_ensure st k p t = Some (ops, ks, st') -> Forall away ops.
Proof.
  unfold DevTraceModel.t_ensure. intros Hp Ht H. destruct (find _ _) as [[? ?]|]; [injection H as <- <- <-; constructor|].
  destruct (dv_members p) as [|a [|]] eqn:Ep; try discriminate H. destruct (dv_members t) as [|b [|]] eqn:Et; try discriminate H. injection H as <- <- <-.
  apply session_away; intros ->; [apply Hp|apply Ht]; left; reflexivity.
Qed.
Lemma encrypted_away k a b ka kb x t : r <> a -> r <> b -> Forall away (encrypted_ops VT V key_t encrypt decrypt k a b ka kb x t).
Proof. intros Ha Hb. unfold encrypted_ops. repeat (constructor; [cbn; eauto|]). constructor. Qed.
Lemma move_away st k to_ d x t ops q st' : far d -> far to_ -> t_move st k to_ d x t = Some (ops, q, st') -> Forall away ops.
Proof.
  unfold DevTraceModel.t_move. intros Fd Ft H. destruct (String.eqb d to_); [injection H as <- <- <-; constructor|].
  destruct (cluster d) as [from|] eqn:Cd; [|discriminate H]. destruct (cluster to_) as [dest|] eqn:Ct; [|discriminate H]. pose proof (Fd _ Cd) as Nf. pose proof (Ft _ Ct) as Nt.
  pose proof (far_away _ Nf) as Af. pose proof (far_away _ Nt) as At.
  assert (forall p q a b, ((p = from /\ q = dest) \/ (p = dest /\ q = from)) -> dv_members from = [a] -> dv_members dest = [b] ->
     forall ops0 ka kb st0 k', t_ensure st k p q = Some (ops0, (ka, kb), st0) -> forall u v, Forall away (ops0 ++ encrypted_ops VT V key_t encrypt decrypt k' a b u v x t)) as K.
  { intros p q0 a b D Ea Eb ops0 ka kb st0 k' E u v. apply Forall_app. split; [|apply encrypted_away; [exact (Af _ Ea)|exact (At _ Eb)]].
    destruct D as [[-> ->]|[-> ->]]; (eapply ensure_away; [| |exact E]); assumption. }
  destruct (dv_kind from), (dv_kind dest); try discriminate H; destruct (dv_members from) as [|a [|]] eqn:Ea; try discriminate H; destruct (dv_members dest) as [|b [|]] eqn:Eb; try discriminate H.
  - injection H as <- <- <-. constructor; [|constructor]. cbn. exists b, a. split; [reflexivity|]. split; [exact (At _ eq_refl)|exact (Af _ eq_refl)].
  - destruct (t_ensure st k from dest) as [[[ops0 [ka kb]] st0]|] eqn:E; [|discriminate H]. injection H as <- <- <-. eapply K; [|reflexivity|reflexivity|exact E]; auto.
  - destruct (t_ensure st k dest from) as [[[ops0 [ka kb]] st0]|] eqn:E; [|discriminate H]. injection H as <- <- <-. eapply K; [|reflexivity|reflexivity|exact E]; auto.
Qed.
Lemma moves_away to_ ps : far to_ -> forall st k ops qs st', Forall (fun p : tobj => far (fst p)) ps -> t_moves st k to_ ps = Some (ops, qs, st') -> Forall away ops.
Proof.
  intros Ft. induction ps as [|[d [x t]] ps IH]; intros st k ops qs st' F H; cbn [DevTraceModel.t_moves] in H; [injection H as <- <- <-; constructor|].
  inversion F as [|? ? F1 F2]; subst. destruct (t_move st k to_ d x t) as [[[o1 y] st1]|] eqn:E; [|discriminate H]. destruct (t_moves st1 (k + length o1) to_ ps) as [[[o2 ys] st2]|] eqn:E2; [|discriminate H].
  injection H as <- <- <-. apply Forall_app. split; [exact (move_away _ _ _ _ _ _ _ _ _ F1 Ft E)|exact (IH _ _ _ _ _ F2 E2)].
Qed.
Lemma run_on_away st k d f types args ops more st' : far d -> Forall (fun p : tobj => far (fst p)) (t_objects VT V args) -> t_run_on st k d f types args = Some (ops, more, st') ->
  Forall away ops /\ Forall (fun p : tobj => far (fst p)) more.
Proof.
  unfold DevTraceModel.t_run_on. intros Fd F H. destruct (cluster d) as [dev|] eqn:Cd; [|discriminate H]. pose proof (far_away _ (Fd _ Cd)) as A.
  destruct (dv_kind dev); try discriminate H; destruct (dv_members dev) as [|a [|]]; try discriminate H;
  (destruct (t_moves st k d (t_objects VT V args)) as [[[o xs] st1]|] eqn:E; [|discriminate H]; injection H as <- <- <-; split;
   [apply Forall_app; split; [exact (moves_away _ _ Fd _ _ _ _ _ F E)|constructor; [cbn; eauto|constructor]]
   |apply Forall_forall; intros p Hp; apply in_map_iff in Hp; destruct Hp as (j & <- & _); exact Fd]).
Qed.
Lemma infer_in auto kd args d : infer auto kd args = Dev d -> In (Some d) args.
Proof.
  unfold infer. intros H. assert (In d (flat_map (fun a : option string => match a with Some d => [d] | None => [] end) args)) as K.
  { set (l := flat_map _ args) in *. assert (forall x, In x (nodup string_dec l) -> In x l) as N by (intros x Hx; apply nodup_In in Hx; exact Hx).
    destruct (nodup string_dec l) as [|a [|b l']] eqn:E; [discriminate H|injection H as <-; apply N; left; reflexivity|].
    destruct (negb auto); [discriminate H|]. destruct (existsb _ _); [discriminate H|].
    destruct (filter _ (a :: b :: l')) as [|c [|]] eqn:Ef; try discriminate H. injection H as <-. apply N.
    assert (In c (filter (fun d => match kd d with Some k => is_secure k | None => false end) (a :: b :: l'))) as X by (rewrite Ef; left; reflexivity).
    apply filter_In in X. exact (proj1 X). }
  apply in_flat_map in K. destruct K as (x & Hx & Hd). destruct x as [y|]; [|destruct Hd]. destruct Hd as [->|[]]. exact Hx.
Qed.
Lemma resolved_far env args tas : Forall (fun p : tobj => far (fst p)) env -> mapO (t_resolve VT V env) args = Some tas ->
  Forall (fun p : tobj => far (fst p)) (t_objects VT V tas) /\ forall d, In (Some d) (map (fun a : tobj + V => match a with inl (d, _) => Some d | inr _ => None end) tas) -> far d.
Proof.
  intros F. revert tas. induction args as [|a args IH]; intros tas H; cbn [mapO] in H; [injection H as <-; split; [constructor|intros d []]|].
  destruct (t_resolve VT V env a) as [ta|] eqn:Ea; [|discriminate H]. destruct (mapO (t_resolve VT V env) args) as [ts|]; [|discriminate H]. injection H as <-. destruct (IH ts eq_refl) as [I1 I2].
  destruct a as [i|v]; cbn in Ea.
  - destruct (nth_error env i) as [[d o]|] eqn:En; [|discriminate Ea]. injection Ea as <-.
    assert (far d) as Fd by (apply nth_error_In in En; rewrite Forall_forall in F; exact (F _ En)).
    split; [cbn; constructor; assumption|]. intros d' [X|X]; [injection X as <-; exact Fd|exact (I2 d' X)].
  - injection Ea as <-. split; [exact I1|]. intros d' [X|X]; [discriminate X|exact (I2 d' X)].
Qed.
Lemma stmt_away st k env s ops more st' : Forall (fun p : tobj => far (fst p)) env -> Forall far (named [s]) -> t_stmt st k env s = Some (ops, more, st') ->
  Forall away ops /\ Forall (fun p : tobj => far (fst p)) more.
Proof.
  intros F N H. destruct s as [d v|d i|d f types args]; cbn [DevTraceModel.t_stmt] in H; cbn in N.
  - inversion N as [|? ? Fd _]; subst. destruct (cluster d) as [dev|] eqn:Cd; [|discriminate H]. pose proof (far_away _ (Fd _ Cd)) as A.
    destruct (dv_kind dev); try discriminate H; destruct (dv_members dev) as [|a [|]]; try discriminate H; injection H as <- <- <-;
      (split; [constructor; [cbn; eauto|constructor]|constructor; [exact Fd|constructor]]).
  - inversion N as [|? ? Fd _]; subst. destruct (nth_error env i) as [[dn [x t]]|] eqn:En; [|discriminate H]. destruct (cluster d); [|discriminate H].
    assert (far dn) as Fn by (apply nth_error_In in En; rewrite Forall_forall in F; exact (F _ En)).
    destruct (t_move st k d dn x t) as [[[o y] st1]|] eqn:E; [|discriminate H]. injection H as <- <- <-. split; [exact (move_away _ _ _ _ _ _ _ _ _ Fn Fd E)|constructor; [exact Fd|constructor]].
  - destruct (mapO (t_resolve VT V env) args) as [tas|] eqn:Ea; [|discriminate H]. destruct (resolved_far _ _ _ F Ea) as [F1 F2].
    match type of H with match ?e with _ => _ end = _ => destruct e as [dn|] eqn:Ed; [|discriminate H] end.
    assert (far dn) as Fd.
    { destruct d as [d|]; [injection Ed as <-; inversion N; assumption|]. destruct (infer _ _ _) as [x| |] eqn:Ei; try discriminate Ed. injection Ed as <-. apply F2. exact (infer_in _ _ _ _ Ei). }
    exact (run_on_away _ _ _ _ _ _ _ _ _ Fd F1 H).
Qed.
Lemma prog_away p : forall st k env ops outs, Forall (fun p : tobj => far (fst p)) env -> Forall far (named p) -> t_prog st k env p = Some (ops, outs) -> Forall away ops.
Proof.
  induction p as [|s p IH]; intros st k env ops outs F N H; cbn [DevTraceModel.t_prog] in H; [injection H as <- <-; constructor|].
  change (named (s :: p)) with (named ([s] ++ p)) in N. unfold named in N. rewrite flat_map_app in N. apply Forall_app in N. destruct N as [N1 N2].
  destruct (t_stmt st k env s) as [[[o more] st1]|] eqn:E; [|discriminate H]. destruct (stmt_away _ _ _ _ _ _ _ F N1 E) as [A1 A2].
  destruct (t_prog st1 _ _ p) as [[o2 out2]|] eqn:E2; [|discriminate H]. injection H as <- <-. apply Forall_app. split; [exact A1|].
  refine (IH _ _ _ _ _ _ N2 E2). apply Forall_app. split; assumption.
Qed.

Lemma places_far env (args : list (ref V)) places : Forall (fun p : string * V => far (fst p)) env ->
  mapO (fun a => match a with Ref _ i => option_map (fun p : string * V => Some (fst p)) (nth_error env i) | Lit _ _ => Some None end) args = Some places -> forall d, In (Some d) places -> far d.
Proof.
  intros F. revert places. induction args as [|a args IH]; intros places H d Hd; cbn [mapO] in H; [injection H as <-; destruct Hd|].
  destruct (match a with Ref _ i => _ | Lit _ _ => _ end) as [x|] eqn:Ea; [|discriminate H]. destruct (mapO _ args) as [xs|]; [|discriminate H]. injection H as <-.
  destruct Hd as [->|Hd]; [|exact (IH xs eq_refl d Hd)]. destruct a as [i|v]; [|discriminate Ea]. destruct (nth_error env i) as [p|] eqn:En; [|discriminate Ea]. injection Ea as <-.
  apply nth_error_In in En. rewrite Forall_forall in F. exact (F _ En).
Qed.
Lemma meaning_far acc (p : list (stmt VT V)) : forall env out, Forall (fun p : string * V => far (fst p)) env -> Forall far (named p) ->
  meaning cluster (fun v => v) (fun g => g) acc env p = Some out -> Forall (fun p : string * V => far (fst p)) out.
Proof.
  induction p as [|s p IH]; intros env out F N H; cbn [meaning] in H; [injection H as <-; exact F|].
  change (named (s :: p)) with (named ([s] ++ p)) in N. unfold named in N. rewrite flat_map_app in N. apply Forall_app in N. destruct N as [N1 N2].
  destruct (meaning_of cluster _ _ acc env s) as [more|] eqn:E; [|discriminate H]. refine (IH _ _ _ N2 H). apply Forall_app. split; [exact F|]. clear H IH N2.
  assert (M : forall d (l : list V), far d -> Forall (fun p : string * V => far (fst p)) (map (pair d) l)) by (intros d l Fd; apply Forall_forall; intros q Hq; apply in_map_iff in Hq; destruct Hq as (v & <- & _); exact Fd).
  destruct s as [d v|d i|d f types args]; cbn in N1; cbn [meaning_of] in E.
  - inversion N1 as [|? ? Fd _]; subst. destruct (option_map dv_kind (cluster d)) as [[]|]; try discriminate E; try (injection E as <-; constructor; [exact Fd|constructor]).
    destruct (computes _ _ _ _ _ _ _) as [l|]; [|discriminate E]. injection E as <-. apply M, Fd.
  - inversion N1 as [|? ? Fd _]; subst. destruct (nth_error env i) as [[from v]|]; [|discriminate E]. destruct (cluster d); [|discriminate E]. destruct (arrives _ _ _ _ _) as [w|]; [|discriminate E]. injection E as <-. constructor; [exact Fd|constructor].
  - destruct (mapO (fun a => _) args) as [places|] eqn:Ep in E; [|discriminate E]. destruct (chosen cluster d places) as [dn|] eqn:Ec; [|discriminate E].
    assert (far dn) as Fd.
    { unfold chosen in Ec. destruct d as [d|]; [injection Ec as <-; inversion N1; assumption|]. destruct (infer _ _ _) as [x| |] eqn:Ei; try discriminate Ec. injection Ec as <-. exact (places_far _ _ _ F Ep _ (infer_in _ _ _ _ Ei)). }
    destruct (mapO _ (refs args)) as [ws|]; [|discriminate E]. destruct (computes _ _ _ _ _ _ _) as [l|]; [|discriminate E]. injection E as <-. apply M, Fd.
Qed.
Lemma held_far (results : list (string * V)) : Forall (fun p : string * V => far (fst p)) results -> held cluster results r = repeat None (length results).
Proof.
  induction 1 as [|[d v] l A F IH]; [reflexivity|]. unfold held in *. cbn in *. rewrite IH. f_equal. destruct (cluster d) as [dev|] eqn:C; [|reflexivity]. pose proof (A _ C) as N.
  destruct (existsb (Nat.eqb r) (dv_members dev)) eqn:E; [|reflexivity]. exfalso. apply existsb_exists in E. destruct E as (x & Hx & Ex). apply Nat.eqb_eq in Ex. subst x. exact (N Hx).
Qed.
End P.
