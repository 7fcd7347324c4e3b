(** Proofs about party typing. *)
From Coq Require Import List Bool Arith Lia.
From Verif Require Import SimpModel SimpSpec.
Import ListNotations.
Local Open Scope nat_scope.

Lemma inb_In r l : inb r l = true <-> In r l.
Proof.
  unfold inb. rewrite existsb_exists. split.
  - intros (x & Hx & E). apply Nat.eqb_eq in E. subst. exact Hx.
  - intros H. exists r. split; [exact H|apply Nat.eqb_refl].
Qed.
Lemma inb_false r l : inb r l = false <-> ~ In r l.
Proof. rewrite <- inb_In. destruct (inb r l); intuition congruence. Qed.
Lemma norm_In r l : In r (norm l) <-> In r l.
Proof.
  unfold norm. rewrite filter_In. fold (inb r l). rewrite inb_In. split; [tauto|]. intros H. split; [|exact H].
  apply in_seq. pose proof (proj1 (list_max_le l (list_max l)) (le_n _)) as F. rewrite Forall_forall in F. specialize (F r H). lia.
Qed.
Lemma norm_nil l : norm l = [] <-> l = [].
Proof.
  split; [|intros ->; reflexivity]. intros H. destruct l as [|a l]; [reflexivity|]. exfalso.
  assert (In a (norm (a :: l))) as I by (apply norm_In; left; reflexivity). rewrite H in I. destruct I.
Qed.
Lemma subset_spec a b : subset a b = true <-> forall r, In r a -> In r b.
Proof.
  unfold subset. rewrite forallb_forall. split; intros H r Hr; [apply inb_In, H, Hr|apply inb_In, H, Hr].
Qed.

Section P.
Context {VT V : Type}.
Variable vt_eqb : VT -> VT -> bool.
Variable truthy : V -> bool.
Variable n : nat.
Notation mptype := (mptype VT). Notation mpval := (mpval V).
Notation region := (region VT V). Notation op := (op VT V).

Scheme region_ind' := Induction for SimpModel.region Sort Prop
with op_ind' := Induction for SimpModel.op Sort Prop.
Combined Scheme prog_ind from region_ind', op_ind'.

(* lookups *)
Lemma Forall2_nth_error {A B} (R : A -> B -> Prop) l l' i a : Forall2 R l l' -> nth_error l i = Some a -> exists b, nth_error l' i = Some b /\ R a b.
Proof.
  intros F. revert i. induction F as [|x y l l' H F IH]; intros i E; [destruct i; discriminate E|].
  destruct i as [|i]; [injection E as <-; exists y; auto|]. apply IH, E.
Qed.
Lemma Forall2_nth_error_r {A B} (R : A -> B -> Prop) l l' i b : Forall2 R l l' -> nth_error l' i = Some b -> exists a, nth_error l i = Some a /\ R a b.
Proof.
  intros F. revert i. induction F as [|x y l l' H F IH]; intros i E; [destruct i; discriminate E|].
  destruct i as [|i]; [injection E as <-; exists x; auto|]. apply IH, E.
Qed.
Lemma lookup_Forall2 {A B} (R : A -> B -> Prop) l l' is_ : Forall2 R l l' -> forall xs ys, lookup l is_ = Some xs -> lookup l' is_ = Some ys -> Forall2 R xs ys.
Proof.
  intros F. induction is_ as [|i is_ IH]; intros xs ys Hx Hy; cbn [lookup] in *.
  - injection Hx as <-. injection Hy as <-. constructor.
  - destruct (nth_error l i) as [a|] eqn:Ea; [|discriminate Hx]. destruct (lookup l is_) as [as_|]; [|discriminate Hx]. injection Hx as <-.
    destruct (nth_error l' i) as [b|] eqn:Eb; [|discriminate Hy]. destruct (lookup l' is_) as [bs|]; [|discriminate Hy]. injection Hy as <-.
    constructor; [|apply IH; reflexivity]. destruct (Forall2_nth_error R l l' i a F Ea) as (b' & Eb' & Hab). rewrite Eb in Eb'. injection Eb' as <-. exact Hab.
Qed.
Lemma Forall2_app_ {A B} (R : A -> B -> Prop) a b c d : Forall2 R a b -> Forall2 R c d -> Forall2 R (a ++ c) (b ++ d).
Proof. intros H1 H2. induction H1; [exact H2|]. cbn. constructor; assumption. Qed.
Lemma Forall2_impl_ {A B} (R S : A -> B -> Prop) l l' : (forall a b, R a b -> S a b) -> Forall2 R l l' -> Forall2 S l l'.
Proof. intros H F. induction F; constructor; auto. Qed.

Lemma env_is_weaken (Q : mptype -> mpval -> nat -> Prop) act act' ts vs : (forall r, act' r = true -> act r = true) ->
  env_is Q n act ts vs -> env_is Q n act' ts vs.
Proof. intros H. apply Forall2_impl_. intros t v K r Hr Ha. apply K; auto. Qed.

Lemma parties_eqb_eq a b : parties_eqb a b = true -> a = b.
Proof.
  destruct a as [x|], b as [y|]; cbn; try discriminate; [|reflexivity]. intros H. apply andb_prop in H. destruct H as [L F]. f_equal.
  apply Nat.eqb_eq in L. revert y L F. induction x as [|a x IH]; intros [|b y] L F; try discriminate L; [reflexivity|].
  cbn in F. apply andb_prop in F. destruct F as [E F]. apply Nat.eqb_eq in E. f_equal; [exact E|]. apply IH; [injection L as L; exact L|exact F].
Qed.
(** two signatures that match promise the same parties *)
Definition same_parties (a b : list mptype) : Prop := Forall2 (fun x y => parties _ x = parties _ y) a b.
Lemma sig_match a b : (length a =? length b) && forallb (fun p => mptype_eqb VT vt_eqb (fst p) (snd p)) (combine a b) = true -> same_parties a b.
Proof.
  intros H. apply andb_prop in H. destruct H as [L F]. apply Nat.eqb_eq in L. revert b L F.
  induction a as [|x a IH]; intros [|y b] L F; try discriminate L; [constructor|]. cbn [combine forallb fst snd] in F. apply andb_prop in F. destruct F as [E F].
  constructor; [|apply IH; [injection L as L; exact L|exact F]]. unfold mptype_eqb in E. apply andb_prop in E. destruct E as [_ E]. apply parties_eqb_eq, E.
Qed.
Lemma env_is_same (Q : mptype -> mpval -> nat -> Prop) act a b vs : (forall x y v r, parties _ x = parties _ y -> Q x v r -> Q y v r) ->
  same_parties a b -> env_is Q n act a vs -> env_is Q n act b vs.
Proof.
  intros HQ S. revert vs. induction S as [|x y a b E S IH]; intros vs F; inversion F; subst; [constructor|]. constructor; [|apply IH; assumption].
  intros r Hr Ha. apply (HQ x y _ r E). auto.
Qed.
Lemma same_sym a b : same_parties a b -> same_parties b a.
Proof. induction 1; constructor; auto. Qed.
Lemma Forall2_len {A B} (R : A -> B -> Prop) l l' : Forall2 R l l' -> length l = length l'.
Proof. induction 1; cbn; congruence. Qed.

(* the loop of a while, named *)
Definition alive (act : nat -> bool) (c : mpval) : nat -> bool := fun r => act r && bool_of V truthy c r.
Definition while_loop_ (rc : (nat -> bool) -> list mpval -> option (list mpval)) (rb : (nat -> bool) -> list mpval -> option (list mpval)) (cs : list mpval) :=
  fix loop (k : nat) (act : nat -> bool) (st : list mpval) {struct k} : option (list mpval) :=
    match k with
    | O => None
    | S k =>
        match rc act (st ++ cs) with
        | Some (c :: _) =>
            let act' := alive act c in
            if forallb (fun r => negb (act' r)) (ranks n) then Some st
            else match rb act' (st ++ cs) with
              | Some st' =>
                  if length st' =? length st then
                    loop k act' (map (fun p : mpval * mpval => fun r => if act' r then fst p r else snd p r) (combine st' st))
                  else None
              | None => None
              end
        | Some [] => Some st
        | None => None
        end
    end.

Lemma merge_env (Q : mptype -> mpval -> nat -> Prop) : (forall t v v' r, v r = v' r -> Q t v r -> Q t v' r) ->
  forall act act' ts st' st, env_is Q n act' ts st' -> env_is Q n act ts st ->
  env_is Q n act ts (map (fun p : mpval * mpval => fun r => if act' r then fst p r else snd p r) (combine st' st)).
Proof.
  intros HQ act act' ts st' st F. revert st. induction F as [|t v' ts st' Hv F IH]; intros st G; inversion G; subst; [constructor|].
  cbn [combine map]. constructor; [|apply IH; assumption]. intros r Hr Ha. cbn [fst snd]. destruct (act' r) eqn:E.
  - apply (HQ t v'); [rewrite E; reflexivity|auto].
  - eapply HQ; [|apply H1; [exact Hr|exact Ha]]. rewrite E. reflexivity.
Qed.

(** a predicate on values preserved by every operation is preserved by programs: the frame of
    both soundness proofs *)
Lemma while_preserves (Q : mptype -> mpval -> nat -> Prop) rc rb cs sts cts : (forall t v v' r, v r = v' r -> Q t v r -> Q t v' r) ->
  (forall act env vs, env_is Q n act (sts ++ cts) env -> rb act env = Some vs -> env_is Q n act sts vs) ->
  forall k act st out, env_is Q n act cts cs -> env_is Q n act sts st -> while_loop_ rc rb cs k act st = Some out -> env_is Q n act sts out.
Proof.
  intros HQ Hb. induction k as [|k IH]; intros act st out Hc Hs H; [discriminate H|]. cbn [while_loop_] in H. fold (while_loop_ rc rb cs) in H.
  destruct (rc act (st ++ cs)) as [[|c rest]|]; [injection H as <-; exact Hs| |discriminate H]. cbv zeta in H.
  set (act' := alive act c) in *.
  assert (forall r, act' r = true -> act r = true) as Sub by (intros r E; apply andb_prop in E; tauto).
  destruct (forallb (fun r => negb (act' r)) (ranks n)); [injection H as <-; exact Hs|].
  destruct (rb act' (st ++ cs)) as [st'|] eqn:Eb; [|discriminate H]. destruct (length st' =? length st); [|discriminate H].
  assert (env_is Q n act' sts st') as Hst'.
  { apply (Hb act' (st ++ cs) st'); [|exact Eb]. apply Forall2_app_; apply (env_is_weaken Q act act'); assumption. }
  pose proof (merge_env Q HQ act act' sts st' st Hst' Hs) as Hm.
  assert (env_is Q n act' sts (map (fun p : mpval * mpval => fun r => if act' r then fst p r else snd p r) (combine st' st))) as Hm' by (apply (env_is_weaken Q act act'); assumption).
  (* the ranks that left keep their value *)
  assert (forall k act2 st2 out2, (forall r, act2 r = true -> act' r = true) -> while_loop_ rc rb cs k act2 st2 = Some out2 ->
     length out2 = length st2 /\ forall i r, act2 r = false -> option_map (fun v : mpval => v r) (nth_error out2 i) = option_map (fun v : mpval => v r) (nth_error st2 i)) as Keep.
  { clear -rc rb cs. clearbody act'. clear act c. induction k as [|k IH]; intros act2 st2 out2 Sub H; [discriminate H|]. cbn [while_loop_] in H. fold (while_loop_ rc rb cs) in H.
    destruct (rc act2 (st2 ++ cs)) as [[|c rest]|]; [injection H as <-; split; [reflexivity|intros; reflexivity]| |discriminate H]. cbv zeta in H.
    set (act3 := alive act2 c) in *.
    destruct (forallb (fun r => negb (act3 r)) (ranks n)); [injection H as <-; split; [reflexivity|intros; reflexivity]|].
    destruct (rb act3 (st2 ++ cs)) as [st3|]; [|discriminate H]. destruct (length st3 =? length st2) eqn:L; [|discriminate H]. apply Nat.eqb_eq in L.
    apply IH in H; [|intros r E; apply Sub; apply andb_prop in E; tauto]. destruct H as [HL HK]. split.
    - rewrite HL, map_length, combine_length. lia.
    - intros i r Hr. assert (act3 r = false) as H3 by (unfold act3, alive; rewrite Hr; reflexivity). rewrite HK by exact H3. rewrite nth_error_map.
      clear -L H3. revert i st3 L. induction st2 as [|v st2 IH]; intros i st3 L; destruct st3 as [|v3 st3]; try discriminate L; [destruct i; reflexivity|].
      destruct i as [|i]; [cbn; rewrite H3; reflexivity|]. cbn [combine nth_error]. apply IH. injection L as L. exact L. }
  destruct (Keep k act' _ out (fun r E => E) H) as [Len K].
  apply IH in H; [|apply (env_is_weaken Q act act'); assumption|exact Hm'].
  (* ranks still active: by induction; the others: kept *)
  clear -H Hm Len K HQ. unfold env_is in *.
  revert H Hm Len K. generalize (map (fun p : mpval * mpval => fun r => if act' r then fst p r else snd p r) (combine st' st)) as st2. intros st2 H. revert st2.
  induction H as [|t v sts out Hv F IHF]; intros st2 Hm Len K; [constructor|].
  inversion Hm as [|t' v2 sts' st2' Hv2 Hm2 E1 E2]; subst. constructor.
  - intros r Hr Ha. destruct (act' r) eqn:E; [apply Hv; assumption|]. specialize (K 0 r E). cbn in K. injection K as K. apply (HQ t v2); [symmetry; exact K|auto].
  - apply (IHF st2'); [exact Hm2|cbn in Len; lia|]. intros i r E. apply (K (S i) r E).
Qed.

Lemma run_region_while strict fuel act init caps imm c b env :
  run_op VT V truthy n strict fuel act (WhileLoop _ _ init caps imm c b) env =
  match lookup env init, lookup env caps with
  | Some st, Some cs => while_loop_ (fun a e => run_region VT V truthy n strict fuel a c e) (fun a e => run_region VT V truthy n strict fuel a b e) cs fuel act st
  | _, _ => None
  end.
Proof. reflexivity. Qed.


Lemma type_let o rest ts : type_region VT V vt_eqb (Let _ _ o rest) ts =
  match type_op VT V vt_eqb o ts with Some l => type_region VT V vt_eqb rest (ts ++ l) | None => None end.
Proof. reflexivity. Qed.
Lemma run_let strict fuel act o rest env : run_region VT V truthy n strict fuel act (Let _ _ o rest) env =
  match run_op VT V truthy n strict fuel act o env with Some l => run_region VT V truthy n strict fuel act rest (env ++ l) | None => None end.
Proof. reflexivity. Qed.
Lemma type_cond pred args th el env : type_op VT V vt_eqb (UniformCond _ _ pred args th el) env =
      match nth_error env pred, lookup env args with
      | Some _, Some ts =>
          match type_region VT V vt_eqb th ts, type_region VT V vt_eqb el ts with
          | Some a, Some b => if (length a =? length b) && forallb (fun p => mptype_eqb VT vt_eqb (fst p) (snd p)) (combine a b) then Some a else None
          | _, _ => None
          end
      | _, _ => None
      end.
Proof. reflexivity. Qed.
Lemma run_cond strict fuel act pred args th el env : run_op VT V truthy n strict fuel act (UniformCond _ _ pred args th el) env =
      match nth_error env pred, lookup env args with
      | Some p, Some vs =>
          if forallb act (ranks n) then
            if forallb (bool_of V truthy p) (ranks n) then run_region VT V truthy n strict fuel act th vs
            else if forallb (fun r => negb (bool_of V truthy p r)) (ranks n) then run_region VT V truthy n strict fuel act el vs
            else None
          else None
      | _, _ => None
      end.
Proof. reflexivity. Qed.
Lemma type_while init caps imm c b env : type_op VT V vt_eqb (WhileLoop _ _ init caps imm c b) env =
      match lookup env init, lookup env caps with
      | Some st, Some cs =>
          match type_region VT V vt_eqb c (st ++ cs), type_region VT V vt_eqb b (st ++ cs) with
          | Some cts, Some b =>
              if negb (length cts + (match imm with Some _ => 1 | None => 0 end) =? 1) then None else
              match st with
              | [] => None
              | _ => if (length b =? length st) && forallb (fun p => mptype_eqb VT vt_eqb (fst p) (snd p)) (combine b st) then Some st else None
              end
          | _, _ => None
          end
      | _, _ => None
      end.
Proof. reflexivity. Qed.

(* ------------------------------------------------ both soundness proofs share this frame *)

Definition prim (o : op) : Prop :=
  match o with UniformCond _ _ _ _ _ _ => False | WhileLoop _ _ _ _ _ _ _ => False | _ => True end.
Fixpoint allowed_region (A : op -> Prop) (g : region) : Prop :=
  match g with Ret _ _ _ => True | Let _ _ o rest => allowed_op A o /\ allowed_region A rest end
with allowed_op (A : op -> Prop) (o : op) : Prop :=
  match o with
  | UniformCond _ _ _ _ th el => allowed_region A th /\ allowed_region A el
  | WhileLoop _ _ _ _ _ c b => allowed_region A c /\ allowed_region A b
  | _ => A o
  end.

Section Frame.
Variable Q : mptype -> mpval -> nat -> Prop.
Variables strict strict' : bool.
Variable A : op -> Prop.
Hypothesis HQe : forall t v v' r, v r = v' r -> Q t v r -> Q t v' r.
Hypothesis HQp : forall x y v r, parties _ x = parties _ y -> Q x v r -> Q y v r.
Hypothesis Hprim : forall o fuel act ts env tso vs, prim o -> A o -> env_is Q n act ts env ->
  type_op VT V vt_eqb o ts = Some tso -> run_op VT V truthy n strict fuel act o env = Some vs ->
  env_is Q n act tso vs /\ run_op VT V truthy n strict' fuel act o env = Some vs.

Lemma while_same rc rc' rb rb' cs sts cts : 
  (forall act env vs, env_is Q n act (sts ++ cts) env -> rc act env = Some vs -> rc' act env = Some vs) ->
  (forall act env vs, env_is Q n act (sts ++ cts) env -> rb act env = Some vs -> env_is Q n act sts vs /\ rb' act env = Some vs) ->
  forall k act st out, env_is Q n act cts cs -> env_is Q n act sts st -> while_loop_ rc rb cs k act st = Some out -> while_loop_ rc' rb' cs k act st = Some out.
Proof.
  intros Hc Hb. induction k as [|k IH]; intros act st out Hcs Hs H; [discriminate H|]. cbn [while_loop_] in *. fold (while_loop_ rc rb cs) in H. fold (while_loop_ rc' rb' cs).
  destruct (rc act (st ++ cs)) as [[|c rest]|] eqn:Ec; [|  |discriminate H].
  { rewrite (Hc act (st ++ cs) []); [exact H|apply Forall2_app_; assumption|exact Ec]. }
  rewrite (Hc act (st ++ cs) (c :: rest)); [|apply Forall2_app_; assumption|exact Ec]. cbv zeta in *.
  set (act' := alive act c) in *.
  assert (forall r, act' r = true -> act r = true) as Sub by (intros r E; apply andb_prop in E; tauto).
  destruct (forallb (fun r => negb (act' r)) (ranks n)); [exact H|].
  destruct (rb act' (st ++ cs)) as [st'|] eqn:Eb; [|discriminate H].
  destruct (Hb act' (st ++ cs) st') as [Hst' Eb']; [apply Forall2_app_; apply (env_is_weaken Q act act'); assumption|exact Eb|]. rewrite Eb'.
  destruct (length st' =? length st); [|discriminate H].
  apply IH; [apply (env_is_weaken Q act act'); assumption| |exact H].
  apply (env_is_weaken Q act act'); [exact Sub|]. apply merge_env; assumption.
Qed.

Lemma frame : (forall g : region, allowed_region A g -> forall fuel act ts env tso vs, env_is Q n act ts env ->
    type_region VT V vt_eqb g ts = Some tso -> run_region VT V truthy n strict fuel act g env = Some vs ->
    env_is Q n act tso vs /\ run_region VT V truthy n strict' fuel act g env = Some vs) /\
  (forall o : op, allowed_op A o -> forall fuel act ts env tso vs, env_is Q n act ts env ->
    type_op VT V vt_eqb o ts = Some tso -> run_op VT V truthy n strict fuel act o env = Some vs ->
    env_is Q n act tso vs /\ run_op VT V truthy n strict' fuel act o env = Some vs).
Proof.
  apply (prog_ind VT V).
  - intros outs _ fuel act ts env tso vs He Ht Hr. cbn [type_region run_region] in *. split; [|exact Hr].
    exact (lookup_Forall2 _ ts env outs He tso vs Ht Hr).
  - intros o IHo rest IHr [Ao Ar] fuel act ts env tso vs He Ht Hr. rewrite type_let in Ht. rewrite run_let in Hr |- *.
    destruct (type_op VT V vt_eqb o ts) as [to|] eqn:Eto; [|discriminate Ht].
    destruct (run_op VT V truthy n strict fuel act o env) as [vo|] eqn:Evo; [|discriminate Hr].
    destruct (IHo Ao fuel act ts env to vo He Eto Evo) as [Ho Ho']. rewrite Ho'.
    apply (IHr Ar fuel act (ts ++ to) (env ++ vo) tso vs); [|exact Ht|exact Hr]. apply Forall2_app_; assumption.
  - intros ps args f H fuel act ts env tso vs. apply Hprim; [exact I|exact H].
  - intros args f H fuel act ts env tso vs. apply Hprim; [exact I|exact H].
  - intros src rt H fuel act ts env tso vs. apply Hprim; [exact I|exact H].
  - intros args H fuel act ts env tso vs. apply Hprim; [exact I|exact H].
  - intros pred args th IHt el IHe [At Ae] fuel act ts env tso vs He Ht Hr. rewrite type_cond in Ht. rewrite run_cond in Hr |- *.
    destruct (nth_error ts pred) as [tp|]; [|discriminate Ht]. destruct (lookup ts args) as [ta|] eqn:Eta; [|discriminate Ht].
    destruct (nth_error env pred) as [p|]; [|discriminate Hr]. destruct (lookup env args) as [va|] eqn:Eva; [|discriminate Hr].
    pose proof (lookup_Forall2 _ ts env args He ta va Eta Eva) as Ha.
    destruct (type_region VT V vt_eqb th ta) as [a|] eqn:Ea; [|discriminate Ht]. destruct (type_region VT V vt_eqb el ta) as [b|] eqn:Eb; [|discriminate Ht].
    match type of Ht with (if ?c then _ else _) = _ => destruct c eqn:S; [|discriminate Ht] end. injection Ht as <-. apply sig_match in S.
    destruct (forallb act (ranks n)); [|discriminate Hr].
    destruct (forallb (bool_of V truthy p) (ranks n)); [exact (IHt At fuel act ta va a vs Ha Ea Hr)|].
    destruct (forallb (fun r => negb (bool_of V truthy p r)) (ranks n)); [|discriminate Hr].
    destruct (IHe Ae fuel act ta va b vs Ha Eb Hr) as [H1 H2]. split; [|exact H2]. apply (env_is_same Q act b a vs HQp (same_sym a b S) H1).
  - intros init caps imm c IHc b IHb [Ac Ab] fuel act ts env tso vs He Ht Hr. rewrite run_region_while in Hr |- *. rewrite type_while in Ht.
    destruct (lookup ts init) as [ti|] eqn:Eti; [|discriminate Ht]. destruct (lookup ts caps) as [tc|] eqn:Etc; [|discriminate Ht].
    destruct (lookup env init) as [vi|] eqn:Evi; [|discriminate Hr]. destruct (lookup env caps) as [vc|] eqn:Evc; [|discriminate Hr].
    pose proof (lookup_Forall2 _ ts env init He ti vi Eti Evi) as Hi. pose proof (lookup_Forall2 _ ts env caps He tc vc Etc Evc) as Hc.
    destruct (type_region VT V vt_eqb c (ti ++ tc)) as [cts|] eqn:Ec; [|discriminate Ht].
    destruct (type_region VT V vt_eqb b (ti ++ tc)) as [bt|] eqn:Eb; [|discriminate Ht].
    match type of Ht with (if ?cc then _ else _) = _ => destruct cc; [discriminate Ht|] end.
    destruct ti as [|t0 ti0] eqn:Etn; [discriminate Ht|]. rewrite <- Etn in *. clear Etn.
    match type of Ht with (if ?cc then _ else _) = _ => destruct cc eqn:S; [|discriminate Ht] end. injection Ht as <-. apply sig_match in S.
    assert (forall act env vs, env_is Q n act (ti ++ tc) env -> run_region VT V truthy n strict fuel act b env = Some vs ->
              env_is Q n act ti vs /\ run_region VT V truthy n strict' fuel act b env = Some vs) as HB.
    { intros act2 env2 vs2 G R. destruct (IHb Ab fuel act2 (ti ++ tc) env2 bt vs2 G Eb R) as [G1 G2]. split; [|exact G2].
      apply (env_is_same Q act2 bt ti vs2 HQp S G1). }
    split.
    + apply (while_preserves Q _ _ vc ti tc HQe (fun a e v G R => proj1 (HB a e v G R)) fuel act vi vs Hc Hi Hr).
    + apply (while_same _ (fun a e => run_region VT V truthy n strict' fuel a c e) _ (fun a e => run_region VT V truthy n strict' fuel a b e) vc ti tc) in Hr;
        [exact Hr| |exact HB|exact Hc|exact Hi].
      intros act2 env2 vs2 G R. exact (proj2 (IHc Ac fuel act2 (ti ++ tc) env2 cts vs2 G Ec R)).
Qed.
End Frame.

(* ------------------------------------------------ confinement *)

Lemma Forall2_map_const {X} (R : mptype -> mpval -> Prop) (l : list X) (ft : X -> mptype) (fv : nat -> mpval) :
  (forall i x, nth_error l i = Some x -> R (ft x) (fv i)) -> Forall2 R (map ft l) (map fv (seq 0 (length l))).
Proof.
  intros H. assert (forall a, (forall i x, nth_error l i = Some x -> R (ft x) (fv (a + i))) -> Forall2 R (map ft l) (map fv (seq a (length l)))) as G.
  { clear H. induction l as [|x l IH]; intros a H; [constructor|]. cbn. constructor.
    - specialize (H 0 x eq_refl). rewrite Nat.add_0_r in H. exact H.
    - apply IH. intros i y E. specialize (H (S i) y E). rewrite Nat.add_succ_r in H. exact H. }
  apply (G 0). exact H.
Qed.
Lemma dict_get_Some rt r s : dict_get rt r = Some s -> In (r, s) rt.
Proof.
  unfold dict_get. destruct (find _ rt) as [[a b]|] eqn:E; [|discriminate]. cbn. intros H. injection H as ->.
  apply find_some in E. destruct E as [H E]. cbn in E. apply Nat.eqb_eq in E. subst. exact H.
Qed.
Lemma dict_get_None rt r : dict_get rt r = None -> ~ In r (map fst rt).
Proof.
  unfold dict_get. destruct (find _ rt) as [[a b]|] eqn:E; [discriminate|]. intros _ H. apply in_map_iff in H. destruct H as ([a b] & Ea & Hab). cbn in Ea. subst.
  pose proof (find_none _ _ E _ Hab) as F. cbn in F. rewrite Nat.eqb_refl in F. discriminate F.
Qed.
Lemma existsb_dyn_false ts : existsb (fun t : mptype => match parties _ t with None => true | _ => false end) ts = false ->
  forall t, In t ts -> exists p, parties _ t = Some p.
Proof.
  intros H t Ht. destruct (parties _ t) as [p|] eqn:E; [eauto|]. exfalso.
  assert (existsb (fun t : mptype => match parties _ t with None => true | _ => false end) ts = true); [|congruence].
  apply existsb_exists. exists t. rewrite E. auto.
Qed.
Lemma run_converge_None vs r : run_converge V vs r = None <-> Forall (fun v : mpval => v r = None) vs.
Proof.
  induction vs as [|v vs IH]; cbn; [split; [constructor|reflexivity]|]. destruct (v r) eqn:E.
  - split; [discriminate|]. intros F. inversion F; subst. congruence.
  - rewrite IH. split; [intros F; constructor; assumption|intros F; inversion F; assumption].
Qed.
(** the static parties of an accepted converge *)
Lemma type_converge_static ts t P : type_converge VT vt_eqb ts = Some t -> parties _ t = Some P ->
  (forall u, In u ts -> exists p, parties _ u = Some p) /\ (forall r, In r P <-> exists u p, In u ts /\ parties _ u = Some p /\ In r p).
Proof.
  unfold type_converge. destruct ts as [|t0 rest]; [discriminate|]. destruct (forallb _ rest); [|discriminate].
  destruct (existsb _ (t0 :: rest)) eqn:D; [intros H HP; injection H as <-; discriminate HP|].
  destruct (pairwise_disjoint _); [|discriminate]. intros H HP. injection H as <-. cbn [parties] in HP.
  pose proof (existsb_dyn_false _ D) as St. split; [exact St|]. intros r.
  set (ts := t0 :: rest) in *. set (ps := map (fun t : mptype => match parties _ t with Some p => p | None => [] end) ts) in *.
  assert (In r P <-> In r (concat ps)) as E.
  { change (match concat ps with [] => None | n0 :: l => Some (norm (n0 :: l)) end = Some P) in HP.
    destruct (concat ps) as [|a all] eqn:Ec; [discriminate HP|]. injection HP as <-. apply norm_In. }
  rewrite E, in_concat. unfold ps. split.
  - intros (p & Hp & Hr). apply in_map_iff in Hp. destruct Hp as (u & Eu & Hu). destruct (St u Hu) as (q & Hq). rewrite Hq in Eu. subst. exists u, p. auto.
  - intros (u & p & Hu & Hp & Hr). exists p. split; [|exact Hr]. apply in_map_iff. exists u. rewrite Hp. auto.
Qed.

Lemma confined_prim : forall strict o fuel act ts env tso vs, prim o -> True -> env_is confined n act ts env ->
  type_op VT V vt_eqb o ts = Some tso -> run_op VT V truthy n strict fuel act o env = Some vs ->
  env_is confined n act tso vs /\ run_op VT V truthy n strict fuel act o env = Some vs.
Proof.
  intros strict o fuel act ts env tso vs Hp _ He Ht Hr. split; [|exact Hr]. destruct o as [ps args f|args f|src rt|args|pred args th el|init caps imm c b]; try (destruct Hp; fail); cbn [type_op run_op] in *.
  - destruct (lookup ts args) as [ta|]; [|discriminate Ht]. destruct (lookup env args) as [va|]; [|discriminate Hr].
    unfold type_pcall_static in Ht. match type of Ht with (if ?c then _ else _) = _ => destruct c; [|discriminate Ht] end. injection Ht as <-.
    unfold run_pcall in Hr. match type of Hr with (if ?c then _ else _) = _ => destruct c; [discriminate Hr|] end. injection Hr as <-.
    apply Forall2_map_const. intros i x _ r Hr Ha P HP Hn. cbn [parties] in HP. injection HP as <-. apply inb_false in Hn. rewrite Hn, andb_false_r. reflexivity.
  - destruct (lookup ts args) as [ta|]; [|discriminate Ht]. destruct (lookup env args) as [va|]; [|discriminate Hr]. injection Ht as <-. cbn [run_pcall andb] in Hr. injection Hr as <-.
    apply Forall2_map_const. intros i x _ r Hr Ha P HP. discriminate HP.
  - destruct (nth_error ts src) as [t|] eqn:Et; [|discriminate Ht]. destruct (nth_error env src) as [v|] eqn:Ev; [|discriminate Hr].
    unfold type_shuffle in Ht. destruct rt as [|e rt0]; [discriminate Ht|]. set (rt := e :: rt0) in *.
    match type of Ht with option_map _ (if ?c then _ else _) = _ => destruct c; [|discriminate Ht] end. cbn [option_map] in Ht. injection Ht as <-.
    unfold run_shuffle in Hr. match type of Hr with option_map _ (if ?c then _ else _) = _ => destruct c; [|discriminate Hr] end. cbn [option_map] in Hr. injection Hr as <-.
    constructor; [|constructor]. intros r Hr Ha P HP Hn. cbn [parties] in HP. injection HP as <-. rewrite Ha. destruct (dict_get rt r) as [s|] eqn:D; [|reflexivity].
    exfalso. apply Hn. apply dict_get_Some in D. apply (norm_In r (fst e :: map fst rt0)). change (In r (map fst rt)). apply in_map_iff. exists (r, s). auto.
  - destruct (lookup ts args) as [ta|] eqn:Eta; [|discriminate Ht]. destruct (lookup env args) as [va|] eqn:Eva; [|discriminate Hr]. injection Hr as <-.
    destruct (type_converge VT vt_eqb ta) as [t|] eqn:Etc; [|discriminate Ht]. cbn in Ht. injection Ht as <-.
    pose proof (lookup_Forall2 _ ts env args He ta va Eta Eva) as Hall.
    constructor; [|constructor]. intros r Hr Ha P HP Hn. destruct (type_converge_static ta t P Etc HP) as [St HP'].
    apply run_converge_None. clear -Hall Hr Ha Hn HP' St.
    assert (forall u p, In u ta -> parties _ u = Some p -> ~ In r p) as K by (intros u p Hu Hp Hrp; apply Hn, HP'; eauto). clear HP' Hn P.
    induction Hall as [|t v ta va H F IH]; [constructor|]. constructor.
    + destruct (St t (or_introl eq_refl)) as (p & Hp). apply (H r Hr Ha p Hp). exact (K t p (or_introl eq_refl) Hp).
    + apply IH; intros; [apply St|eapply K; [right; eassumption|eassumption]]. right; assumption.
Qed.

Lemma allowed_all : (forall g : region, allowed_region (fun _ => True) g) /\ (forall o : op, allowed_op (fun _ => True) o).
Proof. apply (prog_ind VT V); intros; cbn; auto. Qed.

Theorem confined_sound (g : region) strict fuel act ts env tso vs :
  env_is confined n act ts env -> type_region VT V vt_eqb g ts = Some tso -> run_region VT V truthy n strict fuel act g env = Some vs ->
  env_is confined n act tso vs.
Proof.
  intros He Ht Hr. refine (proj1 (proj1 (frame confined strict strict (fun _ => True) _ _ _) g (proj1 allowed_all g) fuel act ts env tso vs He Ht Hr)).
  - intros t v v' r E H P HP Hn. rewrite <- E. exact (H P HP Hn).
  - intros x y v r E H P HP Hn. apply (H P); [rewrite E; exact HP|exact Hn].
  - intros o fu a t e to v. apply confined_prim.
Qed.

(* ------------------------------------------------ exactness *)

Lemma deduce_In ts d : deduce_parties VT ts = Some d -> forall r t p, In r d -> In t ts -> parties _ t = Some p -> In r p.
Proof.
  unfold deduce_parties. destruct ts as [|t0 rest]; [discriminate|]. destruct (existsb _ (t0 :: rest)) eqn:D; [discriminate|].
  intros H r t p Hr Ht Hp. injection H as <-. apply (proj1 (norm_In _ _)) in Hr. pose proof (existsb_dyn_false _ D) as St.
  destruct (St t0 (or_introl eq_refl)) as (p0 & Hp0). rewrite Hp0 in Hr.
  assert (forall l cur, In r (fold_left (fun cur (t : mptype) => match parties _ t with Some p => filter (fun r => inb r p) cur | None => cur end) l cur) ->
     In r cur /\ forall t p, In t l -> parties _ t = Some p -> In r p) as F.
  { clear. induction l as [|t l IH]; intros cur H; [split; [exact H|intros ? ? []]|]. cbn in H. apply IH in H. destruct H as [H K].
    destruct (parties _ t) as [q|] eqn:Eq.
    - apply filter_In in H. destruct H as [H Hq]. apply inb_In in Hq. split; [exact H|]. intros u p [->|Hu] Hp; [congruence|]. exact (K u p Hu Hp).
    - split; [exact H|]. intros u p [->|Hu] Hp; [congruence|]. exact (K u p Hu Hp). }
  destruct (F rest p0 Hr) as [F0 F1]. destruct Ht as [<-|Ht]; [congruence|]. exact (F1 t p Ht Hp).
Qed.
Lemma env_exact_holds act (ta : list mptype) (va : list mpval) : env_is exact n act ta va -> forall r, r < n -> act r = true ->
  (forall t p, In t ta -> parties _ t = Some p -> In r p) -> holds_all V va r = true.
Proof.
  intros F r Hr Ha K. induction F as [|t v ta va H F IH]; [reflexivity|]. cbn. destruct (H r Hr Ha) as (P & HP & _ & E).
  assert (In r P) as HI by (apply (K t P); [left; reflexivity|exact HP]). apply E in HI. destruct (v r); [|congruence]. cbn. apply IH. intros u p Hu. apply K. right. exact Hu.
Qed.
Lemma env_exact_static act (ta : list mptype) (va : list mpval) r : env_is exact n act ta va -> r < n -> act r = true -> forall t, In t ta -> exists p, parties _ t = Some p /\ p <> [].
Proof.
  intros F Hr Ha. induction F as [|t v ta va H F IH]; intros u Hu; [destruct Hu|]. destruct Hu as [<-|Hu]; [|exact (IH u Hu)].
  destruct (H r Hr Ha) as (P & HP & HN & _). eauto.
Qed.
Definition static_prim (o : op) : Prop :=
  match o with
  | PCallStatic _ _ ps _ f => ps <> [] /\ total_local f
  | PCallDynamic _ _ _ _ => False
  | _ => True
  end.
Lemma holds_all_Forall va r : holds_all V va r = true -> Forall (fun a : option V => a <> None) (map (fun v : mpval => v r) va).
Proof.
  unfold holds_all. rewrite forallb_forall. intros H. apply Forall_forall. intros a Ha. apply in_map_iff in Ha. destruct Ha as (v & <- & Hv). specialize (H v Hv).
  destruct (v r); [congruence|discriminate H].
Qed.

Lemma exact_prim : forall o fuel act ts env tso vs, prim o -> static_prim o -> env_is exact n act ts env ->
  type_op VT V vt_eqb o ts = Some tso -> run_op VT V truthy n false fuel act o env = Some vs ->
  env_is exact n act tso vs /\ run_op VT V truthy n true fuel act o env = Some vs.
Proof.
  intros o fuel act ts env tso vs Hp Hs He Ht Hr. destruct o as [ps args f|args f|src rt|args|pred args th el|init caps imm c b]; try (destruct Hp; fail); cbn [type_op run_op static_prim] in *.
  - destruct Hs as [Hps Hf]. destruct (lookup ts args) as [ta|] eqn:Eta; [|discriminate Ht]. destruct (lookup env args) as [va|] eqn:Eva; [|discriminate Hr].
    pose proof (lookup_Forall2 _ ts env args He ta va Eta Eva) as Hall.
    unfold type_pcall_static in Ht. match type of Ht with (if ?c then _ else _) = _ => destruct c eqn:OK; [|discriminate Ht] end. injection Ht as <-.
    cbn [run_pcall andb] in Hr. injection Hr as <-.
    assert (forall r, r < n -> act r = true -> In r (norm ps) -> holds_all V va r = true) as Hold.
    { intros r Hr Ha Hin. destruct ta as [|t0 ta0] eqn:Etn.
      - inversion Hall; subst. reflexivity.
      - rewrite <- Etn in *. apply (env_exact_holds act ta va Hall r Hr Ha). intros t p Hti Hp'.
        destruct (deduce_parties VT ta) as [d|] eqn:D.
        + apply (deduce_In ta d D r t p); [|exact Hti|exact Hp']. apply (proj1 (subset_spec _ _) OK), Hin.
        + exfalso. unfold deduce_parties in D. rewrite Etn in D.
          destruct (existsb (fun t : mptype => match parties _ t with None => true | _ => false end) (t0 :: ta0)) eqn:DD; [|discriminate D].
          apply existsb_exists in DD. destruct DD as (u & Hu & HN). rewrite <- Etn in Hu. destruct (env_exact_static act ta va r Hall Hr Ha u Hu) as (q & Hq & _). rewrite Hq in HN. discriminate HN. }
    split.
    + apply Forall2_map_const. intros i x Ex r Hr Ha. exists (norm ps). split; [reflexivity|]. split; [rewrite norm_nil; exact Hps|]. rewrite Ha. cbn [andb].
      destruct (inb r (norm ps)) eqn:B.
      * apply inb_In in B. split; [|tauto]. intros _. apply Hf; [apply holds_all_Forall, (Hold r Hr Ha B)|]. apply nth_error_Some. congruence.
      * apply inb_false in B. split; [tauto|congruence].
    + unfold run_pcall. replace (forallb _ (ranks n)) with true; [reflexivity|]. symmetry. apply forallb_forall. intros r Hr. apply in_seq in Hr.
      destruct (act r) eqn:Ha; [|reflexivity]. destruct (inb r (norm ps)) eqn:B; [|reflexivity]. cbn. apply Hold; [lia|exact Ha|apply inb_In, B].
  - destruct Hs.
  - split; [|exact Hr]. destruct (nth_error ts src) as [t|] eqn:Et; [|discriminate Ht]. destruct (nth_error env src) as [v|] eqn:Ev; [|discriminate Hr].
    destruct (Forall2_nth_error _ ts env src t He Et) as (v' & Ev' & Hv). rewrite Ev in Ev'. injection Ev' as <-.
    unfold type_shuffle in Ht. destruct rt as [|e rt0]; [discriminate Ht|]. remember (e :: rt0) as rt eqn:Ert.
    match type of Ht with option_map _ (if ?c then _ else _) = _ => destruct c eqn:OK; [|discriminate Ht] end. cbn [option_map] in Ht. injection Ht as <-.
    unfold run_shuffle in Hr. match type of Hr with option_map _ (if ?c then _ else _) = _ => destruct c eqn:DEL; [|discriminate Hr] end. apply andb_prop in DEL. destruct DEL as [DEL _]. cbn [option_map] in Hr. injection Hr as <-.
    rewrite forallb_forall in DEL. constructor; [|constructor]. intros r Hr Ha. exists (norm (map fst rt)). split; [reflexivity|]. split; [rewrite norm_nil; subst rt; discriminate|].
    rewrite norm_In, Ha. specialize (DEL r). destruct (dict_get rt r) as [s|] eqn:D.
    + pose proof (dict_get_Some rt r s D) as HI. assert (In r (map fst rt)) as HIn by (apply in_map_iff; exists (r, s); auto). split; [|tauto]. intros _.
      rewrite Ha in DEL. cbn [negb orb] in DEL. specialize (DEL ltac:(apply in_seq; lia)). apply andb_prop in DEL. destruct DEL as [As Ls]. apply Nat.ltb_lt in Ls.
      destruct (Hv s Ls As) as (P & HP & _ & E). apply E. rewrite HP in OK. rewrite forallb_forall in OK. specialize (OK (r, s) HI). apply inb_In, OK.
    + apply dict_get_None in D. split; [tauto|congruence].
  - split; [|exact Hr]. destruct (lookup ts args) as [ta|] eqn:Eta; [|discriminate Ht]. destruct (lookup env args) as [va|] eqn:Eva; [|discriminate Hr]. injection Hr as <-.
    destruct (type_converge VT vt_eqb ta) as [t|] eqn:Etc; [|discriminate Ht]. cbn in Ht. injection Ht as <-.
    pose proof (lookup_Forall2 _ ts env args He ta va Eta Eva) as Hall.
    constructor; [|constructor]. intros r Hr Ha.
    assert (exists P, parties _ t = Some P /\ P <> []) as (P & HP & HN).
    { unfold type_converge in Etc. destruct ta as [|t0 rest]; [discriminate Etc|]. destruct (forallb _ rest); [|discriminate Etc].
      destruct (existsb _ (t0 :: rest)) eqn:D.
      - exfalso. apply existsb_exists in D. destruct D as (u & Hu & Hd). destruct (env_exact_static act (t0 :: rest) va r Hall Hr Ha u Hu) as (q & Hq & _). rewrite Hq in Hd. discriminate Hd.
      - destruct (pairwise_disjoint _); [|discriminate Etc]. injection Etc as <-. cbn [parties].
        destruct (env_exact_static act (t0 :: rest) va r Hall Hr Ha t0 (or_introl eq_refl)) as (q & Hq & Hqn). cbn [map concat]. rewrite Hq.
        destruct q as [|x q]; [congruence|]. cbn [app]. eexists. split; [reflexivity|]. rewrite norm_nil. discriminate. }
    exists P. split; [exact HP|]. split; [exact HN|]. destruct (type_converge_static ta t P Etc HP) as [St HP']. rewrite HP'.
    assert ((exists u p, In u ta /\ parties _ u = Some p /\ In r p) <-> run_converge V va r <> None) as G; [|exact G].
    clear -Hall Hr Ha. induction Hall as [|t v ta va H F IH].
    + split; [intros (u & p & [] & _)|cbn; congruence].
    + destruct (H r Hr Ha) as (P & HP & _ & E). cbn [run_converge fold_right]. change (fold_right _ None va) with (run_converge V va r). destruct (v r) eqn:Ev.
      * split; [congruence|]. intros _. exists t, P. split; [left; reflexivity|]. split; [exact HP|apply E; congruence].
      * rewrite <- IH. split; intros (u & p & Hu & Hp & Hrp).
        -- destruct Hu as [<-|Hu]; [|eauto]. exfalso. rewrite HP in Hp. injection Hp as <-. apply E in Hrp. congruence.
        -- exists u, p. split; [right; exact Hu|auto].
Qed.

Lemma static_allowed : (forall g : region, static_region g -> allowed_region static_prim g) /\ (forall o : op, static_op o -> allowed_op static_prim o).
Proof. apply (prog_ind VT V); cbn; intros; intuition. Qed.

Theorem exact_sound (g : region) fuel act ts env tso vs :
  static_region g -> env_is exact n act ts env -> type_region VT V vt_eqb g ts = Some tso -> run_region VT V truthy n false fuel act g env = Some vs ->
  env_is exact n act tso vs /\ run_region VT V truthy n true fuel act g env = Some vs.
Proof.
  intros Hs He Ht Hr. refine (proj1 (frame exact false true static_prim _ _ _) g (proj1 static_allowed g Hs) fuel act ts env tso vs He Ht Hr).
  - intros t v v' r E (P & H1 & H2 & H3). exists P. rewrite <- E. auto.
  - intros x y v r E (P & H1 & H2 & H3). exists P. rewrite <- E. auto.
  - intros o fu a t e to v. apply exact_prim.
Qed.
End P.
