(** Proofs for traced device programs: the traced operations mean what the objects of DevProgModel
    hold. *)
From Coq Require Import Bool Arith String List Lia.
From Verif Require Import SimpModel SimpProofs SimpProofs2 DeviceModel DeviceSpec DeviceProofs SpuRunModel SpuRunSpec DevProgModel DevProgSpec DevTraceModel SpmdSpec.
Import ListNotations.
Local Open Scope nat_scope.

Section P.
Context {VT V code : Type}.
Variable vt_eqb : VT -> VT -> bool.
Variable truthy : V -> bool.
Variable n : nat.
Variables (share_t key_t : VT).
Variables (make_shares : V -> nat -> list V) (reconstruct : list V -> V)
          (encrypt decrypt : V -> V -> V) (pub hkdf quote attest : V -> V) (derive : V -> V -> V).
Variable compile : nat -> (list V -> list V) -> option (code * nat).
Variable joint : code -> list (list V) -> option (list (list V)).
Variable is_share : V -> bool.
Variable typ : V -> VT.
Variable cluster : string -> option device.
Hypothesis W : well_formed cluster n.
Hypothesis Hkinds : forall d dev, cluster d = Some dev -> dv_kind dev = PPU \/ dv_kind dev = TEE.
Variable draw : nat -> V * V.
Variable left : nat -> runtimes V.
Notation object := (object VT V).
Notation op := (SimpModel.op VT V).
Notation mpval := (nat -> option V).
Notation tobj := (DevTraceModel.tobj VT).
Notation pcall := (DeviceModel.pcall VT V n). Notation pcall1 := (DeviceModel.pcall1 VT V n).
Notation shuffle := (shuffle_static VT V n).
Notation transfer := (d2d VT V vt_eqb n share_t key_t make_shares reconstruct encrypt decrypt pub hkdf quote attest derive).
Notation ensure := (ensure VT V n key_t pub hkdf quote attest derive draw).
Notation move := (DevProgModel.move VT V vt_eqb n share_t key_t make_shares reconstruct encrypt decrypt pub hkdf quote attest derive cluster draw).
Notation moves := (DevProgModel.moves VT V vt_eqb n share_t key_t make_shares reconstruct encrypt decrypt pub hkdf quote attest derive cluster draw).
Notation run_on := (DevProgModel.run_on VT V vt_eqb n share_t key_t make_shares reconstruct encrypt decrypt pub hkdf quote attest derive code compile joint is_share cluster draw left).
Notation run_stmt := (DevProgModel.run_stmt VT V vt_eqb n share_t key_t make_shares reconstruct encrypt decrypt pub hkdf quote attest derive code compile joint is_share typ cluster draw left).
Notation run_prog := (DevProgModel.run_prog VT V vt_eqb n share_t key_t make_shares reconstruct encrypt decrypt pub hkdf quote attest derive code compile joint is_share typ cluster draw left).
Notation t_ensure := (DevTraceModel.t_ensure VT V key_t pub hkdf quote attest derive draw).
Notation t_move := (DevTraceModel.t_move VT V key_t encrypt decrypt pub hkdf quote attest derive cluster draw).
Notation t_moves := (DevTraceModel.t_moves VT V key_t encrypt decrypt pub hkdf quote attest derive cluster draw).
Notation t_run_on := (DevTraceModel.t_run_on VT V key_t encrypt decrypt pub hkdf quote attest derive cluster draw).
Notation t_stmt := (DevTraceModel.t_stmt VT V key_t encrypt decrypt pub hkdf quote attest derive typ cluster draw).
Notation t_prog := (DevTraceModel.t_prog VT V key_t encrypt decrypt pub hkdf quote attest derive typ cluster draw).
Notation taken := (DevTraceModel.taken VT V).

(** position q of the environment holds what object x holds *)
Definition at_ (menv : list mpval) (q : nat) (x : object) : Prop := exists w, nth_error menv q = Some w /\ forall r, snd x r = w r.
Lemma at_app m l q x : at_ m q x -> at_ (m ++ l) q x.
Proof. intros (w & E & H). exists w. split; [|exact H]. etransitivity; [apply nth_error_app1|exact E]. apply nth_error_Some. congruence. Qed.
Lemma at_pos m q q' x : at_ m q x -> q = q' -> at_ m q' x.
Proof. intros H <-. exact H. Qed.

(** running operations one after the other *)
Fixpoint steps (ops : list op) (m m' : list mpval) : Prop :=
  match ops with
  | [] => m' = m
  | o :: r => exists vs, op_means truthy n o m (Done vs) /\ steps r (m ++ vs) m'
  end.
Definition reach (ops : list op) (m : list mpval) (Q : list mpval -> Prop) : Prop := exists l, steps ops m (m ++ l) /\ length l = taken ops /\ Q (m ++ l).
Lemma reach_nil m (Q : list mpval -> Prop) : Q m -> reach [] m Q.
Proof. intros H. exists []. rewrite app_nil_r. split; [reflexivity|split; [reflexivity|exact H]]. Qed.
Lemma reach_cons o ops m vs (Q : list mpval -> Prop) : op_means truthy n o m (Done vs) -> length vs = gives VT V o -> reach ops (m ++ vs) Q -> reach (o :: ops) m Q.
Proof.
  intros H Lv (l & S & Ll & HQ). exists (vs ++ l). rewrite app_assoc. split; [exists vs; auto|]. split; [|exact HQ]. rewrite app_length. change (taken (o :: ops)) with (gives VT V o + taken ops). lia.
Qed.
Lemma steps_app a b m m1 m2 : steps a m m1 -> steps b m1 m2 -> steps (a ++ b) m m2.
Proof. revert m. induction a as [|o a IH]; intros m; cbn; [intros ->; auto|]. intros (vs & H & S) S2. exists vs. split; [exact H|]. exact (IH _ S S2). Qed.
Lemma taken_app a b : taken (a ++ b) = taken a + taken b.
Proof. unfold DevTraceModel.taken. rewrite map_app. apply list_sum_app. Qed.
Lemma reach_app a b m (Q : list mpval -> Prop) : reach a m (fun m' => length m' = length m + taken a -> (forall q x, at_ m q x -> at_ m' q x) -> reach b m' Q) -> reach (a ++ b) m Q.
Proof.
  intros (l & S & L & H). destruct H as (l' & S' & L' & HQ); [rewrite app_length; lia|intros q x; apply at_app|].
  exists (l ++ l'). rewrite app_assoc, app_length, taken_app. split; [exact (steps_app _ _ _ _ _ S S')|]. split; [lia|exact HQ].
Qed.
Lemma reach_weaken ops m (Q R : list mpval -> Prop) : reach ops m Q -> (forall m', length m' = length m + taken ops -> (forall q x, at_ m q x -> at_ m' q x) -> Q m' -> R m') -> reach ops m R.
Proof. intros (l & S & L & H) I. exists l. split; [exact S|]. split; [exact L|]. apply I; [rewrite app_length; lia|intros q x; apply at_app|exact H]. Qed.

(* ---------------------------------------------------------------- single operations *)

Lemma at_pick m args (xs : list object) : Forall2 (at_ m) args xs -> exists ws, pick m args ws /\ forall r, at_party r ws = map (fun x : object => snd x r) xs.
Proof.
  induction 1 as [|q x args xs (w & E & H) F (ws & P & A)]; [exists []; split; [constructor|reflexivity]|].
  exists (w :: ws). split; [constructor; assumption|]. intros r. unfold at_party in *. cbn. rewrite (A r), (H r). reflexivity.
Qed.

Lemma pcall_means p (f : SimpModel.local VT V) (xs ys : list object) m args : pcall [p] f xs = Some ys -> Forall2 (at_ m) args xs ->
  exists ws, op_means truthy n (PCallStatic VT V [p] args f) m (Done ws) /\ length ws = length (lf_out _ _ f) /\ length ys = length (lf_out _ _ f) /\
    (forall j y, nth_error ys j = Some y -> exists w, nth_error ws j = Some w /\ forall r, snd y r = w r).
Proof.
  intros E F. destruct (at_pick _ _ _ F) as (us & P & A). eexists. split; [apply m_pcall_static; exact P|]. split; [rewrite map_length; apply seq_length|].
  destruct (pcall_sound _ _ _ _ _ E) as [L K]. split; [exact L|]. intros j y Hy. destruct (K j y Hy) as (t & Et & _ & B).
  assert (j < length (lf_out _ _ f)) as Lj by (apply nth_error_Some; congruence).
  exists (fun r => if existsb (Nat.eqb r) [p] then lf_sem _ _ f (at_party r us) j else None). split.
  - erewrite (map_nth_error (fun (k r : nat) => if existsb (Nat.eqb r) [p] then lf_sem _ _ f (at_party r us) k else None)); [reflexivity|].
    assert (SN : forall a b i, i < b -> nth_error (seq a b) i = Some (a + i)) by (intros a b i H; rewrite (nth_error_nth' _ 0) by (rewrite seq_length; exact H); rewrite seq_nth by exact H; reflexivity).
    rewrite SN by exact Lj. reflexivity.
  - intros r. rewrite (B r). cbn [existsb]. rewrite orb_false_r. destruct (Nat.eqb_spec r p) as [->|]; [|reflexivity]. rewrite (A p). reflexivity.
Qed.
Lemma reach_pcall1 p t sem (xs : list object) (y : object) m args ops (Q : list mpval -> Prop) : pcall1 [p] (Local VT V [t] sem) xs = Some y -> Forall2 (at_ m) args xs ->
  (forall m', length m' = S (length m) -> (forall q x, at_ m q x -> at_ m' q x) -> at_ m' (length m) y -> reach ops m' Q) ->
  reach (PCallStatic VT V [p] args (Local VT V [t] sem) :: ops) m Q.
Proof.
  intros E F K. unfold DeviceModel.pcall1 in E. destruct (pcall [p] _ xs) as [[|y' [|]]|] eqn:Ep; try discriminate E. injection E as ->.
  destruct (pcall_means _ _ _ _ _ _ Ep F) as (ws & H & L & _ & N). cbn in L. destruct ws as [|w [|]]; try discriminate L. destruct (N 0 y eq_refl) as (w' & Ew & A). cbn in Ew. injection Ew as <-.
  eapply reach_cons; [exact H|reflexivity|]. apply K; [rewrite app_length; cbn; lia|intros q x; apply at_app|].
  exists w. split; [|exact A]. etransitivity; [apply nth_error_app2; lia|]. rewrite Nat.sub_diag. reflexivity.
Qed.
Lemma reach_shuffle t s (x y : object) m q ops (Q : list mpval -> Prop) : shuffle x [(t, s)] = Some y -> at_ m q x -> t < n -> s < n ->
  (forall m', length m' = S (length m) -> (forall q x, at_ m q x -> at_ m' q x) -> at_ m' (length m) y -> reach ops m' Q) ->
  reach (Shuffle VT V q [(t, s)] :: ops) m Q.
Proof.
  intros E (w & Ew & A) Lt Ls K. apply shuffle1 in E. destruct E as [_ B].
  apply (reach_cons _ _ m [fun r => if r =? t then w s else None]); [|reflexivity|].
  - apply (m_shuffle _ _ _ _ _ w); [exact Ew| | |].
    + split; [repeat constructor; cbn; tauto|]. split; [intros t' s' [H|[]]; injection H as <- <-; auto|]. intros a b N [H|[]] [H'|[]]. congruence.
    + intros t' s' [H|[]]. injection H as <- <-. rewrite Nat.eqb_refl. reflexivity.
    + intros t' H. destruct (Nat.eqb_spec t' t) as [->|]; [exfalso; apply H; left; reflexivity|reflexivity].
  - apply K; [rewrite app_length; cbn; lia|intros q' x'; apply at_app|]. exists (fun r => if r =? t then w s else None). split; [etransitivity; [apply nth_error_app2; lia|]; rewrite Nat.sub_diag; reflexivity|].
    intros r. rewrite (B r). destruct (r =? t); [apply A|reflexivity].
Qed.

(* ---------------------------------------------------------------- sessions *)

Ltac at_tac := solve [ repeat match goal with
  | H : at_ ?m ?q ?x |- at_ ?m ?q' ?x => apply (at_pos _ _ _ _ H); lia
  | H : (forall q x, at_ ?m q x -> at_ ?m' q x) |- at_ ?m' ?q ?x => apply H
  end ].
Lemma session_reach m k a b tsk vsk sf st tr (Q : list mpval -> Prop) : length m = k -> a < n -> b < n ->
  session VT V n key_t pub hkdf quote attest derive a b tsk vsk = Some ((sf, st), tr) ->
  (forall m', length m' = k + 12 -> (forall q x, at_ m q x -> at_ m' q x) -> at_ m' (k + 10) sf -> at_ m' (k + 11) st -> Q m') ->
  reach (session_ops VT V key_t pub hkdf quote attest derive k a b tsk vsk) m Q.
Proof.
  intros Lm La Lb H K. unfold session in H.
  repeat match type of H with match ?e with Some _ => _ | None => None end = Some _ => let E := fresh "E" in destruct e eqn:E; [|discriminate H] end.
  injection H as <- <- <-. unfold session_ops, const, fn1, fn2 in *.
  eapply reach_pcall1; [eassumption|constructor|]. intros m1 L1 G1 A1.
  eapply reach_pcall1; [eassumption|constructor|]. intros m2 L2 G2 A2.
  eapply reach_pcall1; [eassumption|constructor; [at_tac|constructor]|]. intros m3 L3 G3 A3.
  eapply reach_shuffle; [eassumption|at_tac|assumption|assumption|]. intros m4 L4 G4 A4.
  eapply reach_pcall1; [eassumption|constructor; [at_tac|constructor]|]. intros m5 L5 G5 A5.
  eapply reach_pcall1; [eassumption|constructor|]. intros m6 L6 G6 A6.
  eapply reach_pcall1; [eassumption|constructor|]. intros m7 L7 G7 A7.
  eapply reach_shuffle; [eassumption|at_tac|assumption|assumption|]. intros m8 L8 G8 A8.
  eapply reach_pcall1; [eassumption|constructor; [at_tac|constructor; [at_tac|constructor]]|]. intros m9 L9 G9 A9.
  eapply reach_pcall1; [eassumption|constructor; [at_tac|constructor; [at_tac|constructor]]|]. intros m10 L10 G10 A10.
  eapply reach_pcall1; [eassumption|constructor; [at_tac|constructor]|]. intros m11 L11 G11 A11.
  eapply reach_pcall1; [eassumption|constructor; [at_tac|constructor]|]. intros m12 L12 G12 A12.
  apply reach_nil. apply K; [lia|intros q x Hx; repeat match goal with H : (forall q x, at_ ?m q x -> at_ ?m' q x) |- at_ ?m' ?q ?x => apply H; clear H end; exact Hx| |]; at_tac.
Qed.

(** the sessions at hand while tracing are those at hand when running *)
Definition srel (m : list mpval) (t : tstate) (s : state VT V) : Prop :=
  t_made t = made VT V s /\
  Forall2 (fun te e => fst te = fst e /\ at_ m (fst (snd te)) (fst (snd e)) /\ at_ m (snd (snd te)) (snd (snd e))) (t_sessions t) (sessions VT V s).
Definition grows (m m' : list mpval) : Prop := forall q x, at_ m q x -> at_ m' q x.
Lemma srel_grows m m' t s : grows m m' -> srel m t s -> srel m' t s.
Proof. intros G [E F]. split; [exact E|]. induction F as [|te e ts es (A & B & C) F IH]; constructor; [auto|exact IH]. Qed.
Lemma session_find m (ts : list ((string * string) * (nat * nat))) (es : list ((string * string) * (object * object))) key :
  Forall2 (fun te e => fst te = fst e /\ at_ m (fst (snd te)) (fst (snd e)) /\ at_ m (snd (snd te)) (snd (snd e))) ts es ->
  match find (fun e => key_eqb (fst e) key) es with
  | Some (_, (sf, st)) => exists k' ka kb, find (fun e => key_eqb (fst e) key) ts = Some (k', (ka, kb)) /\ at_ m ka sf /\ at_ m kb st
  | None => find (fun e => key_eqb (fst e) key) ts = None
  end.
Proof.
  induction 1 as [|[k1 [ka kb]] [k2 [sf st]] ts es (A & B & C) F IH]; cbn in *; [reflexivity|]. subst k2. destruct (key_eqb k1 key); [exists k1, ka, kb; auto|exact IH].
Qed.

Lemma ensure_reach m st ppu tee s st' tst k : ensure st ppu tee = Some (s, st') -> srel m tst st -> length m = k ->
  (forall r, In r (dv_members ppu) -> r < n) -> (forall r, In r (dv_members tee) -> r < n) ->
  exists ops ka kb tst', t_ensure tst k ppu tee = Some (ops, (ka, kb), tst') /\ length ops = taken ops /\
    reach ops m (fun m' => at_ m' ka (fst s) /\ at_ m' kb (snd s) /\ srel m' tst' st').
Proof.
  unfold DevProgModel.ensure, DevTraceModel.t_ensure. intros E [Em F] Lm H1 H2. pose proof (session_find _ _ _ (dv_name ppu, dv_name tee) F) as D.
  destruct (find _ (sessions VT V st)) as [[k0 [sf sx]]|].
  - injection E as <- <-. destruct D as (k' & ka & kb & -> & A & B). exists [], ka, kb, tst. split; [reflexivity|]. split; [reflexivity|]. apply reach_nil. split; [exact A|]. split; [exact B|]. split; assumption.
  - rewrite D. destruct (dv_members ppu) as [|a [|]]; try discriminate E. destruct (dv_members tee) as [|b [|]]; try discriminate E. rewrite Em.
    destruct (session VT V n key_t pub hkdf quote attest derive a b (fst (draw (made VT V st))) (snd (draw (made VT V st)))) as [[[sf sx] tr]|] eqn:Es; [|discriminate E]. injection E as <- <-.
    eexists _, _, _, _. split; [reflexivity|]. split; [reflexivity|].
    eapply session_reach; [exact Lm|apply H1; left; reflexivity|apply H2; left; reflexivity|exact Es|]. intros m' L' G A B. split; [exact A|]. split; [exact B|].
    split; [reflexivity|]. cbn. constructor; [split; [reflexivity|split; assumption]|]. exact (proj2 (srel_grows _ _ tst st G (conj Em F))).
Qed.

Lemma encrypted_reach m k a b ka kb x sf st obj y tr (Q : list mpval -> Prop) : length m = k -> a < n -> b < n ->
  encrypted VT V n key_t encrypt decrypt a b sf st obj = Some (y, tr) -> at_ m ka sf -> at_ m kb st -> at_ m x obj ->
  vt _ (fst y) = vt _ (fst obj) /\
  ((forall m', length m' = k + 3 -> grows m m' -> at_ m' (k + 2) y -> Q m') -> reach (encrypted_ops VT V key_t encrypt decrypt k a b ka kb x (vt _ (fst obj))) m Q).
Proof.
  intros Lm La Lb H Ha Hb Hx. unfold encrypted in H.
  repeat match type of H with match ?e with Some _ => _ | None => None end = Some _ => let E := fresh "E" in destruct e eqn:E; [|discriminate H] end.
  injection H as <- <-. split; [apply pcall1_sound in E1; rewrite (proj1 E1); reflexivity|]. intros K. unfold encrypted_ops, const, fn1, fn2 in *.
  eapply reach_pcall1; [eassumption|constructor; [at_tac|constructor; [at_tac|constructor]]|]. intros m1 L1 G1 A1.
  eapply reach_shuffle; [eassumption|at_tac|assumption|assumption|]. intros m2 L2 G2 A2.
  eapply reach_pcall1; [eassumption|constructor; [at_tac|constructor; [at_tac|constructor]]|]. intros m3 L3 G3 A3.
  apply reach_nil. apply K; [lia|intros q z Hz; apply G3, G2, G1; exact Hz|at_tac].
Qed.
Lemma gives_single_len (k a b ka kb x : nat) (t : VT) : taken (encrypted_ops VT V key_t encrypt decrypt k a b ka kb x t) = 3.
Proof. reflexivity. Qed.

Lemma grows_trans a b c : grows a b -> grows b c -> grows a c.
Proof. intros H1 H2 q x Hx. apply H2, H1, Hx. Qed.

Lemma move_reach m st to_ d obj y st' tst k x : move st to_ (d, obj) = Some (y, st') -> srel m tst st -> length m = k -> at_ m x obj ->
  vt _ (fst y) = vt _ (fst obj) /\
  exists ops q tst', t_move tst k to_ d x (vt _ (fst obj)) = Some (ops, q, tst') /\ length ops = taken ops /\
    reach ops m (fun m' => at_ m' q y /\ srel m' tst' st').
Proof.
  unfold DevProgModel.move, DevTraceModel.t_move. cbn [fst snd]. destruct (draw 0) as [tsk vsk]. destruct (String.eqb_spec d to_) as [->|Nd].
  { intros H R L A. injection H as <- <-. split; [reflexivity|]. exists [], x, tst. split; [reflexivity|]. split; [reflexivity|]. apply reach_nil. auto. }
  destruct (cluster d) as [from|] eqn:Cd; [|discriminate]. destruct (cluster to_) as [dest|] eqn:Ct; [|discriminate]. cbv zeta.
  destruct (W _ _ Cd) as (Nf & Mf & _). destruct (W _ _ Ct) as (Nt & Mt & _). unfold d2d. rewrite Nf, Nt. apply String.eqb_neq in Nd. rewrite Nd.
  intros H R Lm A. unfold with_session in H. destruct (Hkinds _ _ Cd) as [Kf|Kf], (Hkinds _ _ Ct) as [Kt|Kt]; rewrite Kf, Kt in *; [| | |discriminate H].
  - destruct (dv_members from) as [|a [|]]; try discriminate H. destruct (dv_members dest) as [|b [|]]; try discriminate H.
    unfold ppu_to_ppu in H. destruct (shuffle_static VT V n obj [(b, a)]) as [z|] eqn:Es; [|discriminate H]. injection H as <- <-.
    split; [apply shuffle1 in Es; rewrite (proj1 Es); reflexivity|]. eexists _, _, _. split; [reflexivity|]. split; [reflexivity|].
    eapply reach_shuffle; [exact Es|exact A|apply Mt; left; reflexivity|apply Mf; left; reflexivity|]. intros m' L' G B. apply reach_nil. split; [rewrite <- Lm; exact B|exact (srel_grows _ _ _ _ G R)].
  - destruct (ensure st from dest) as [[[sf sx] st1]|] eqn:Ee; [|discriminate H].
    destruct (ensure_reach _ _ _ _ _ _ _ _ Ee R Lm Mf Mt) as (ops & ka & kb & tst' & Et & Lo & Re). rewrite Et.
    destruct (dv_members from) as [|a [|]]; try discriminate H. destruct (dv_members dest) as [|b [|]]; try discriminate H.
    destruct (encrypted VT V n key_t encrypt decrypt a b sf sx obj) as [[z tr]|] eqn:Ec; [|discriminate H]. injection H as <- <-.
    assert (a < n) as La by (apply Mf; left; reflexivity). assert (b < n) as Lb by (apply Mt; left; reflexivity).
    split; [unfold encrypted in Ec; repeat match type of Ec with match ?e with Some _ => _ | None => None end = Some _ => let E := fresh "E" in destruct e eqn:E; [|discriminate Ec] end;
            injection Ec as <- <-; unfold fn2 in *; match goal with E : DeviceModel.pcall1 _ _ _ _ _ _ = Some ?y |- vt _ (fst ?y) = _ => apply pcall1_sound in E; rewrite (proj1 E); reflexivity end|].
    eexists _, _, _. split; [reflexivity|]. split; [rewrite app_length, taken_app, Lo; reflexivity|].
    apply reach_app. eapply reach_weaken; [exact Re|]. intros m1 L1 G1 (B1 & B2 & B3) L1' _.
    eapply (encrypted_reach m1 (k + length ops) a b ka kb x sf sx obj); [lia|exact La|exact Lb|exact Ec|exact B1|exact B2|apply G1; exact A|].
    intros m2 L2 G2 Y. split; [exact Y|exact (srel_grows _ _ _ _ G2 B3)].
  - destruct (ensure st dest from) as [[[sf sx] st1]|] eqn:Ee; [|discriminate H].
    destruct (ensure_reach _ _ _ _ _ _ _ _ Ee R Lm Mt Mf) as (ops & ka & kb & tst' & Et & Lo & Re). rewrite Et.
    destruct (dv_members from) as [|b [|]]; try discriminate H. destruct (dv_members dest) as [|a [|]]; try discriminate H.
    destruct (encrypted VT V n key_t encrypt decrypt b a sx sf obj) as [[z tr]|] eqn:Ec; [|discriminate H]. injection H as <- <-.
    assert (b < n) as La by (apply Mf; left; reflexivity). assert (a < n) as Lb by (apply Mt; left; reflexivity).
    split; [unfold encrypted in Ec; repeat match type of Ec with match ?e with Some _ => _ | None => None end = Some _ => let E := fresh "E" in destruct e eqn:E; [|discriminate Ec] end;
            injection Ec as <- <-; unfold fn2 in *; match goal with E : DeviceModel.pcall1 _ _ _ _ _ _ = Some ?y |- vt _ (fst ?y) = _ => apply pcall1_sound in E; rewrite (proj1 E); reflexivity end|].
    eexists _, _, _. split; [reflexivity|]. split; [rewrite app_length, taken_app, Lo; reflexivity|].
    apply reach_app. eapply reach_weaken; [exact Re|]. intros m1 L1 G1 (B1 & B2 & B3) L1' _.
    eapply (encrypted_reach m1 (k + length ops) b a kb ka x sx sf obj); [lia|exact La|exact Lb|exact Ec|exact B2|exact B1|apply G1; exact A|].
    intros m2 L2 G2 Y. split; [exact Y|exact (srel_grows _ _ _ _ G2 B3)].
Qed.

(** an object while tracing is an object when running *)
Definition orel (m : list mpval) (o : tobj) (p : string * object) : Prop := fst o = fst p /\ at_ m (fst (snd o)) (snd p) /\ snd (snd o) = vt _ (fst (snd p)).
Lemma orel_grows m m' o p : grows m m' -> orel m o p -> orel m' o p.
Proof. intros G (A & B & C). split; [exact A|]. split; [apply G; exact B|exact C]. Qed.
Lemma orels_grow m m' os ps : grows m m' -> Forall2 (orel m) os ps -> Forall2 (orel m') os ps.
Proof. intros G F. induction F; constructor; [eapply orel_grows; eassumption|assumption]. Qed.

Lemma moves_reach to_ ps : forall m st ys st' tst k os, moves st to_ ps = Some (ys, st') -> srel m tst st -> length m = k -> Forall2 (orel m) os ps ->
  exists ops qs tst', t_moves tst k to_ os = Some (ops, qs, tst') /\ length ops = taken ops /\
    reach ops m (fun m' => Forall2 (at_ m') qs ys /\ srel m' tst' st').
Proof.
  induction ps as [|[d obj] ps IH]; intros m st ys st' tst k os H R Lm F; inversion F as [|[d' [q t]] p' os' ps' (A & B & C) F']; subst; cbn [DevProgModel.moves DevTraceModel.t_moves] in *.
  - injection H as <- <-. exists [], [], tst. split; [reflexivity|]. split; [reflexivity|]. apply reach_nil. split; [constructor|exact R].
  - cbn in A, B, C. subst d' t. destruct (move st to_ (d, obj)) as [[y st1]|] eqn:Em; [|discriminate H]. destruct (moves st1 to_ ps) as [[ys1 st2]|] eqn:Ems; [|discriminate H]. injection H as <- <-.
    destruct (move_reach _ _ _ _ _ _ _ _ _ _ Em R eq_refl B) as (_ & ops & q1 & tst1 & E1 & L1 & R1). rewrite E1.
    assert (exists ops2 qs tst2, t_moves tst1 (length m + length ops) to_ os' = Some (ops2, qs, tst2) /\ length ops2 = taken ops2 /\
      forall m1, length m1 = length m + taken ops -> grows m m1 -> srel m1 tst1 st1 -> reach ops2 m1 (fun m' => Forall2 (at_ m') qs ys1 /\ srel m' tst2 st2)) as (ops2 & qs & tst2 & E2 & L2 & R2).
    { destruct R1 as (l & S1 & Ll & B1 & B2).
      destruct (IH (m ++ l) _ _ _ _ (length m + length ops) os' Ems B2 ltac:(rewrite app_length; lia) (orels_grow _ _ _ _ (fun q x => at_app m l q x) F')) as (ops2 & qs & tst2 & E2 & L2 & R2).
      exists ops2, qs, tst2. split; [exact E2|]. split; [exact L2|]. intros m1 Lm1 G1 S1'.
      destruct (IH m1 _ _ _ _ (length m + length ops) os' Ems S1' ltac:(lia) (orels_grow _ _ _ _ G1 F')) as (ops3 & qs3 & tst3 & E3 & L3 & R3). rewrite E3 in E2. injection E2 as -> -> ->. exact R3. }
    rewrite E2. exists (ops ++ ops2), (q1 :: qs), tst2. split; [reflexivity|]. split; [rewrite app_length, taken_app; lia|].
    apply reach_app. eapply reach_weaken; [exact R1|]. intros m1 Lm1 G1 (B1 & B2) _ _.
    eapply reach_weaken; [exact (R2 m1 Lm1 G1 B2)|]. intros m2 Lm2 G2 (D1 & D2). split; [|exact D2]. constructor; [apply G2; exact B1|exact D1].
Qed.

(* ---------------------------------------------------------------- calls and programs *)

Definition arel (m : list mpval) (ta : tobj + V) (a : darg VT V) : Prop :=
  match ta, a with
  | inl o, OnDevice _ _ d x => orel m o (d, x)
  | inr v, Value _ _ w => v = w
  | _, _ => False
  end.
Lemma arel_objects m tas args : Forall2 (arel m) tas args -> Forall2 (orel m) (t_objects VT V tas) (dobjects VT V args).
Proof. induction 1 as [|[o|v] [d x|w] tas args A F IH]; cbn in *; try contradiction; [constructor|constructor; assumption|exact IH]. Qed.
Lemma arel_template m tas args : Forall2 (arel m) tas args -> t_template VT V tas = dtemplate VT V args.
Proof. induction 1 as [|[o|v] [d x|w] tas args A F IH]; cbn in *; try contradiction; [reflexivity|f_equal; exact IH|subst; f_equal; exact IH]. Qed.
Lemma arel_places m tas args : Forall2 (arel m) tas args ->
  map (fun a : tobj + V => match a with inl (d, _) => Some d | inr _ => None end) tas = map (fun a => match a with OnDevice _ _ d _ => Some d | Value _ _ _ => None end) args.
Proof. induction 1 as [|[[d' [q t]]|v] [d x|w] tas args A F IH]; cbn in *; try contradiction; [reflexivity| |f_equal; exact IH]. destruct A as (A & _). cbn in A. rewrite A, IH. reflexivity. Qed.
Lemma orel_nth m env tenv i p : Forall2 (orel m) tenv env -> nth_error env i = Some p -> exists o, nth_error tenv i = Some o /\ orel m o p.
Proof. intros F. revert i. induction F as [|o q tenv env A F IH]; intros [|i] H; try discriminate H; [injection H as <-; exists o; auto|exact (IH i H)]. Qed.
Lemma resolve_args m env tenv args dargs : Forall2 (orel m) tenv env -> mapO (dresolve VT V env) args = Some dargs ->
  exists tas, mapO (t_resolve VT V tenv) args = Some tas /\ Forall2 (arel m) tas dargs.
Proof.
  intros F. revert dargs. induction args as [|a args IH]; intros dargs H; cbn [mapO] in *; [injection H as <-; exists []; split; [reflexivity|constructor]|].
  destruct (dresolve VT V env a) as [d|] eqn:Ea; [|discriminate H]. destruct (mapO (dresolve VT V env) args) as [ds|]; [|discriminate H]. injection H as <-.
  destruct (IH ds eq_refl) as (tas & -> & G). destruct a as [i|v]; cbn in *.
  - destruct (nth_error env i) as [[dn x]|] eqn:En; [|discriminate Ea]. injection Ea as <-. destruct (orel_nth _ _ _ _ _ F En) as (o & -> & A). cbn. exists (inl o :: tas). split; [reflexivity|]. constructor; [exact A|exact G].
  - injection Ea as <-. exists (inr v :: tas). split; [reflexivity|]. constructor; [reflexivity|exact G].
Qed.
Lemma outs_rel m l (ws : list mpval) (ys : list object) types d p : length m + 0 = l -> length ys = length types -> length ws = length types ->
  (forall j y, nth_error ys j = Some y -> exists w, nth_error ws j = Some w /\ forall r, snd y r = w r) ->
  (forall j y, nth_error ys j = Some y -> exists t, nth_error types j = Some t /\ fst y = MP _ t p) ->
  Forall2 (orel (m ++ ws)) (map (fun j => (d, (l + fst j, snd j))) (combine (seq 0 (length types)) types)) (map (pair d) ys).
Proof.
  intros Ll Ly Lw Hw Ht.
  assert (K : forall b tys ys', (forall j y, nth_error ys' j = Some y -> nth_error ys (b + j) = Some y) -> (forall j t, nth_error tys j = Some t -> nth_error types (b + j) = Some t) -> length ys' = length tys ->
    Forall2 (orel (m ++ ws)) (map (fun j => (d, (l + fst j, snd j))) (combine (seq b (length tys)) tys)) (map (pair d) ys')).
  { intros b tys. revert b. induction tys as [|t tys IH]; intros b [|y ys'] Hy Hty L; cbn in *; try discriminate L; constructor.
    - split; [reflexivity|]. pose proof (Hy 0 y eq_refl) as Y. pose proof (Hty 0 t eq_refl) as T. rewrite Nat.add_0_r in Y, T.
      destruct (Hw b y Y) as (w & Ew & A). destruct (Ht b y Y) as (t' & Et & Ef). cbn. split.
      + exists w. split; [|exact A]. etransitivity; [apply nth_error_app2; lia|]. replace (l + b - length m) with b by lia. exact Ew.
      + rewrite Ef. cbn. congruence.
    - apply IH; [intros j z Hz; rewrite Nat.add_succ_comm; exact (Hy (S j) z Hz)|intros j z Hz; rewrite Nat.add_succ_comm; exact (Hty (S j) z Hz)|lia]. }
  apply K; auto.
Qed.

Lemma run_on_reach m st d f types args ys st' tst k tas : run_on st d f types args = Some (ys, st') -> srel m tst st -> length m = k -> Forall2 (arel m) tas args ->
  exists ops more tst', t_run_on tst k d f types tas = Some (ops, more, tst') /\
    reach ops m (fun m' => Forall2 (orel m') more (map (pair d) ys) /\ srel m' tst' st').
Proof.
  unfold DevProgModel.run_on, DevTraceModel.t_run_on. intros H R Lm F. destruct (cluster d) as [dev|] eqn:Cd; [|discriminate H].
  assert (dv_kind dev = SPU -> False) as NS by (intros K; destruct (Hkinds _ _ Cd); congruence).
  assert (match moves st d (dobjects VT V args) with
          | None => None
          | Some (xs, st) => match dv_members dev with
              | [r] => match pcall [r] (Local VT V types (fun vs k => match all_some vs with Some vs => nth_error (f (fill V (dtemplate VT V args) vs)) k | None => None end)) xs with Some ys => Some (ys, st) | None => None end
              | _ => None end end = Some (ys, st')) as H'.
  { destruct (Hkinds _ _ Cd) as [K|K]; rewrite K in H; exact H. }
  clear H. rename H' into H. destruct (moves st d (dobjects VT V args)) as [[xs st1]|] eqn:Em; [|discriminate H].
  destruct (dv_members dev) as [|r [|]]; try discriminate H.
  destruct (moves_reach _ _ _ _ _ _ _ _ _ Em R Lm (arel_objects _ _ _ F)) as (ops & qs & tst' & Et & Lo & Re).
  set (loc := Local VT V types _) in H. destruct (pcall [r] loc xs) as [zs|] eqn:Ep; [|discriminate H]. injection H as <- <-.
  exists (ops ++ [PCallStatic VT V [r] qs loc]), (map (fun j => (d, (k + length ops + fst j, snd j))) (combine (seq 0 (length types)) types)), tst'.
  split. { destruct (Hkinds _ _ Cd) as [K|K]; rewrite K, Et, (arel_template _ _ _ F); reflexivity. }
  apply reach_app. eapply reach_weaken; [exact Re|]. intros m1 L1 G1 (B1 & B2) L1' _.
  destruct (pcall_means r loc xs zs m1 qs Ep B1) as (ws & Hm & Lw & Ly & N). destruct (pcall_sound _ _ _ _ _ Ep) as [_ P].
  eapply reach_cons; [exact Hm|exact Lw|]. apply reach_nil. split; [|exact (srel_grows _ _ _ _ (fun q x => at_app m1 ws q x) B2)].
  eapply (outs_rel m1 (k + length ops) ws zs types d (Some [r])); [lia|exact Ly|exact Lw|exact N|].
  intros j y Hy. destruct (P j y Hy) as (t & Et' & Ef & _). exists t. split; [exact Et'|exact Ef].
Qed.

Lemma stmt_reach m st env s more st' tst k tenv : run_stmt st env s = Some (more, st') -> srel m tst st -> length m = k -> Forall2 (orel m) tenv env ->
  exists ops tmore tst', t_stmt tst k tenv s = Some (ops, tmore, tst') /\
    reach ops m (fun m' => Forall2 (orel m') tmore more /\ srel m' tst' st').
Proof.
  intros H R Lm F. destruct s as [d v|d i|d f types args]; cbn [DevProgModel.run_stmt DevTraceModel.t_stmt] in *.
  - destruct (cluster d) as [dev|] eqn:Cd; [|discriminate H].
    assert (match dv_members dev with [r] => option_map (fun y => ([(d, y)], st)) (pcall1 [r] (const VT V (typ v) v) []) | _ => None end = Some (more, st')) as H'.
    { destruct (Hkinds _ _ Cd) as [K|K]; rewrite K in H; exact H. }
    clear H. rename H' into H. destruct (dv_members dev) as [|r [|]]; try discriminate H. destruct (pcall1 [r] (const VT V (typ v) v) []) as [y|] eqn:Ep; [|discriminate H]. injection H as <- <-.
    exists [PCallStatic VT V [r] [] (const VT V (typ v) v)], [(d, (k, typ v))], tst. split; [destruct (Hkinds _ _ Cd) as [K|K]; rewrite K; reflexivity|].
    unfold const in *. eapply reach_pcall1; [exact Ep|constructor|]. intros m' L' G A. apply reach_nil. split; [|exact (srel_grows _ _ _ _ G R)].
    constructor; [|constructor]. split; [reflexivity|]. cbn. split; [rewrite <- Lm; exact A|]. apply pcall1_sound in Ep. rewrite (proj1 Ep). reflexivity.
  - destruct (nth_error env i) as [[dn x]|] eqn:En; [|discriminate H]. destruct (cluster d) as [dev|]; [|discriminate H].
    destruct (orel_nth _ _ _ _ _ F En) as ([d' [q t]] & Eo & (A & B & C)). cbn in A, B, C. subst d' t. rewrite Eo.
    destruct (move st d (dn, x)) as [[y st1]|] eqn:Em; [|discriminate H]. injection H as <- <-.
    destruct (move_reach _ _ _ _ _ _ _ _ _ _ Em R Lm B) as (T & ops & q1 & tst1 & E1 & _ & R1). rewrite E1. eexists _, _, _. split; [reflexivity|].
    eapply reach_weaken; [exact R1|]. intros m' _ _ (B1 & B2). split; [|exact B2]. constructor; [|constructor]. split; [reflexivity|]. cbn. split; [exact B1|symmetry; exact T].
  - destruct (mapO (dresolve VT V env) args) as [dargs|] eqn:Ea; [|discriminate H]. destruct (resolve_args _ _ _ _ _ F Ea) as (tas & Et & G). rewrite Et, (arel_places _ _ _ G).
    match type of H with match ?e with _ => _ end = _ => destruct e as [dn|]; [|discriminate H] end.
    unfold on in H. destruct (run_on st dn f types dargs) as [[ys st1]|] eqn:Er; [|discriminate H]. injection H as <- <-.
    exact (run_on_reach _ _ _ _ _ _ _ _ _ _ _ Er R Lm G).
Qed.

Lemma prog_reach p : forall m st env out tst k tenv, run_prog st env p = Some out -> srel m tst st -> length m = k -> Forall2 (orel m) tenv env ->
  exists ops touts, t_prog tst k tenv p = Some (ops, touts) /\ reach ops m (fun m' => Forall2 (orel m') touts out).
Proof.
  induction p as [|s p IH]; intros m st env out tst k tenv H R Lm F; cbn [DevProgModel.run_prog DevTraceModel.t_prog] in *.
  { injection H as <-. exists [], tenv. split; [reflexivity|]. apply reach_nil. exact F. }
  destruct (run_stmt st env s) as [[more st1]|] eqn:Es; [|discriminate H].
  destruct (stmt_reach _ _ _ _ _ _ _ _ _ Es R Lm F) as (ops & tmore & tst1 & Et & Re). rewrite Et.
  destruct Re as (l & S1 & Ll & B1 & B2).
  destruct (IH (m ++ l) st1 (env ++ more) out tst1 (k + taken ops) (tenv ++ tmore) H B2) as (ops2 & touts & Et2 & R2).
  { rewrite app_length. lia. }
  { apply Forall2_app; [exact (orels_grow _ _ _ _ (fun q x => at_app m l q x) F)|exact B1]. }
  rewrite Et2. exists (ops ++ ops2), touts. split; [reflexivity|]. destruct R2 as (l2 & S2 & Ll2 & B3).
  exists (l ++ l2). rewrite app_assoc, app_length, taken_app. split; [exact (steps_app _ _ _ _ _ S1 S2)|]. split; [lia|exact B3].
Qed.

Lemma build_means ops outs m m' ws : steps ops m m' -> pick m' outs ws -> means truthy n (build VT V ops outs) m (Done ws).
Proof. revert m. induction ops as [|o ops IH]; intros m S P; cbn in *; [subst; constructor; exact P|]. destruct S as (vs & H & S). econstructor; [exact H|]. exact (IH _ S P). Qed.

Lemma trace_means p out : DevProgModel.run VT V vt_eqb n share_t key_t make_shares reconstruct encrypt decrypt pub hkdf quote attest derive code compile joint is_share typ cluster draw left p = Some out ->
  exists g ws, trace VT V key_t encrypt decrypt pub hkdf quote attest derive typ cluster draw p = Some g /\ means truthy n g [] (Done ws) /\
    forall r, at_party r ws = map (fun o : string * object => snd (snd o) r) out.
Proof.
  intros H. destruct (prog_reach p [] _ [] out (TState [] 0) 0 [] H ltac:(split; [reflexivity|constructor]) eq_refl ltac:(constructor)) as (ops & touts & Et & l & S & L & F).
  unfold trace. rewrite Et. cbn. destruct (at_pick ([] ++ l) (map (fun o : tobj => fst (snd o)) touts) (map snd out)) as (ws & P & A).
  { clear -F. induction F as [|o q os qs (A & B & C) F IH]; cbn; constructor; assumption. }
  eexists _, ws. split; [reflexivity|]. split; [exact (build_means _ _ _ _ _ S P)|]. intros r. rewrite (A r), map_map. reflexivity.
Qed.
End P.
