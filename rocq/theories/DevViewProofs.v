(** Proofs for what is seen of a program of device calls. *)
From Coq Require Import Bool Arith String List Lia.
From Verif Require Import SimpModel SimpProofs SimpProofs2 DeviceModel DeviceSpec DeviceProofs SpuRunModel SpuRunSpec DevProgModel DevProgSpec DevViewModel DevViewSpec.
Import ListNotations.
Local Open Scope nat_scope.

Section P.
Context {VT V code : Type}.
Variable vt_eqb : VT -> VT -> bool.
Variable n : nat.
Variables (share_t key_t : VT).
Variables (make_shares : V -> nat -> list V) (reconstruct : list V -> V)
          (encrypt decrypt : V -> V -> V) (pub hkdf quote attest : V -> V) (derive : V -> V -> V).
Variable compile : nat -> (list V -> list V) -> option (code * nat).
Variable joint : code -> list (list V) -> option (list (list V)).
Variable is_share : V -> bool.
Variable typ : V -> VT.
Variable cluster : string -> option device.
Variable draw : nat -> V * V.
Variable left : nat -> runtimes V.
Hypothesis Hconst : forall v c k, compile 0 (fun _ => [v]) = Some (c, k) -> k = 1.
Variable r : nat.
Notation object := (object VT V).
Notation state := (state VT V).
Notation transfer := (d2d VT V vt_eqb n share_t key_t make_shares reconstruct encrypt decrypt pub hkdf quote attest derive).
Notation ensure := (ensure VT V n key_t pub hkdf quote attest derive draw).
Notation move := (DevProgModel.move VT V vt_eqb n share_t key_t make_shares reconstruct encrypt decrypt pub hkdf quote attest derive cluster draw).
Notation moves := (DevProgModel.moves VT V vt_eqb n share_t key_t make_shares reconstruct encrypt decrypt pub hkdf quote attest derive cluster draw).
Notation run_on := (DevProgModel.run_on VT V vt_eqb n share_t key_t make_shares reconstruct encrypt decrypt pub hkdf quote attest derive code compile joint is_share cluster draw left).
Notation run_stmt := (DevProgModel.run_stmt VT V vt_eqb n share_t key_t make_shares reconstruct encrypt decrypt pub hkdf quote attest derive code compile joint is_share typ cluster draw left).
Notation run_prog := (DevProgModel.run_prog VT V vt_eqb n share_t key_t make_shares reconstruct encrypt decrypt pub hkdf quote attest derive code compile joint is_share typ cluster draw left).
Notation spu_run := (device_run VT V vt_eqb n share_t key_t make_shares reconstruct encrypt decrypt pub hkdf quote attest derive code compile joint is_share).
Notation ensure_log := (DevViewModel.ensure_log VT V n key_t pub hkdf quote attest derive draw).
Notation move_log := (DevViewModel.move_log VT V vt_eqb n share_t key_t make_shares reconstruct encrypt decrypt pub hkdf quote attest derive cluster draw).
Notation moves_log := (DevViewModel.moves_log VT V vt_eqb n share_t key_t make_shares reconstruct encrypt decrypt pub hkdf quote attest derive cluster draw).
Notation run_on_log := (DevViewModel.run_on_log VT V vt_eqb n share_t key_t make_shares reconstruct encrypt decrypt pub hkdf quote attest derive code compile joint is_share cluster draw left).
Notation stmt_log := (DevViewModel.stmt_log VT V vt_eqb n share_t key_t make_shares reconstruct encrypt decrypt pub hkdf quote attest derive code compile joint is_share typ cluster draw left).
Notation prog_log := (DevViewModel.prog_log VT V vt_eqb n share_t key_t make_shares reconstruct encrypt decrypt pub hkdf quote attest derive code compile joint is_share typ cluster draw left).
Notation prog_widths := (DevViewModel.prog_widths VT V vt_eqb n share_t key_t make_shares reconstruct encrypt decrypt pub hkdf quote attest derive code compile joint is_share typ cluster draw left).

Definition hidden (d : string) : Prop := forall dev, cluster d = Some dev -> ~ In r (dv_members dev).

Lemma view_none (l : list object) : (forall x, In x l -> snd x r = None) -> view r l = [].
Proof. induction l as [|x l IH]; intros H; [reflexivity|]. unfold view in *. cbn. rewrite (H x (or_introl eq_refl)). apply IH. intros y Hy. apply H. right. exact Hy. Qed.
Lemma view_app (l m : list object) : view r (l ++ m) = view r l ++ view r m.
Proof. apply flat_map_app. Qed.
Lemma steps_none tr P : steps_at (VT:=VT) (V:=V) tr P -> ~ In r P -> view r (map obj_of tr) = [].
Proof. intros S N. apply view_none. intros x Hx. apply in_map_iff in Hx. destruct Hx as (z & <- & Hz). exact (S z Hz r N). Qed.

Lemma transfer_none from to_ c tsk vsk x : ~ In r (dv_members from) -> ~ In r (dv_members to_) -> view r (steps_of VT V (transfer from to_ c tsk vsk x)) = [].
Proof.
  intros A B. unfold steps_of. destruct (transfer from to_ c tsk vsk x) as [[y tr]|] eqn:E; [|reflexivity]. apply d2d_confined in E. destruct E as [E _].
  apply (steps_none _ _ E). rewrite in_app_iff. tauto.
Qed.

Lemma move_state st to_ d x x' y y' s s' : move st to_ (d, x) = Some (y, s) -> move st to_ (d, x') = Some (y', s') -> s = s'.
Proof.
  unfold DevProgModel.move. cbn [fst snd]. destruct (draw 0) as [tsk vsk]. destruct (String.eqb d to_); [congruence|]. destruct (cluster d) as [from|]; [|discriminate]. destruct (cluster to_) as [dest|]; [|discriminate].
  assert (P : forall c, match transfer from dest c tsk vsk x with Some (y0, _) => Some (y0, st) | None => None end = Some (y, s) -> match transfer from dest c tsk vsk x' with Some (y0, _) => Some (y0, st) | None => None end = Some (y', s') -> s = s').
  { intros c. destruct (transfer from dest c tsk vsk x) as [[]|]; [|discriminate]. destruct (transfer from dest c tsk vsk x') as [[]|]; [|discriminate]. congruence. }
  assert (Q : forall a b, match ensure st a b with Some (ss, st') => match transfer from dest (Some ss) tsk vsk x with Some (y0, _) => Some (y0, st') | None => None end | None => None end = Some (y, s) ->
              match ensure st a b with Some (ss, st') => match transfer from dest (Some ss) tsk vsk x' with Some (y0, _) => Some (y0, st') | None => None end | None => None end = Some (y', s') -> s = s').
  { intros a b. destruct (ensure st a b) as [[ss st']|]; [|discriminate]. destruct (transfer from dest (Some ss) tsk vsk x) as [[]|]; [|discriminate]. destruct (transfer from dest (Some ss) tsk vsk x') as [[]|]; [|discriminate]. congruence. }
  destruct (dv_kind from), (dv_kind dest); solve [apply P | apply Q].
Qed.

Lemma ensure_log_none st a b : ~ In r (dv_members a) -> ~ In r (dv_members b) -> view r (ensure_log st a b) = [].
Proof.
  intros A B. unfold DevViewModel.ensure_log. destruct (find _ _); [reflexivity|]. destruct (dv_members a) as [|p [|]]; try reflexivity. destruct (dv_members b) as [|q [|]]; try reflexivity.
  destruct (session _ _ _ _ _ _ _ _ _ _ _ _ _) as [[[sf ss] tr]|] eqn:E; [|reflexivity]. apply (session_steps n key_t make_shares reconstruct encrypt decrypt pub hkdf quote attest derive) in E. apply (steps_none _ _ E). cbn in *. tauto.
Qed.
Lemma move_log_none st to_ d x : hidden d -> hidden to_ -> view r (move_log st to_ (d, x)) = [].
Proof.
  intros Hd Ht. unfold DevViewModel.move_log. cbn [fst snd]. destruct (draw 0) as [tsk vsk]. destruct (String.eqb d to_); [reflexivity|]. destruct (cluster d) as [from|] eqn:C; [|reflexivity]. destruct (cluster to_) as [dest|] eqn:C'; [|reflexivity].
  specialize (Hd _ C). specialize (Ht _ C').
  destruct (dv_kind from), (dv_kind dest); try (apply transfer_none; assumption); rewrite view_app, ensure_log_none by assumption; destruct (ensure _ _ _) as [[ss st']|]; try reflexivity; apply transfer_none; assumption.
Qed.

(** objects of the two runs: on the same device, and equal unless r has no part of either *)
Definition orel (p p' : string * object) : Prop := fst p = fst p' /\ (snd p = snd p' \/ hidden (fst p)).

Lemma move_log_rel st to_ p p' : hidden to_ -> orel p p' -> view r (move_log st to_ p) = view r (move_log st to_ p').
Proof.
  intros Ht [E R]. destruct p as [d x], p' as [d' x']. cbn in E, R. subst d'. destruct R as [->|R]; [reflexivity|]. rewrite !move_log_none by assumption. reflexivity.
Qed.
Lemma moves_rel to_ : hidden to_ -> forall ps ps' st xs xs' s s', Forall2 orel ps ps' -> moves st to_ ps = Some (xs, s) -> moves st to_ ps' = Some (xs', s') ->
  s = s' /\ view r (moves_log st to_ ps) = view r (moves_log st to_ ps').
Proof.
  intros Ht ps ps' st xs xs' s s' F. revert st xs xs' s s'. induction F as [|p p' ps ps' Hp F IH]; intros st xs xs' s s' E E'.
  - cbn in *. split; [congruence|reflexivity].
  - cbn [DevProgModel.moves DevViewModel.moves_log] in *. rewrite !view_app, (move_log_rel st to_ p p' Ht Hp).
    destruct (move st to_ p) as [[y st1]|] eqn:M; [|discriminate E]. destruct (move st to_ p') as [[y' st1']|] eqn:M'; [|discriminate E'].
    assert (st1' = st1) as ->. { destruct Hp as [Ed _]. destruct p as [d x], p' as [d' x']. cbn in Ed. subst d'. symmetry. exact (move_state _ _ _ _ _ _ _ _ _ M M'). }
    destruct (moves st1 to_ ps) as [[ys s1]|] eqn:K; [|discriminate E]. destruct (moves st1 to_ ps') as [[ys' s1']|] eqn:K'; [|discriminate E'].
    injection E as <- <-. injection E' as <- <-. destruct (IH _ _ _ _ _ K K') as [-> ->]. split; reflexivity.
Qed.

(** arguments of the two runs *)
Definition arel (a a' : darg VT V) : Prop :=
  match a, a' with
  | OnDevice _ _ d x, OnDevice _ _ d' x' => orel (d, x) (d', x')
  | Value _ _ v, Value _ _ v' => v = v'
  | _, _ => False
  end.
Lemma arel_objects args args' : Forall2 arel args args' -> Forall2 orel (dobjects VT V args) (dobjects VT V args').
Proof. induction 1 as [|a a' l l' Ha F IH]; [constructor|]. destruct a, a'; try destruct Ha; unfold dobjects in *; cbn; [constructor; [split; assumption|exact IH]|exact IH]. Qed.
Lemma arel_template args args' : Forall2 arel args args' -> dtemplate VT V args = dtemplate VT V args'.
Proof. induction 1 as [|a a' l l' Ha F IH]; [reflexivity|]. unfold dtemplate in *. destruct a, a'; try destruct Ha; cbn; congruence. Qed.
Lemma as_arg_rel args args' : Forall2 arel args args' -> forall sa sa', mapO (as_arg VT V cluster) args = Some sa -> mapO (as_arg VT V cluster) args' = Some sa' ->
  template VT V sa = template VT V sa' /\
  Forall2 (fun p p' => fst p = fst p' /\ (snd p = snd p' \/ ~ In r (dv_members (fst p)))) (objects VT V sa) (objects VT V sa').
Proof.
  induction 1 as [|a a' l l' Ha F IH]; intros sa sa' E E'; [injection E as <-; injection E' as <-; split; constructor|].
  cbn [SimpModel.mapO] in E, E'. destruct (mapO (as_arg VT V cluster) l) as [s|]; [|destruct (as_arg VT V cluster a); discriminate E]. destruct (mapO (as_arg VT V cluster) l') as [s'|]; [|destruct (as_arg VT V cluster a'); discriminate E'].
  destruct (IH _ _ eq_refl eq_refl) as [T O]. destruct a as [d x|v], a' as [d' x'|v']; try (destruct Ha; fail).
  - destruct Ha as [Ed R]. cbn in Ed, R. subst d'. cbn [as_arg] in E, E'. destruct (cluster d) as [dev|] eqn:C; [|discriminate E]. cbn [option_map] in E, E'. injection E as <-. injection E' as <-.
    split; [unfold template in *; cbn; congruence|]. unfold objects in *. cbn. constructor; [|exact O]. split; [reflexivity|]. cbn. destruct R as [R|R]; [left; exact R|right; exact (R _ C)].
  - cbn [arel] in Ha. subst v'. cbn [as_arg] in E, E'. injection E as <-. injection E' as <-. split; [unfold template in *; cbn; congruence|exact O].
Qed.
Lemma resolve_rel (env env' : list (string * object)) : Forall2 orel env env' -> forall rs args args', mapO (dresolve VT V env) rs = Some args -> mapO (dresolve VT V env') rs = Some args' -> Forall2 arel args args'.
Proof.
  intros F. induction rs as [|a rs IH]; intros args args' E E'; [injection E as <-; injection E' as <-; constructor|].
  cbn [SimpModel.mapO] in E, E'. destruct (mapO (dresolve VT V env) rs) as [s|]; [|destruct (dresolve VT V env a); discriminate E]. destruct (mapO (dresolve VT V env') rs) as [s'|]; [|destruct (dresolve VT V env' a); discriminate E'].
  specialize (IH _ _ eq_refl eq_refl). destruct a as [i|v]; cbn [dresolve] in E, E'.
  - destruct (nth_error env i) as [[d x]|] eqn:Ei; [|discriminate E]. destruct (nth_error env' i) as [[d' x']|] eqn:Ei'; [|discriminate E']. injection E as <-. injection E' as <-. constructor; [|exact IH].
    change (orel (d, x) (d', x')). clear -F Ei Ei'. revert i Ei Ei'. induction F as [|q q' qs qs' Hq F IH]; intros [|i] A B; try discriminate A; cbn in *; [injection A as ->; injection B as ->; exact Hq|exact (IH i A B)].
  - injection E as <-. injection E' as <-. constructor; [reflexivity|exact IH].
Qed.

(* ---------------------------------------------------------------- results *)

Lemma exec_outside parties c nin nout st xs vs st' : exec VT V code joint is_share parties c nin nout st xs = Some (vs, st') -> ~ In r parties -> length vs = nout /\ forall v, In v vs -> v r = None.
Proof.
  unfold exec. intros E N. destruct (mapO _ parties) as [rows|]; [|discriminate E]. destruct (negb _); [discriminate E|]. destruct (negb _); [discriminate E|]. destruct (mapO _ parties) as [ins|]; [|discriminate E]. destruct (joint c ins) as [outs|]; [|discriminate E].
  injection E as <- _. split; [rewrite map_length; apply seq_length|]. intros v Hv. apply in_map_iff in Hv. destruct Hv as (j & <- & _). destruct (inb r parties) eqn:I; [|reflexivity]. apply inb_In in I. contradiction.
Qed.
Lemma exec_length parties c nin nout st xs vs st' : exec VT V code joint is_share parties c nin nout st xs = Some (vs, st') -> length vs = nout.
Proof.
  unfold exec. intros E. destruct (mapO _ parties) as [rows|]; [|discriminate E]. destruct (negb _); [discriminate E|]. destruct (negb _); [discriminate E|]. destruct (mapO _ parties) as [ins|]; [|discriminate E]. destruct (joint c ins) as [outs|]; [|discriminate E].
  injection E as <- _. rewrite map_length. apply seq_length.
Qed.
Lemma mapO_length {A B : Type} (f : A -> option B) : forall l ys, mapO f l = Some ys -> length ys = length l.
Proof.
  induction l as [|a l IH]; intros ys E; [injection E as <-; reflexivity|]. cbn [SimpModel.mapO] in E. destruct (f a); [|discriminate E]. destruct (mapO f l) as [bs|]; [|discriminate E]. injection E as <-. cbn. rewrite (IH bs eq_refl). reflexivity.
Qed.
(** what a run on an SPU returns: as many objects as the compiled function has outputs, at the members *)
Lemma spu_outs tsk vsk spu f args st ys st' : spu_run tsk vsk spu f args st = Some (ys, st') ->
  (exists c, compile (length (objects VT V args)) (fun vs => f (fill V (template VT V args) vs)) = Some (c, length ys)) /\
  (~ In r (dv_members spu) -> forall y, In y ys -> snd y r = None).
Proof.
  unfold device_run. intros E. destruct (mapO _ (objects VT V args)) as [xs|] eqn:X; [|discriminate E]. pose proof (mapO_length _ _ _ X) as Lx. destruct (compile _ _) as [[c nout]|] eqn:C; [|discriminate E].
  destruct (type_pcall_static _ _ _ _ _) as [ts|] eqn:T; [|discriminate E]. destruct (exec _ _ _ _ _ _ _ _ _ _ _) as [[vs st2]|] eqn:X'; [|discriminate E]. injection E as <- <-.
  assert (Lt : length ts = nout).
  { unfold type_pcall_static in T. destruct (match deduce_parties VT _ with None => true | Some d => _ end); [|discriminate T]. injection T as <-. cbn [lf_out]. rewrite map_length. apply repeat_length. }
  split.
  - exists c. assert (LE : length (combine ts vs) = nout). { etransitivity; [apply combine_length|]. rewrite Lt, (exec_length _ _ _ _ _ _ _ _ X'). apply Nat.min_id. } fold (object) in LE. 
    match goal with |- compile ?a _ = _ => replace a with (length xs) by exact Lx end. rewrite C. do 2 f_equal. symmetry. exact LE.
  - intros N y Hy. destruct (exec_outside _ _ _ _ _ _ _ _ X') as [_ H].
    + intros C'. apply N. exact (proj1 (norm_In _ _) C').
    + destruct y as [t v]. apply in_combine_r in Hy. exact (H _ Hy).
Qed.

Lemma pcall_outs m (f : local VT V) xs ys : pcall VT V n [m] f xs = Some ys -> length ys = length (lf_out _ _ f) /\ (r <> m -> forall y, In y ys -> snd y r = None).
Proof.
  intros E. split; [exact (proj1 (pcall_sound _ _ _ _ _ E))|]. intros N y Hy. apply (pcall_only _ _ _ _ _ _ E Hy). intros [C|[]]. congruence.
Qed.

Lemma run_on_outs st d f types args ys s : run_on st d f types args = Some (ys, s) -> hidden d -> view r ys = [].
Proof.
  unfold DevProgModel.run_on. intros E H. destruct (cluster d) as [dev|] eqn:C; [|discriminate E]. specialize (H _ C).
  assert (P : forall o : option (list object * state), match o with None => None | Some (xs, st0) =>
      match dv_members dev with [m] => match pcall VT V n [m] (Local VT V types (fun vs k => match all_some vs with Some vs => nth_error (f (fill V (dtemplate VT V args) vs)) k | None => None end)) xs with Some ys => Some (ys, st0) | None => None end | _ => None end end = Some (ys, s) -> view r ys = []).
  { intros [[xs st0]|]; [|discriminate]. destruct (dv_members dev) as [|m [|]]; try discriminate. destruct (pcall _ _ _ _ _ _) as [ys0|] eqn:Ep; [|discriminate]. intros E0. injection E0 as <- _. apply view_none. apply (pcall_outs _ _ _ _ Ep). intros ->. apply H. left. reflexivity. }
  destruct (dv_kind dev); [apply (P _ E)| |apply (P _ E)|discriminate E]. clear P.
  destruct (mapO (as_arg VT V cluster) args) as [sa|]; [|discriminate E]. destruct (draw 0) as [tsk vsk]. destruct (spu_run tsk vsk dev f sa _) as [[ys0 rt]|] eqn:Er; [|discriminate E]. injection E as <- _.
  apply view_none. apply (spu_outs _ _ _ _ _ _ _ _ Er). exact H.
Qed.

Lemma transfers_rel dev tsk vsk (ps ps' : list (device * object)) : ~ In r (dv_members dev) ->
  Forall2 (fun p p' => fst p = fst p' /\ (snd p = snd p' \/ ~ In r (dv_members (fst p)))) ps ps' ->
  view r (flat_map (fun p => steps_of VT V (transfer (fst p) dev None tsk vsk (snd p))) ps) = view r (flat_map (fun p => steps_of VT V (transfer (fst p) dev None tsk vsk (snd p))) ps').
Proof.
  intros Hd O. induction O as [|p p' ps ps' [Ed Hp] O IH]; [reflexivity|]. cbn [flat_map]. rewrite !view_app, IH. f_equal.
  destruct p as [fr x], p' as [fr' x']. cbn [fst snd] in *. subst fr'. destruct Hp as [->|Hp]; [reflexivity|]. rewrite !transfer_none by assumption. reflexivity.
Qed.

(** two runs of the same function on the same device *)
Lemma run_on_rel st d f types args args' ys ys' s s' : hidden d -> Forall2 arel args args' ->
  run_on st d f types args = Some (ys, s) -> run_on st d f types args' = Some (ys', s') ->
  s = s' /\ length ys = length ys' /\ view r (run_on_log st d f types args) = view r (run_on_log st d f types args').
Proof.
  intros Hd F E E'.
  assert (L : s = s' /\ length ys = length ys' /\
    forall m, view r (match cluster d with
       | Some dev => match dv_kind dev with
          | SPU => match mapO (as_arg VT V cluster) args with Some a => flat_map (fun p => let (tsk, vsk) := draw 0 in steps_of VT V (transfer (fst p) dev None tsk vsk (snd p))) (objects VT V a) | None => [] end
          | _ => moves_log st d (dobjects VT V args) end | None => [] end ++ m) =
    view r (match cluster d with
       | Some dev => match dv_kind dev with
          | SPU => match mapO (as_arg VT V cluster) args' with Some a => flat_map (fun p => let (tsk, vsk) := draw 0 in steps_of VT V (transfer (fst p) dev None tsk vsk (snd p))) (objects VT V a) | None => [] end
          | _ => moves_log st d (dobjects VT V args') end | None => [] end ++ m)).
  { unfold DevProgModel.run_on in E, E'. destruct (cluster d) as [dev|] eqn:C; [|discriminate E].
    assert (P : forall g g', match moves st d (dobjects VT V args) with None => None | Some (xs, st0) =>
        match dv_members dev with [m] => match pcall VT V n [m] (Local VT V types g) xs with Some ys => Some (ys, st0) | None => None end | _ => None end end = Some (ys, s) ->
      match moves st d (dobjects VT V args') with None => None | Some (xs, st0) =>
        match dv_members dev with [m] => match pcall VT V n [m] (Local VT V types g') xs with Some ys => Some (ys, st0) | None => None end | _ => None end end = Some (ys', s') ->
      s = s' /\ length ys = length ys' /\ view r (moves_log st d (dobjects VT V args)) = view r (moves_log st d (dobjects VT V args'))).
    { intros g g'. destruct (moves st d (dobjects VT V args)) as [[xs s1]|] eqn:M; [|discriminate]. destruct (moves st d (dobjects VT V args')) as [[xs' s1']|] eqn:M'; [|discriminate].
      destruct (moves_rel d Hd _ _ _ _ _ _ _ (arel_objects _ _ F) M M') as [-> R]. destruct (dv_members dev) as [|m [|]]; try discriminate.
      destruct (pcall VT V n [m] (Local VT V types g) xs) as [z|] eqn:Z; [|discriminate]. destruct (pcall VT V n [m] (Local VT V types g') xs') as [z'|] eqn:Z'; [|discriminate]. intros A B. injection A as <- <-. injection B as <- <-.
      apply pcall_outs in Z. apply pcall_outs in Z'. cbn [lf_out] in *. split; [reflexivity|]. split; [destruct Z, Z'; congruence|exact R]. }
    destruct (dv_kind dev) eqn:K; [destruct (P _ _ E E') as (? & ? & ?)| |destruct (P _ _ E E') as (? & ? & ?)|discriminate E]; try (split; [assumption|split; [assumption|]]; intros m; rewrite !view_app; congruence). clear P.
    destruct (mapO (as_arg VT V cluster) args) as [sa|] eqn:A; [|discriminate E]. destruct (mapO (as_arg VT V cluster) args') as [sa'|] eqn:A'; [|discriminate E'].
    destruct (as_arg_rel _ _ F _ _ A A') as [T O]. destruct (draw 0) as [tsk vsk].
    destruct (spu_run tsk vsk dev f sa _) as [[z rt]|] eqn:R; [|discriminate E]. destruct (spu_run tsk vsk dev f sa' _) as [[z' rt']|] eqn:R'; [|discriminate E']. injection E as <- <-. injection E' as <- <-.
    split; [reflexivity|]. split.
    - destruct (spu_outs _ _ _ _ _ _ _ _ R) as [[c Ec] _]. destruct (spu_outs _ _ _ _ _ _ _ _ R') as [[c' Ec'] _]. rewrite <- T in Ec'.
      assert (LO : length (objects VT V sa) = length (objects VT V sa')) by (clear -O; induction O; cbn; congruence). rewrite <- LO in Ec'. rewrite Ec in Ec'. congruence.
    - intros m. rewrite !view_app. f_equal. exact (transfers_rel dev tsk vsk _ _ (Hd _ C) O). }
  destruct L as (A & B & C). split; [exact A|]. split; [exact B|]. unfold DevViewModel.run_on_log. rewrite E, E', C. rewrite !view_app. f_equal.
  rewrite (run_on_outs _ _ _ _ _ _ _ E Hd), (run_on_outs _ _ _ _ _ _ _ E' Hd). reflexivity.
Qed.

(* ---------------------------------------------------------------- statements *)

Definition run_device (env : list (string * object)) (d : option string) (args : list (darg VT V)) : option string :=
  match d with
  | Some d => Some d
  | None => match infer true (kind_of cluster) (map (fun a => match a with OnDevice _ _ d _ => Some d | Value _ _ _ => None end) args) with Dev d => Some d | _ => None end
  end.

Lemma resolve_places (env : list (string * object)) : forall rs args, mapO (dresolve VT V env) rs = Some args ->
  mapO (fun a => match a with Ref _ i => option_map Some (nth_error (map fst env) i) | Lit _ _ => Some None end) rs = Some (map (fun a => match a with OnDevice _ _ d _ => Some d | Value _ _ _ => None end) args).
Proof.
  induction rs as [|a rs IH]; intros args E; [injection E as <-; reflexivity|]. cbn [SimpModel.mapO] in *. destruct (mapO (dresolve VT V env) rs) as [l|]; [|destruct (dresolve VT V env a); discriminate E]. rewrite (IH _ eq_refl).
  destruct a as [i|v]; cbn [dresolve] in E.
  - rewrite nth_error_map. destruct (nth_error env i) as [[d x]|]; [|discriminate E]. injection E as <-. reflexivity.
  - injection E as <-. reflexivity.
Qed.

Lemma on_out d o more st' : on VT V d o = Some (more, st') -> exists ys, o = Some (ys, st') /\ more = map (pair d) ys.
Proof. destruct o as [[ys s]|]; [|discriminate]. cbn. intros E. injection E as <- <-. eauto. Qed.
Lemma fst_pairs {A : Type} (d : string) (l : list A) : map fst (map (pair d) l) = repeat d (length l).
Proof. induction l as [|a l IH]; [reflexivity|]. cbn. f_equal. exact IH. Qed.

Lemma target_ok st env s more st' : run_stmt st env s = Some (more, st') -> exists d, target cluster (map fst env) s = Some d /\ map fst more = repeat d (length more).
Proof.
  intros E. destruct s as [d v|d i|d f types rs]; unfold DevProgModel.run_stmt in E.
  - exists d. split; [reflexivity|]. destruct (cluster d) as [dev|]; [|discriminate E].
    assert (P : match dv_members dev with [m] => option_map (fun y => ([(d, y)], st)) (pcall1 VT V n [m] (const VT V (typ v) v) []) | _ => None end = Some (more, st') -> map fst more = repeat d (length more)).
    { destruct (dv_members dev) as [|m [|]]; try discriminate. destruct (pcall1 _ _ _ _ _ _); [|discriminate]. intros X. injection X as <- _. reflexivity. }
    destruct (dv_kind dev); [exact (P E)| |exact (P E)|discriminate E]. apply on_out in E. destruct E as (ys & _ & ->). rewrite map_length. apply fst_pairs.
  - exists d. split; [reflexivity|]. destruct (nth_error env i) as [p|]; [|discriminate E]. destruct (cluster d); [|discriminate E]. destruct (move st d p) as [[y s]|]; [|discriminate E]. injection E as <- _. reflexivity.
  - destruct (mapO (dresolve VT V env) rs) as [args|] eqn:A; [|discriminate E]. cbn [target]. rewrite (resolve_places _ _ _ A). unfold chosen.
    change (fun d0 => option_map dv_kind (cluster d0)) with (kind_of cluster).
    match type of E with match ?o with _ => _ end = _ => destruct o as [d'|] eqn:D; [|discriminate E] end. exists d'. split; [reflexivity|].
    apply on_out in E. destruct E as (ys & _ & ->). rewrite map_length. apply fst_pairs.
Qed.

(** the objects of the two runs and the marks *)
Definition rel (objs : list (string * bool)) (env env' : list (string * object)) : Prop :=
  map fst env = map fst objs /\ map fst env' = map fst objs /\
  forall j d, nth_error objs j = Some (d, false) -> nth_error env j = nth_error env' j.
Definition marked_hidden (objs : list (string * bool)) : Prop := forall j d, nth_error objs j = Some (d, true) -> hidden d.

Lemma rel_orel : forall objs env env', rel objs env env' -> marked_hidden objs -> Forall2 orel env env'.
Proof.
  induction objs as [|[d b] objs IH]; intros [|[e x] env] [|[e' x'] env'] (A & B & C) H; try discriminate A; try discriminate B; [constructor|].
  cbn in A, B. injection A as -> A. injection B as -> B. constructor.
  - split; [reflexivity|]. cbn. destruct b; [right; exact (H 0 d eq_refl)|]. left. specialize (C 0 d eq_refl). cbn in C. congruence.
  - apply IH; [|intros j d' Hj; exact (H (S j) d' Hj)]. split; [exact A|]. split; [exact B|]. intros j d' Hj. exact (C (S j) d' Hj).
Qed.
Definition used_mark (objs : list (string * bool)) (s : stmt VT V) : bool := existsb (fun j => match nth_error objs j with Some (_, b) => b | None => false end) (uses s).
Lemma unmarked_same objs env env' s : rel objs env env' -> used_mark objs s = false -> forall j, In j (uses s) -> nth_error env j = nth_error env' j.
Proof.
  intros (A & B & C) U j Hj. destruct (nth_error objs j) as [[d b]|] eqn:E.
  - destruct b; [|exact (C j d E)]. exfalso. unfold used_mark in U. rewrite (proj2 (existsb_exists _ _)) in U; [discriminate U|]. exists j. split; [exact Hj|]. rewrite E. reflexivity.
  - apply nth_error_None in E. assert (length env = length objs) by (rewrite <- (map_length fst env), A; apply map_length). assert (length env' = length objs) by (rewrite <- (map_length fst env'), B; apply map_length).
    transitivity (@None (string * object)); [|symmetry]; apply nth_error_None; lia.
Qed.
Lemma resolve_same (env env' : list (string * object)) : forall rs, (forall j, In j (refs rs) -> nth_error env j = nth_error env' j) -> mapO (dresolve VT V env) rs = mapO (dresolve VT V env') rs.
Proof.
  induction rs as [|[i|v] rs IH]; intros H; [reflexivity| |]; cbn [SimpModel.mapO dresolve].
  - rewrite (H i (or_introl eq_refl)), IH; [reflexivity|]. intros j Hj. apply H. right. exact Hj.
  - rewrite IH; [reflexivity|exact H].
Qed.
Lemma stmt_same st env env' s : (forall j, In j (uses s) -> nth_error env j = nth_error env' j) -> run_stmt st env s = run_stmt st env' s /\ stmt_log st env s = stmt_log st env' s.
Proof.
  destruct s as [d v|d i|d f types rs]; cbn [uses]; intros H.
  - split; reflexivity.
  - unfold DevProgModel.run_stmt, DevViewModel.stmt_log. rewrite (H i (or_introl eq_refl)). split; reflexivity.
  - unfold DevProgModel.run_stmt, DevViewModel.stmt_log. rewrite (resolve_same env env' rs H). split; reflexivity.
Qed.

Lemma stmt_marked st env env' s s' more more' t t' d : Forall2 orel env env' -> target cluster (map fst env) s = Some d -> hidden d ->
  (s = s' \/ exists d v v', s = PutValue VT V d v /\ s' = PutValue VT V d v') ->
  run_stmt st env s = Some (more, t) -> run_stmt st env' s' = Some (more', t') ->
  t = t' /\ length more = length more' /\ view r (stmt_log st env s) = view r (stmt_log st env' s').
Proof.
  intros F Td Hd S E E'.
  assert (PV : forall v v', s = PutValue VT V d v -> s' = PutValue VT V d v' -> t = t' /\ length more = length more' /\ view r (stmt_log st env s) = view r (stmt_log st env' s')).
  { intros v v' -> ->. unfold DevProgModel.run_stmt in E, E'. unfold DevViewModel.stmt_log, DevProgModel.run_stmt, kind_of. destruct (cluster d) as [dev|] eqn:C; [|discriminate E]. cbn [option_map].
    assert (P : match dv_members dev with [m] => option_map (fun y => ([(d, y)], st)) (pcall1 VT V n [m] (const VT V (typ v) v) []) | _ => None end = Some (more, t) ->
                match dv_members dev with [m] => option_map (fun y => ([(d, y)], st)) (pcall1 VT V n [m] (const VT V (typ v') v') []) | _ => None end = Some (more', t') ->
      t = t' /\ length more = length more' /\ view r (map snd more) = view r (map snd more')).
    { specialize (Hd _ C). destruct (dv_members dev) as [|m [|]]; try discriminate. unfold const. destruct (pcall1 VT V n [m] (Local VT V [typ v] (fun _ _ => Some v)) []) as [y|] eqn:Y; [|discriminate]. destruct (pcall1 VT V n [m] (Local VT V [typ v'] (fun _ _ => Some v')) []) as [y'|] eqn:Y'; [|discriminate].
      intros A B. injection A as <- <-. injection B as <- <-. split; [reflexivity|]. split; [reflexivity|]. apply pcall1_only in Y. apply pcall1_only in Y'. cbn. rewrite (Y r Hd), (Y' r Hd). reflexivity. }
    destruct (dv_kind dev) eqn:K; [| | |discriminate E].
    - destruct (P E E') as (? & ? & ?). rewrite E, E'. auto.
    - clear P. pose proof E as E0. pose proof E' as E0'. apply on_out in E. destruct E as (ys & R & ->). apply on_out in E'. destruct E' as (ys' & R' & ->).
      unfold DevViewModel.run_on_log. rewrite R, R'. rewrite !view_app, (run_on_outs _ _ _ _ _ _ _ R Hd), (run_on_outs _ _ _ _ _ _ _ R' Hd). rewrite C, K.
      unfold DevProgModel.run_on in R, R'. rewrite C, K in R, R'. cbn [SimpModel.mapO as_arg] in *. destruct (draw 0) as [tsk vsk].
      destruct (spu_run tsk vsk dev _ [Const VT V v] _) as [[z rt]|] eqn:Z; [|discriminate R]. destruct (spu_run tsk vsk dev _ [Const VT V v'] _) as [[z' rt']|] eqn:Z'; [|discriminate R']. injection R as <- <-. injection R' as <- <-.
      destruct (spu_outs _ _ _ _ _ _ _ _ Z) as [[c Ec] _]. destruct (spu_outs _ _ _ _ _ _ _ _ Z') as [[c' Ec'] _]. rewrite !map_length. split; [reflexivity|]. split; [|reflexivity].
      rewrite (Hconst v c _ Ec), (Hconst v' c' _ Ec'). reflexivity.
    - destruct (P E E') as (? & ? & ?). rewrite E, E'. auto. }
  destruct S as [<-|(d0 & v & v' & -> & ->)]; [|cbn [target] in Td; injection Td as ->; exact (PV v v' eq_refl eq_refl)].
  destruct s as [d0 v|d0 i|d0 f types rs].
  - cbn [target] in Td. injection Td as ->. exact (PV v v eq_refl eq_refl).
  - clear PV. cbn [target] in Td. injection Td as ->. unfold DevProgModel.run_stmt in E, E'. unfold DevViewModel.stmt_log.
    destruct (nth_error env i) as [p|] eqn:Ei; [|discriminate E]. destruct (nth_error env' i) as [p'|] eqn:Ei'; [|discriminate E'].
    assert (O : orel p p'). { clear -F Ei Ei'. revert i Ei Ei'. induction F as [|q q' qs qs' Hq F IH]; intros [|i] A B; try discriminate A; cbn in *; [injection A as <-; injection B as <-; exact Hq|exact (IH i A B)]. }
    destruct (cluster d) as [dev|]; [|discriminate E]. destruct (move st d p) as [[y u]|] eqn:M; [|discriminate E]. destruct (move st d p') as [[y' u']|] eqn:M'; [|discriminate E']. injection E as <- <-. injection E' as <- <-.
    split; [|split; [reflexivity|exact (move_log_rel st d p p' Hd O)]]. destruct O as [Ed _]. destruct p as [e x], p' as [e' x']. cbn in Ed. subst e'. exact (move_state _ _ _ _ _ _ _ _ _ M M').
  - clear PV. unfold DevProgModel.run_stmt in E, E'. unfold DevViewModel.stmt_log.
    destruct (mapO (dresolve VT V env) rs) as [args|] eqn:A; [|discriminate E]. destruct (mapO (dresolve VT V env') rs) as [args'|] eqn:A'; [|discriminate E'].
    cbn [target] in Td. rewrite (resolve_places _ _ _ A) in Td. unfold chosen in Td. change (fun d0 => option_map dv_kind (cluster d0)) with (kind_of cluster) in Td.
    assert (SP : map (fun a : darg VT V => match a with OnDevice _ _ d _ => Some d | Value _ _ _ => None end) args = map (fun a : darg VT V => match a with OnDevice _ _ d _ => Some d | Value _ _ _ => None end) args').
    { pose proof (resolve_rel _ _ F _ _ _ A A') as R. clear -R. induction R as [|a a' l l' Ha R IH]; [reflexivity|]. cbn. rewrite IH. f_equal. destruct a, a'; try destruct Ha; cbn in *; congruence. }
    rewrite <- SP in E' |- *. rewrite Td in *. apply on_out in E. destruct E as (ys & R & ->). apply on_out in E'. destruct E' as (ys' & R' & ->).
    destruct (run_on_rel st d f types args args' ys ys' t t' Hd (resolve_rel _ _ F _ _ _ A A') R R') as (? & ? & ?). rewrite !map_length. auto.
Qed.

Lemma rel_app objs env env' d m (more more' : list (string * object)) w : rel objs env env' -> map fst more = repeat d w -> map fst more' = repeat d w -> (m = false -> more = more') ->
  rel (objs ++ repeat (d, m) w) (env ++ more) (env' ++ more').
Proof.
  intros (A & B & C) Hm Hm' Hs. assert (R : map fst (repeat (d, m) w) = repeat d w) by (clear; induction w; cbn; congruence).
  assert (L : length env = length objs) by (rewrite <- (map_length fst env), A; apply map_length). assert (L' : length env' = length objs) by (rewrite <- (map_length fst env'), B; apply map_length).
  split; [rewrite !map_app, R, A, Hm; reflexivity|]. split; [rewrite !map_app, R, B, Hm'; reflexivity|]. intros j e Hj. destruct (Nat.lt_ge_cases j (length objs)) as [Lj|Lj].
  - rewrite nth_error_app1 in Hj by exact Lj. etransitivity; [apply nth_error_app1; lia|]. etransitivity; [exact (C j e Hj)|]. symmetry. apply nth_error_app1. lia.
  - rewrite nth_error_app2 in Hj by exact Lj. apply nth_error_In in Hj. apply repeat_spec in Hj. injection Hj as <- <-. rewrite (Hs eq_refl).
    etransitivity; [apply nth_error_app2; lia|]. symmetry. etransitivity; [apply nth_error_app2; lia|]. rewrite L, L'. reflexivity.
Qed.

Lemma prog_view : forall p p' secret objs st env env' out out',
  same_but_secrets secret p p' -> rel objs env env' -> marked_hidden objs ->
  run_prog st env p = Some out -> run_prog st env' p' = Some out' ->
  (forall d, In d (snd (follow cluster secret objs p (prog_widths st env p))) -> hidden d) ->
  prog_widths st env p = prog_widths st env' p' /\ view r (prog_log st env p) = view r (prog_log st env' p') /\
  rel (fst (follow cluster secret objs p (prog_widths st env p))) out out'.
Proof.
  induction p as [|s p IH]; intros [|s' p'] secret objs st env env' out out' [Lp HS] R H E E' D; try discriminate Lp.
  - cbn in *. injection E as <-. injection E' as <-. auto.
  - cbn [DevProgModel.run_prog DevViewModel.prog_log DevViewModel.prog_widths] in *.
    destruct (run_stmt st env s) as [[more t]|] eqn:X; [|discriminate E]. destruct (run_stmt st env' s') as [[more' t']|] eqn:X'; [|discriminate E'].
    destruct (target_ok _ _ _ _ _ X) as (d & Td & Fm). destruct (target_ok _ _ _ _ _ X') as (d' & Td' & Fm').
    assert (S0 : s = s' \/ secret 0 = true /\ exists d v v', s = PutValue VT V d v /\ s' = PutValue VT V d v') by exact (HS 0 s s' eq_refl eq_refl).
    assert (SS : same_but_secrets (fun i => secret (S i)) p p'). { split; [cbn in Lp; congruence|]. intros i a a' Ha Ha'. exact (HS (Datatypes.S i) a a' Ha Ha'). }
    cbn [follow] in D |- *. destruct R as (RA & RB & RC). rewrite <- RA in D |- *. rewrite Td in D |- *. fold (used_mark objs s) in D |- *.
    assert (d' = d) as ->. { rewrite RB, <- RA in Td'. destruct S0 as [<-|(_ & e & v & v' & -> & ->)]; [congruence|]. cbn in *. congruence. }
    set (m := secret 0 || used_mark objs s) in *.
    destruct (follow cluster (fun i => secret (Datatypes.S i)) (objs ++ repeat (d, m) (length more)) p (prog_widths t (env ++ more) p)) as [all reached] eqn:FO. cbn [fst snd] in *.
    assert (K : t = t' /\ length more = length more' /\ (m = false -> more = more') /\ view r (stmt_log st env s) = view r (stmt_log st env' s')).
    { destruct m eqn:Em.
      - destruct (stmt_marked st env env' s s' more more' t t' d) as (? & ? & ?); auto.
        + apply (rel_orel objs); [split; [exact RA|split; [exact RB|exact RC]]|exact H].
        + apply D. left. reflexivity.
        + destruct S0 as [?|[_ ?]]; auto.
        + split; [assumption|]. split; [assumption|]. split; [discriminate|assumption].
      - unfold m in Em. apply orb_false_iff in Em. destruct Em as [E1 E2]. destruct S0 as [<-|[C _]]; [|congruence].
        destruct (stmt_same st env env' s (unmarked_same objs env env' s (conj RA (conj RB RC)) E2)) as [P Q]. rewrite P in X. rewrite X in X'. injection X' as <- <-. rewrite Q. auto. }
    destruct K as (<- & Lm & Ms & Vs).
    destruct (IH p' (fun i => secret (Datatypes.S i)) (objs ++ repeat (d, m) (length more)) t (env ++ more) (env' ++ more') out out' SS) as (Wd & Vw & Rf).
    + apply rel_app; [split; [exact RA|split; [exact RB|exact RC]]|exact Fm|rewrite Lm; exact Fm'|exact Ms].
    + intros j e Hj. destruct (Nat.lt_ge_cases j (length objs)) as [Lj|Lj]; [rewrite nth_error_app1 in Hj by exact Lj; exact (H j e Hj)|]. rewrite nth_error_app2 in Hj by exact Lj. apply nth_error_In in Hj. apply repeat_spec in Hj. injection Hj as <- Hm. apply D. rewrite <- Hm. left. reflexivity.
    + exact E.
    + exact E'.
    + intros e He. rewrite FO in He. cbn in He. apply D. destruct m; [right; exact He|exact He].
    + rewrite FO in Rf. split; [congruence|]. split; [rewrite !view_app, Vs, Vw; reflexivity|exact Rf].
Qed.

(** somebody is on none of finitely many devices *)
Lemma somebody (ds : list string) : exists m, forall d dev, In d ds -> cluster d = Some dev -> forall i, In i (dv_members dev) -> i < m.
Proof.
  induction ds as [|d ds [m Hm]]; [exists 0; intros d dev []|].
  exists (m + match cluster d with Some dev => S (list_max (dv_members dev)) | None => 0 end). intros e dev [<-|He] C i Hi.
  - rewrite C. pose proof (proj1 (list_max_le (dv_members dev) (list_max (dv_members dev))) (Nat.le_refl _)) as L. rewrite Forall_forall in L. specialize (L i Hi). lia.
  - specialize (Hm e dev He C i Hi). lia.
Qed.

(* ---------------------------------------------------------------- results are seen *)

Lemma encrypted_in a b ka kb x y tr : encrypted VT V n key_t encrypt decrypt a b ka kb x = Some (y, tr) -> In y (map obj_of tr).
Proof.
  unfold encrypted. intros H. repeat match type of H with match ?e with Some _ => _ | None => None end = Some _ => destruct e; [|discriminate H] end. injection H as <- <-. cbn. auto.
Qed.
Lemma transfer_in from dest c tsk vsk x y tr : transfer from dest c tsk vsk x = Some (y, tr) -> y = x \/ In y (map obj_of tr).
Proof.
  unfold d2d. intros H. destruct (String.eqb _ _); [injection H as <- <-; left; reflexivity|]. right.
  assert (PP : forall a b, ppu_to_ppu VT V n a b x = Some (y, tr) -> In y (map obj_of tr)).
  { intros a b. unfold ppu_to_ppu. destruct (shuffle_static _ _ _ _ _); [|discriminate]. intros E. injection E as <- <-. cbn. auto. }
  assert (TS : forall a ms, to_spu VT V vt_eqb n share_t make_shares a ms x = Some (y, tr) -> In y (map obj_of tr)).
  { intros a ms. unfold to_spu. destruct (pcall _ _ _ _ _ _); [|discriminate]. destruct (mapO _ _); [|discriminate]. destruct (converge _ _ _ _); [|discriminate]. intros E. injection E as <- <-. rewrite !map_app, !in_app_iff. cbn. auto. }
  assert (FS : forall ms b, from_spu VT V n share_t reconstruct ms b x = Some (y, tr) -> In y (map obj_of tr)).
  { intros ms b. unfold from_spu. destruct (mapO _ ms); [|discriminate]. destruct (mapO _ (combine _ _)); [|discriminate]. destruct (pcall1 _ _ _ _ _ _); [|discriminate]. intros E. injection E as <- <-. rewrite !map_app, !in_app_iff. cbn. auto. }
  assert (WS : forall a b k, (forall sf st y tr, k sf st = Some (y, tr) -> In y (map obj_of tr)) -> with_session VT V n key_t pub hkdf quote attest derive a b c tsk vsk k = Some (y, tr) -> In y (map obj_of tr)).
  { intros a b k Hk. unfold with_session. destruct c as [[sf st]|]; [apply Hk|]. destruct (session _ _ _ _ _ _ _ _ _ _ _ _ _) as [[[sf st] tr1]|]; [|discriminate]. destruct (k sf st) as [[y' tr']|] eqn:E; [|discriminate]. intros E'. injection E' as <- <-. rewrite map_app, in_app_iff. right. exact (Hk _ _ _ _ E). }
  destruct (dv_kind from), (dv_kind dest); try discriminate H; destruct (dv_members from) as [|a [|? ?]]; destruct (dv_members dest) as [|b [|? ?]]; try discriminate H;
    solve [eapply PP, H | eapply TS, H | eapply FS, H | eapply WS; [|exact H]; intros sf st y' tr'; apply encrypted_in].
Qed.
Lemma move_in st to_ p y s : move st to_ p = Some (y, s) -> y = snd p \/ In y (move_log st to_ p).
Proof.
  unfold DevProgModel.move, DevViewModel.move_log. destruct (draw 0) as [tsk vsk]. destruct (String.eqb _ _); [intros E; injection E as <- <-; left; reflexivity|].
  destruct (cluster (fst p)) as [from|]; [|discriminate]. destruct (cluster to_) as [dest|]; [|discriminate].
  assert (P : forall c, match transfer from dest c tsk vsk (snd p) with Some (y0, _) => Some (y0, st) | None => None end = Some (y, s) -> y = snd p \/ In y (steps_of VT V (transfer from dest c tsk vsk (snd p)))).
  { intros c. unfold steps_of. destruct (transfer from dest c tsk vsk (snd p)) as [[y0 tr]|] eqn:E; [|discriminate]. intros X. injection X as <- _. exact (transfer_in _ _ _ _ _ _ _ _ E). }
  assert (Q : forall a b, match ensure st a b with Some (ss, st') => match transfer from dest (Some ss) tsk vsk (snd p) with Some (y0, _) => Some (y0, st') | None => None end | None => None end = Some (y, s) ->
     y = snd p \/ In y (ensure_log st a b ++ match ensure st a b with Some (ss, _) => steps_of VT V (transfer from dest (Some ss) tsk vsk (snd p)) | None => [] end)).
  { intros a b. unfold steps_of. destruct (ensure st a b) as [[ss st']|]; [|discriminate]. destruct (transfer from dest (Some ss) tsk vsk (snd p)) as [[y0 tr]|] eqn:E; [|discriminate]. intros X. injection X as <- _. rewrite in_app_iff. destruct (transfer_in _ _ _ _ _ _ _ _ E); auto. }
  destruct (dv_kind from), (dv_kind dest); solve [apply P | apply Q].
Qed.
Lemma moves_in : forall ps st to_ xs s, moves st to_ ps = Some (xs, s) -> forall x, In x xs -> In x (map snd ps) \/ In x (moves_log st to_ ps).
Proof.
  induction ps as [|p ps IH]; intros st to_ xs s E x Hx; cbn [DevProgModel.moves DevViewModel.moves_log map] in *; [injection E as <- _; destruct Hx|].
  destruct (move st to_ p) as [[y t]|] eqn:M; [|discriminate E]. destruct (moves t to_ ps) as [[ys u]|] eqn:K; [|discriminate E]. injection E as <- <-. rewrite in_app_iff. destruct Hx as [<-|Hx].
  - destruct (move_in _ _ _ _ _ M) as [->|H]; [left; left; reflexivity|auto].
  - destruct (IH _ _ _ _ K x Hx) as [H|H]; [left; right; exact H|auto].
Qed.
Lemma run_on_in st d f types args ys s : run_on st d f types args = Some (ys, s) -> forall y, In y ys -> In y (run_on_log st d f types args).
Proof. intros E y Hy. unfold DevViewModel.run_on_log. rewrite E. apply in_app_iff. right. exact Hy. Qed.
Lemma stmt_in st env s more st' : run_stmt st env s = Some (more, st') -> forall p, In p more -> In (snd p) (map snd env) \/ In (snd p) (stmt_log st env s).
Proof.
  intros E p Hp. destruct s as [d v|d i|d f types rs].
  - right. unfold DevViewModel.stmt_log. assert (G : In (snd p) (map snd more)) by (apply in_map; exact Hp).
    unfold kind_of. destruct (option_map dv_kind (cluster d)) as [[]|] eqn:K; try (rewrite E; exact G).
    unfold DevProgModel.run_stmt in E. destruct (cluster d) as [dev|]; [|discriminate K]. cbn in K. injection K as K. rewrite K in E. apply on_out in E. destruct E as (ys & R & ->). apply (run_on_in _ _ _ _ _ _ _ R). apply in_map_iff in Hp. destruct Hp as (y & <- & Hy). exact Hy.
  - unfold DevProgModel.run_stmt in E. unfold DevViewModel.stmt_log. destruct (nth_error env i) as [q|] eqn:Ei; [|discriminate E]. destruct (cluster d); [|discriminate E]. destruct (move st d q) as [[y s]|] eqn:M; [|discriminate E]. injection E as <- _.
    destruct Hp as [<-|[]]. cbn [snd fst]. destruct (move_in _ _ _ _ _ M) as [->|H]; [left; apply in_map, (nth_error_In _ _ Ei)|right; exact H].
  - right. unfold DevProgModel.run_stmt in E. unfold DevViewModel.stmt_log. destruct (mapO (dresolve VT V env) rs) as [args|]; [|discriminate E].
    match type of E with match ?o with _ => _ end = _ => destruct o as [d'|]; [|discriminate E] end. apply on_out in E. destruct E as (ys & R & ->). apply (run_on_in _ _ _ _ _ _ _ R). apply in_map_iff in Hp. destruct Hp as (y & <- & Hy). exact Hy.
Qed.
Lemma prog_in : forall p st env out, run_prog st env p = Some out -> forall q, In q out -> In (snd q) (map snd env) \/ In (snd q) (prog_log st env p).
Proof.
  induction p as [|s p IH]; intros st env out E q Hq; cbn [DevProgModel.run_prog DevViewModel.prog_log] in *; [injection E as <-; left; apply in_map, Hq|].
  destruct (run_stmt st env s) as [[more t]|] eqn:X; [|discriminate E]. destruct (IH _ _ _ E q Hq) as [H|H]; [|right; apply in_app_iff; right; exact H].
  rewrite map_app, in_app_iff in H. destruct H as [H|H]; [left; exact H|]. apply in_map_iff in H. destruct H as (p' & Ep & Hp). destruct (stmt_in _ _ _ _ _ X p' Hp) as [H|H]; rewrite Ep in H; [left; exact H|right; apply in_app_iff; left; exact H].
Qed.
End P.
