(** Proofs for SpuRunProps. *)
From Coq Require Import Bool Arith String List Lia Sorted.
From Verif Require Import SimpModel SimpSpec SimpProofs SimpProofs2 DeviceModel DeviceSpec DeviceProofs SpuRunModel SpuRunSpec.
Import ListNotations.
Local Open Scope nat_scope.

Lemma mapO_by_nth {A B : Type} (f : A -> option B) (l : list A) (ys : list B) :
  length ys = length l -> (forall k a, nth_error l k = Some a -> f a = nth_error ys k) -> mapO f l = Some ys.
Proof.
  revert ys. induction l as [|a l IH]; intros [|y ys] L H; try discriminate L; [reflexivity|].
  cbn [mapO]. rewrite (H 0 a eq_refl). cbn. rewrite (IH ys); [reflexivity|cbn in L; lia|].
  intros k b Hb. exact (H (S k) b Hb).
Qed.
Lemma all_some_mapO {A B : Type} (f : A -> option B) (l : list A) : all_some (map f l) = mapO f l.
Proof. induction l as [|a l IH]; [reflexivity|]. cbn. destruct (f a); [|reflexivity]. rewrite IH. destruct (mapO f l); reflexivity. Qed.

Section Vars.
Context {V : Type}.
Lemma set_all_other (mk : nat -> name) (k : name) : forall (xs : list V) i e,
  (forall j, i <= j -> name_eqb (mk j) k = false) -> get_var V (set_all V mk i e xs) k = get_var V e k.
Proof.
  induction xs as [|x xs IH]; intros i e H; [reflexivity|]. cbn [set_all]. rewrite IH; [|intros j Hj; apply H; lia].
  unfold get_var, set_var. cbn [find fst]. rewrite (H i); [reflexivity|lia].
Qed.
Lemma set_all_get (mk : nat -> name) (Hmk : forall i j, name_eqb (mk i) (mk j) = (i =? j)) : forall (xs : list V) i e j v,
  nth_error xs j = Some v -> get_var V (set_all V mk i e xs) (mk (i + j)) = Some v.
Proof.
  induction xs as [|x xs IH]; intros i e j v H; [destruct j; discriminate H|]. cbn [set_all]. destruct j as [|j].
  - cbn in H. injection H as <-. rewrite Nat.add_0_r, set_all_other.
    + unfold get_var, set_var. cbn [find fst]. now rewrite Hmk, Nat.eqb_refl.
    + intros j Hj. rewrite Hmk. apply Nat.eqb_neq. lia.
  - cbn in H. replace (i + S j) with (S i + j) by lia. now apply IH.
Qed.
Lemma in_inj i j : name_eqb (InV i) (InV j) = (i =? j). Proof. reflexivity. Qed.
Lemma out_inj i j : name_eqb (OutV i) (OutV j) = (i =? j). Proof. reflexivity. Qed.
End Vars.

Section Run.
Context {VT V code : Type}.
Variable vt_eqb : VT -> VT -> bool.
Hypothesis vt_eqb_spec : forall a b, vt_eqb a b = true <-> a = b.
Variable n : nat.
Variables (share_t key_t : VT).
Variables (make_shares : V -> nat -> list V) (reconstruct : list V -> V)
          (encrypt decrypt : V -> V -> V) (pub hkdf quote attest : V -> V) (derive : V -> V -> V).
Variable compile : nat -> (list V -> list V) -> option (code * nat).
Variable joint : code -> list (list V) -> option (list (list V)).
Variable is_share : V -> bool.
Variables (enc : V -> V) (sec : (list V -> list V) -> list V -> list V) (shared : V -> list V -> Prop).
Hypothesis L : spu_laws make_shares reconstruct compile joint is_share enc sec shared.
Notation object := (object VT V).
Notation move := (d2d VT V vt_eqb n share_t key_t make_shares reconstruct encrypt decrypt pub hkdf quote attest derive).
Notation exec := (exec VT V code joint is_share).
Notation on_spu := (on_spu (VT:=VT) shared).

Lemma exec_ok (ms : list nat) (c : code) (nout : nat) (st : runtimes V) (xs : list object) (vs : list V) g :
  NoDup ms -> ms <> [] -> Forall2 (on_spu ms) vs xs -> compile (length xs) g = Some (c, nout) ->
  exists ys st', exec ms c (length xs) nout st xs = Some (ys, st') /\ length ys = nout /\ length (sec g vs) = nout /\
    forall j v, nth_error (sec g vs) j = Some v -> exists col y, length col = length ms /\ shared v col /\ nth_error ys j = Some y /\
      (forall k r, nth_error ms k = Some r -> y r = nth_error col k) /\ (forall r, ~ In r ms -> y r = None).
Proof.
  intros ND Hne HF HC.
  assert (Hcols : exists cols, length cols = length xs /\ Forall (fun col => length col = length ms) cols /\ Forall2 shared vs cols /\
             forall i x col, nth_error xs i = Some x -> nth_error cols i = Some col -> forall k r, nth_error ms k = Some r -> snd x r = nth_error col k).
  { clear HC. induction HF as [|v x vs xs Hx HF IH].
    - exists []. repeat split; auto. intros [|i] x col H; discriminate H.
    - destruct IH as (cols & A & B & C & D). destruct Hx as (col & E1 & E2 & _ & _ & E3). exists (col :: cols). repeat split.
      + cbn. congruence.
      + constructor; assumption.
      + constructor; assumption.
      + intros [|i] x' col' Hx' Hcol'; cbn in Hx', Hcol'; [injection Hx' as <-; injection Hcol' as <-; exact E3|]. exact (D i x' col' Hx' Hcol'). }
  destruct Hcols as (cols & Lc & Fc & Sc & Vc).
  assert (Lvs : length vs = length xs) by (clear -HF; induction HF; cbn; congruence).
  assert (Hrow : forall k, k < length ms -> exists row, mapO (fun col => nth_error col k) cols = Some row).
  { intros k Hk. apply mapO_total. intros col Hcol. rewrite Forall_forall in Fc. specialize (Fc col Hcol).
    destruct (nth_error col k) eqn:E; [eauto|]. apply nth_error_None in E. lia. }
  set (row := fun k => match mapO (fun col => nth_error col k) cols with Some r => r | None => [] end).
  assert (Hrow2 : forall k, k < length ms -> mapO (fun col => nth_error col k) cols = Some (row k)).
  { intros k Hk. unfold row. destruct (Hrow k Hk) as (r & ->). reflexivity. }
  assert (Lrow : forall k, k < length ms -> length (row k) = length xs).
  { intros k Hk. pose proof (mapO_nth _ _ _ (Hrow2 k Hk)) as [A _]. lia. }
  assert (Nrow : forall k i col, k < length ms -> nth_error cols i = Some col -> nth_error (row k) i = nth_error col k).
  { intros k i col Hk Hi. pose proof (mapO_nth _ _ _ (Hrow2 k Hk)) as [_ A]. destruct (A i col Hi) as (b & E1 & E2). congruence. }
  set (rows := map row (seq 0 (length ms))).
  assert (Lrows : length rows = length ms) by (unfold rows; rewrite map_length, seq_length; reflexivity).
  assert (Nrows : forall k, k < length ms -> nth_error rows k = Some (row k)).
  { intros k Hk. unfold rows. apply map_nth_error. rewrite (nth_error_nth' _ 0) by (rewrite seq_length; exact Hk). rewrite seq_nth by exact Hk. reflexivity. }
  assert (Erows : mapO (fun r => all_some (map (fun x : object => snd x r) xs)) ms = Some rows).
  { apply mapO_by_nth; [exact Lrows|]. intros k r Hk. assert (k < length ms) as Hkl by (apply nth_error_Some; congruence).
    rewrite (Nrows k Hkl), all_some_mapO. apply mapO_by_nth; [apply Lrow, Hkl|]. intros i x Hx.
    destruct (nth_error cols i) as [col|] eqn:Ec; [|apply nth_error_None in Ec; assert (i < length xs) by (apply nth_error_Some; congruence); lia].
    rewrite (Vc i x col Hx Ec k r Hk). symmetry. apply Nrow; assumption. }
  assert (Irow : forall rw, In rw rows -> exists k, k < length ms /\ rw = row k).
  { intros rw Hr. unfold rows in Hr. apply in_map_iff in Hr. destruct Hr as (k & <- & Hk). apply in_seq in Hk. exists k. split; [lia|reflexivity]. }
  assert (Hsh : forallb (forallb is_share) rows = true).
  { apply forallb_forall. intros rw Hr. destruct (Irow rw Hr) as (k & Hk & ->). apply forallb_forall. intros s Hs.
    apply In_nth_error in Hs. destruct Hs as (i & Hs). assert (i < length cols) as Hi by (rewrite Lc, <- (Lrow k Hk); apply nth_error_Some; congruence).
    destruct (nth_error cols i) as [col|] eqn:Ec; [|apply nth_error_None in Ec; lia]. rewrite (Nrow k i col Hk Ec) in Hs.
    destruct (nth_error vs i) as [v|] eqn:Ev; [|apply nth_error_None in Ev; lia].
    apply (law_is _ _ _ _ _ _ _ _ L v col s); [|apply nth_error_In with k; exact Hs].
    clear -Sc Ev Ec. revert i Ev Ec. induction Sc; intros [|i] Ev Ec; try discriminate; cbn in *; [congruence|eauto]. }
  assert (Hln : forallb (fun rw => length rw =? length xs) rows = true).
  { apply forallb_forall. intros rw Hr. destruct (Irow rw Hr) as (k & Hk & ->). apply Nat.eqb_eq, Lrow, Hk. }
  destruct (law_run _ _ _ _ _ _ _ _ L _ _ _ _ HC rows vs) as (outs & J1 & J2 & J3 & J4 & J5).
  { rewrite Lrows. destruct ms; [congruence|cbn; lia]. }
  { exact Lvs. }
  { apply Forall_forall. intros rw Hr. destruct (Irow rw Hr) as (k & Hk & ->). apply Lrow, Hk. }
  { intros i v Hv. destruct (nth_error cols i) as [col|] eqn:Ec; [|apply nth_error_None in Ec; assert (i < length vs) by (apply nth_error_Some; congruence); lia].
    exists col. split.
    - split; [rewrite Lrows; rewrite Forall_forall in Fc; apply Fc; apply nth_error_In with i; exact Ec|]. intros k rw Hk.
      assert (k < length ms) as Hkl by (rewrite <- Lrows; apply nth_error_Some; congruence). rewrite (Nrows k Hkl) in Hk. injection Hk as <-.
      split; [apply Nrow; assumption|]. rewrite (Lrow k Hkl), <- Lc. apply nth_error_Some. congruence.
    - clear -Sc Hv Ec. revert i Hv Ec. induction Sc; intros [|i] Ev Ec; try discriminate; cbn in *; [congruence|eauto]. }
  unfold SpuRunModel.exec. rewrite Erows, Hsh, Hln. change (negb true) with false. cbv iota. cbv zeta.
  set (st1 := fun r => match index_of r ms with Some k => set_all V InV 0 (st r) (nth k rows []) | None => st r end).
  assert (Eins : mapO (fun r => mapO (fun i => get_var V (st1 r) (InV i)) (seq 0 (length xs))) ms = Some rows).
  { apply mapO_by_nth; [exact Lrows|]. intros k r Hk. assert (k < length ms) as Hkl by (apply nth_error_Some; congruence).
    rewrite (Nrows k Hkl). apply mapO_by_nth; [rewrite seq_length; apply Lrow, Hkl|]. intros i j Hi.
    assert (i < length xs) as Hil by (rewrite <- (seq_length (length xs) 0); apply nth_error_Some; congruence).
    rewrite (nth_error_nth' _ 0) in Hi by (rewrite seq_length; exact Hil). rewrite seq_nth in Hi by exact Hil. injection Hi as <-.
    unfold st1. rewrite (index_nth ms k r ND Hk). rewrite (nth_error_nth _ _ [] (Nrows k Hkl)).
    destruct (nth_error (row k) i) as [w|] eqn:Ew; [|apply nth_error_None in Ew; rewrite (Lrow k Hkl) in Ew; lia].
    exact (set_all_get InV in_inj (row k) 0 (st r) i w Ew). }
  unfold st1 in Eins. rewrite Eins, J1. do 2 eexists. split; [reflexivity|]. split; [rewrite map_length, seq_length; reflexivity|]. split; [exact J4|].
  intros j v Hv. destruct (J5 j v Hv) as (col & (Cl & Cn) & Sh).
  assert (Hj : j < nout) by (rewrite <- J4; apply nth_error_Some; congruence).
  exists col. eexists. split; [congruence|]. split; [exact Sh|]. split.
  { apply map_nth_error. rewrite (nth_error_nth' _ 0) by (rewrite seq_length; exact Hj). rewrite seq_nth by exact Hj. reflexivity. }
  split.
  - intros k r Hk. assert (k < length ms) as Hkl by (apply nth_error_Some; congruence).
    assert (inb r ms = true) as ->. { unfold inb. apply existsb_exists. exists r. split; [apply nth_error_In with k; exact Hk|apply Nat.eqb_refl]. }
    rewrite (index_nth ms k r ND Hk).
    destruct (nth_error outs k) as [rw|] eqn:Eo; [|apply nth_error_None in Eo; lia].
    rewrite (nth_error_nth _ _ [] Eo). destruct (Cn k rw Eo) as [C1 C2].
    destruct (nth_error rw j) as [w|] eqn:Ew; [|apply nth_error_None in Ew; lia]. rewrite <- C1.
    exact (set_all_get OutV out_inj rw 0 _ j w Ew).
  - intros r Hr. destruct (inb r ms) eqn:E; [|reflexivity]. exfalso. apply Hr. unfold inb in E. apply existsb_exists in E.
    destruct E as (r' & Hr' & E). apply Nat.eqb_eq in E. subst. exact Hr'.
Qed.

Lemma type_ok (ms : list nat) nout (xs : list object) :
  (forall x, In x xs -> exists Q, parties _ (fst x) = Some Q /\ forall r, In r ms -> In r Q) ->
  type_pcall_static VT V ms (Local VT V (repeat share_t nout) (fun _ _ => None)) (map fst xs) = Some (repeat (MP VT share_t (Some (norm ms))) nout).
Proof.
  intros H. unfold type_pcall_static. cbn [lf_out].
  assert (E : match deduce_parties VT (map fst xs) with None => true | Some d => subset (norm ms) d end = true).
  { destruct xs as [|x xs]; [reflexivity|]. unfold deduce_parties. cbn [map]. destruct (existsb _ _); [reflexivity|].
    unfold subset. apply forallb_forall. intros r Hr0. pose proof (proj1 (norm_In _ _) Hr0) as Hr. unfold inb. apply existsb_exists. exists r. split; [|apply Nat.eqb_refl].
    apply norm_In. apply fold_filter_In.
    - destruct (H x (or_introl eq_refl)) as (Q & -> & HQ). apply HQ, Hr.
    - intros t p Ht Hp. apply in_map_iff in Ht. destruct Ht as (y & <- & Hy). destruct (H y (or_intror Hy)) as (Q & E & HQ).
      rewrite E in Hp. injection Hp as <-. apply HQ, Hr. }
  rewrite E. f_equal. clear. induction nout as [|k IH]; [reflexivity|]. cbn [repeat map]. f_equal. exact IH.
Qed.

Notation device_run := (device_run VT V vt_eqb n share_t key_t make_shares reconstruct encrypt decrypt pub hkdf quote attest derive code compile joint is_share).
Notation run_calls := (run_calls VT V vt_eqb n share_t key_t make_shares reconstruct encrypt decrypt pub hkdf quote attest derive code compile joint is_share).
Variable spu : device.
Hypothesis Hkind : dv_kind spu = SPU.
Hypothesis Hsorted : StronglySorted lt (dv_members spu).
Hypothesis Hne : dv_members spu <> [].
Hypothesis Hworld : forall m, In m (dv_members spu) -> m < n.
Variables (tsk vsk : V).

(** what the SPU sees of an object: the shared value, or the encoding of a plain one *)
Definition holds (p : device * object) (w : V) : Prop :=
  (fst p = spu /\ on_spu (dv_members spu) w (snd p)) \/ (exists v, input_at n spu p v /\ w = enc v).

Lemma move_ok p w : holds p w -> exists y tr, move (fst p) spu None tsk vsk (snd p) = Some (y, tr) /\ on_spu (dv_members spu) w y.
Proof.
  intros [[E H]|(v & (Hn & Hk & a & t & Hm & Ha & Hp) & ->)].
  - rewrite E. unfold d2d. rewrite String.eqb_refl. eauto.
  - unfold d2d. destruct (String.eqb_spec (dv_name (fst p)) (dv_name spu)) as [C|_]; [congruence|]. rewrite Hkind, Hm.
    assert (Hl : 0 < length (dv_members spu)) by (destruct (dv_members spu); [congruence|cbn; lia]).
    destruct (law_make _ _ _ _ _ _ _ _ L v _ Hl) as [Ll Ls].
    destruct (to_spu_spec vt_eqb vt_eqb_spec n share_t make_shares a (dv_members spu) (snd p) t v Ha Hworld (sorted_NoDup _ Hsorted) Hne Hp Ll) as (y & tr & E & HQ & _ & Hv & Ho & _).
    exists y, tr. split; [destruct Hk as [-> | ->]; exact E|].
    exists (make_shares v (length (dv_members spu))). auto.
Qed.

Lemma device_run_ok f (args : list (arg VT V)) (ws : list V) st p :
  Forall2 holds (objects VT V args) ws -> compile (length ws) (fun vs => f (fill V (template VT V args) vs)) = Some p ->
  exists ys st', device_run tsk vsk spu f args st = Some (ys, st') /\
    Forall2 (on_spu (dv_members spu)) (sec (fun vs => f (fill V (template VT V args) vs)) ws) ys.
Proof.
  intros HF HC.
  assert (M : exists xs, mapO (fun p => option_map fst (move (fst p) spu None tsk vsk (snd p))) (objects VT V args) = Some xs /\ Forall2 (on_spu (dv_members spu)) ws xs).
  { clear HC. induction HF as [|q w qs ws Hq HF IH]; [exists []; split; [reflexivity|constructor]|].
    destruct IH as (xs & E & F). destruct (move_ok q w Hq) as (y & tr & Em & Hy). exists (y :: xs). cbn [mapO]. rewrite Em, E. cbn. split; [reflexivity|constructor; assumption]. }
  destruct M as (xs & E & F). unfold SpuRunModel.device_run. rewrite E.
  assert (Lx : length ws = length xs) by (clear -F; induction F; cbn; congruence).
  rewrite <- Lx, HC. destruct p as [c nout].
  rewrite type_ok.
  2: { intros x Hx. clear -F Hx. induction F as [|w y ws ys Hy F IH]; [destruct Hx|]. destruct Hx as [<-|Hx]; [|exact (IH Hx)].
       destruct Hy as (col & _ & _ & (Q & HQ & Hin) & _). exists Q. split; [exact HQ|]. intros r Hr. apply Hin, Hr. }
  rewrite (norm_of_sorted _ Hsorted). rewrite Lx in HC |- *.
  destruct (exec_ok (dv_members spu) c nout st xs ws _ (sorted_NoDup _ Hsorted) Hne F HC) as (ys & st' & E1 & E2 & E3 & E4).
  rewrite E1. do 2 eexists. split; [reflexivity|].
  set (vals := sec _ ws) in *. clearbody vals. clear -E2 E3 E4.
  assert (G : forall (vals : list V) (ys : list (mpval V)), length ys = length vals ->
     (forall j v, nth_error vals j = Some v -> exists col y, length col = length (dv_members spu) /\ shared v col /\ nth_error ys j = Some y /\
        (forall k r, nth_error (dv_members spu) k = Some r -> y r = nth_error col k) /\ (forall r, ~ In r (dv_members spu) -> y r = None)) ->
     Forall2 (on_spu (dv_members spu)) vals (combine (repeat (MP VT share_t (Some (dv_members spu))) (length vals)) ys)).
  { clear. induction vals as [|v vals IH]; intros [|y ys] Hl H; try discriminate Hl; [constructor|]. cbn [length repeat combine]. constructor.
    - destruct (H 0 v eq_refl) as (col & y' & A & B & C & D & G). cbn in C. injection C as <-. exists col. split; [exact A|]. split; [exact B|]. split; [|split].
      + exists (dv_members spu). split; [reflexivity|]. intros r. reflexivity.
      + intros r Hr. exact (G r Hr).
      + exact D.
    - apply IH; [cbn in Hl; lia|]. intros j w Hw. exact (H (S j) w Hw). }
  rewrite <- E3. apply G; [congruence|exact E4].
Qed.

Lemma resolve_ok env ws : Forall2 holds env ws -> forall (rs : list (ref V)) us, mapO (nth_error ws) (refs rs) = Some us ->
  exists args, mapO (resolve VT V env) rs = Some args /\ template VT V args = lits rs /\ Forall2 holds (objects VT V args) us /\ length us = length (refs rs).
Proof.
  intros HF. induction rs as [|[i|v] rs IH]; intros us E.
  - cbn in E. injection E as <-. exists []. repeat split. constructor.
  - cbn [refs mapO] in E. destruct (nth_error ws i) as [w|] eqn:Ew; [|discriminate E]. destruct (mapO (nth_error ws) (refs rs)) as [us'|] eqn:Eu; [|discriminate E].
    cbn in E. injection E as <-. destruct (IH us' eq_refl) as (args & A & B & C & D).
    assert (P : exists q, nth_error env i = Some q /\ holds q w).
    { clear -HF Ew. revert i Ew. induction HF as [|q w' qs ws Hq HF IH]; intros [|i] Ew; try discriminate Ew; cbn in *; [injection Ew as <-; eauto|eauto]. }
    destruct P as (q & Eq & Hq). exists (Obj VT V (fst q) (snd q) :: args). cbn [mapO resolve]. rewrite Eq, A. cbn [option_map]. split; [reflexivity|]. split; [unfold template, lits in *; cbn [map]; now rewrite B|].
    split; [|cbn; congruence]. destruct q. unfold objects. cbn [flat_map List.app]. constructor; [exact Hq|exact C].
  - cbn [refs] in E. destruct (IH us E) as (args & A & B & C & D). exists (Const VT V v :: args). cbn [mapO resolve]. rewrite A. split; [reflexivity|]. split; [unfold template, lits in *; cbn [map]; now rewrite B|]. split; [exact C|exact D].
Qed.

Lemma run_calls_ok : forall (cs : list (call V)) env ws out st, Forall2 holds env ws -> traceable compile cs ->
  plain_calls sec cs ws = Some out -> exists env', run_calls tsk vsk spu cs env st = Some env' /\ Forall2 holds env' out /\
    exists more, env' = env ++ more /\ Forall (fun q => fst q = spu) more.
Proof.
  induction cs as [|c cs IH]; intros env ws out st HF HT HP.
  - cbn in HP. injection HP as <-. exists env. split; [reflexivity|]. split; [exact HF|]. exists []. split; [now rewrite app_nil_r|constructor].
  - cbn [plain_calls] in HP. unfold plain_call in HP. destruct (mapO (nth_error ws) (refs (c_args V c))) as [us|] eqn:Eu; [|discriminate HP]. cbn [option_map] in HP.
    destruct (resolve_ok env ws HF _ _ Eu) as (args & A & B & C & D).
    destruct (HT c (or_introl eq_refl)) as (p & Hp). rewrite <- D, <- B in Hp.
    destruct (device_run_ok (c_fn V c) args us st p C Hp) as (ys & st' & E & F). rewrite B in F.
    cbn [SpuRunModel.run_calls]. rewrite A, E.
    destruct (IH (env ++ map (fun x => (spu, x)) ys) (ws ++ sec (fun vs => c_fn V c (fill V (lits (c_args V c)) vs)) us) out st') as (env' & R1 & R2 & more & R3 & R4).
    + apply Forall2_app; [exact HF|]. clear -F. induction F; cbn; constructor; [left; split; [reflexivity|assumption]|assumption].
    + intros c' Hc'. apply HT. right. exact Hc'.
    + exact HP.
    + exists env'. split; [exact R1|]. split; [exact R2|]. exists (map (fun x => (spu, x)) ys ++ more). split; [rewrite R3, <- app_assoc; reflexivity|].
      apply Forall_app. split; [|exact R4]. apply Forall_forall. intros q Hq. apply in_map_iff in Hq. destruct Hq as (x & <- & _). reflexivity.
Qed.

Lemma reveal_ok (x : object) v to_ b cached : on_spu (dv_members spu) v x -> dv_name spu <> dv_name to_ -> (dv_kind to_ = PPU \/ dv_kind to_ = TEE) ->
  dv_members to_ = [b] -> b < n -> exists y tr, move spu to_ cached tsk vsk x = Some (y, tr) /\ fetch VT V to_ y = Some v /\ only_at y [b].
Proof.
  intros (col & Hl & Hs & (Q & HQ & Hin) & _ & Hv) Hn Hk Hm Hb.
  destruct (from_spu_spec n share_t reconstruct b (dv_members spu) x Q col Hb Hworld HQ (fun m Hm => proj2 (Hin m) Hm) Hl Hv) as (y & tr & E & (_ & _ & P & O)).
  exists y, tr. split.
  - unfold d2d. destruct (String.eqb_spec (dv_name spu) (dv_name to_)) as [C|_]; [congruence|]. rewrite Hkind, Hm. destruct Hk as [-> | ->]; exact E.
  - split; [|exact O]. unfold fetch. rewrite Hm. rewrite (law_rec _ _ _ _ _ _ _ _ L v col Hs) in P. destruct Hk as [-> | ->]; exact P.
Qed.
End Run.
