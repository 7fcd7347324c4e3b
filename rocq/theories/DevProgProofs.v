(** Proofs for programs of device calls. *)
From Coq Require Import Bool Arith String List Lia Sorted.
From Verif Require Import SimpModel SimpProofs SimpProofs2 DeviceModel DeviceSpec DeviceProofs SpuRunModel SpuRunSpec SpuRunProofs DevProgModel DevProgSpec.
Import ListNotations.
Local Open Scope nat_scope.

Section P.
Context {VT V code : Type}.
Variable vt_eqb : VT -> VT -> bool.
Hypothesis vt_eqb_spec : forall a b, vt_eqb a b = true <-> a = b.
Variable n : nat.
Variables (share_t key_t : VT).
Variables (make_shares : V -> nat -> list V) (reconstruct : list V -> V)
          (encrypt decrypt : V -> V -> V) (pub hkdf quote attest : V -> V) (derive : V -> V -> V).
Hypothesis Hdec : forall k v, decrypt k (encrypt k v) = v.
Hypothesis Hattest : forall x, attest (quote x) = x.
Hypothesis Hdh : forall s s', derive s (pub s') = derive s' (pub s).
Variable compile : nat -> (list V -> list V) -> option (code * nat).
Variable joint : code -> list (list V) -> option (list (list V)).
Variable is_share : V -> bool.
Variables (enc : V -> V) (sec : (list V -> list V) -> list V -> list V) (shared : V -> list V -> Prop).
Hypothesis L : spu_laws make_shares reconstruct compile joint is_share enc sec shared.
Variable typ : V -> VT.
Variable cluster : string -> option device.
Hypothesis W : well_formed cluster n.
Variable draw : nat -> V * V.
Variable left : nat -> runtimes V.
Notation object := (object VT V).
Notation state := (state VT V).
Notation transfer := (d2d VT V vt_eqb n share_t key_t make_shares reconstruct encrypt decrypt pub hkdf quote attest derive).
Notation ensure := (ensure VT V n key_t pub hkdf quote attest derive draw).
Notation move := (DevProgModel.move VT V vt_eqb n share_t key_t make_shares reconstruct encrypt decrypt pub hkdf quote attest derive cluster draw).
Notation moves := (DevProgModel.moves VT V vt_eqb n share_t key_t make_shares reconstruct encrypt decrypt pub hkdf quote attest derive cluster draw).
Notation run_on := (DevProgModel.run_on VT V vt_eqb n share_t key_t make_shares reconstruct encrypt decrypt pub hkdf quote attest derive code compile joint is_share cluster draw left).
Notation run_stmt := (DevProgModel.run_stmt VT V vt_eqb n share_t key_t make_shares reconstruct encrypt decrypt pub hkdf quote attest derive code compile joint is_share typ cluster draw left).
Notation run_prog := (DevProgModel.run_prog VT V vt_eqb n share_t key_t make_shares reconstruct encrypt decrypt pub hkdf quote attest derive code compile joint is_share typ cluster draw left).
Notation lies := (lies_on (VT:=VT) cluster shared).
Definition accepts (m : nat) (g : list V -> list V) : bool := match compile m g with Some _ => true | None => false end.

(** every session made so far has the same key on both sides *)
Definition inv (st : state) : Prop := forall p t sf sts, In ((p, t), (sf, sts)) (sessions VT V st) ->
  exists dp dt a b ck, cluster p = Some dp /\ cluster t = Some dt /\ dv_members dp = [a] /\ dv_members dt = [b] /\
    plain_at sf key_t a ck /\ plain_at sts key_t b ck.

Lemma ensure_ok st ppu tee p t a b : inv st -> cluster p = Some ppu -> cluster t = Some tee -> dv_members ppu = [a] -> dv_members tee = [b] -> a < n -> b < n ->
  exists sf sts st' ck, ensure st ppu tee = Some ((sf, sts), st') /\ inv st' /\ plain_at sf key_t a ck /\ plain_at sts key_t b ck.
Proof.
  intros I Cp Ct Ma Mb La Lb. destruct (W p ppu Cp) as (Np & _ & _). destruct (W t tee Ct) as (Nt & _ & _).
  unfold DevProgModel.ensure. rewrite Np, Nt. destruct (find _ (sessions VT V st)) as [[[p' t'] [sf sts]]|] eqn:F.
  - apply find_some in F. destruct F as [Hin K]. apply key_eqb_eq in K. cbn in K. injection K as -> ->.
    destruct (I p t sf sts Hin) as (dp & dt & a' & b' & ck & E1 & E2 & E3 & E4 & E5 & E6).
    rewrite Cp in E1. rewrite Ct in E2. injection E1 as <-. injection E2 as <-. rewrite Ma in E3. rewrite Mb in E4. injection E3 as <-. injection E4 as <-.
    exists sf, sts, st, ck. auto.
  - rewrite Ma, Mb. destruct (draw (made VT V st)) as [tsk vsk]. cbn [fst snd].
    destruct (session_spec n key_t pub hkdf quote attest derive a b tsk vsk La Lb Hattest Hdh) as (sf & sts & tr & E & P1 & P2 & _). rewrite E.
    do 4 eexists. split; [reflexivity|]. split; [|split; [exact P1|exact P2]].
    intros p' t' sf' sts' [K|K]; [|exact (I p' t' sf' sts' K)]. injection K as <- <- <- <-. eauto 12.
Qed.

Lemma plain_only (x : object) t a v : plain_at x t a v -> only_at x [a].
Proof. intros (_ & _ & _ & O). exact O. Qed.
Lemma lies_plain d dev x t a v : cluster d = Some dev -> (dv_kind dev = PPU \/ dv_kind dev = TEE) -> dv_members dev = [a] -> plain_at x t a v -> lies d x v.
Proof.
  intros C K M Px. exists dev. split; [exact C|]. split; [rewrite M; exact (plain_only _ _ _ _ Px)|]. destruct K as [-> | ->]; eauto.
Qed.
Lemma lies_spu d dev x v : cluster d = Some dev -> dv_kind dev = SPU -> on_spu shared (dv_members dev) v x -> lies d x v.
Proof. intros C K Px. exists dev. split; [exact C|]. rewrite K. split; [|exact Px]. destruct Px as (col & _ & _ & _ & O & _). exact O. Qed.

Lemma member_lt d dev a : cluster d = Some dev -> dv_members dev = [a] -> a < n.
Proof. intros C M. destruct (W d dev C) as (_ & H & _). apply H. rewrite M. left. reflexivity. Qed.

Lemma move_lies st d to_ x v w : inv st -> lies d x v -> arrives cluster enc d to_ v = Some w ->
  exists y st', move st to_ (d, x) = Some (y, st') /\ lies to_ y w /\ inv st' /\ spu_calls VT V st' = spu_calls VT V st.
Proof.
  intros I (dev & C & O & H). unfold arrives, DevProgModel.move. cbn [fst snd]. destruct (String.eqb_spec d to_) as [->|Nd].
  - intros E. injection E as <-. destruct (draw 0). exists x, st. split; [reflexivity|]. split; [|auto]. exists dev. auto.
  - rewrite C. destruct (cluster to_) as [dest|] eqn:Ct; cbn [option_map]; [|destruct (dv_kind dev); discriminate].
    destruct (draw 0) as [tsk vsk]. destruct (W d dev C) as (Nm & Lm & Km). destruct (W to_ dest Ct) as (Nm' & Lm' & Km').
    assert (NE : String.eqb (dv_name dev) (dv_name dest) = false) by (rewrite Nm, Nm'; apply String.eqb_neq; exact Nd).
    destruct (dv_kind dev) eqn:K; [| | |discriminate].
    + (* PPU *) destruct H as (t & a & Ma & Pa). pose proof (member_lt _ _ _ C Ma) as La. destruct (dv_kind dest) eqn:K'; [| | |discriminate]; intros E; injection E as <-.
      * destruct Km' as (b & Mb). pose proof (member_lt _ _ _ Ct Mb) as Lb. unfold d2d. rewrite NE, K, K', Ma, Mb. unfold ppu_to_ppu. destruct Pa as (P1 & P2 & P3 & P4).
        destruct (shuffle1_ok n x b a [a] P2 (or_introl eq_refl) La Lb) as (y & E). rewrite E. exists y, st. split; [reflexivity|]. split; [|auto].
        apply shuffle1 in E. destruct E as [Y1 Y2]. rewrite P3 in Y2. apply (lies_plain _ dest y (vt _ (fst x)) b v Ct (or_introl K') Mb). apply plain_of; assumption.
      * destruct (SpuRunProofs.move_ok vt_eqb vt_eqb_spec n share_t key_t make_shares reconstruct encrypt decrypt pub hkdf quote attest derive compile joint is_share enc sec shared L dest K' (proj1 Km') (proj2 Km') Lm' tsk vsk (dev, x) (enc v)) as (y & tr & E & Y).
        { right. exists v. split; [|reflexivity]. split; [cbn; rewrite Nm, Nm'; exact Nd|]. split; [left; exact K|]. cbn. eauto 8. }
        cbn [fst snd] in E. rewrite E. exists y, st. split; [reflexivity|]. split; [exact (lies_spu _ dest y (enc v) Ct K' Y)|auto].
      * destruct Km' as (b & Mb). pose proof (member_lt _ _ _ Ct Mb) as Lb.
        destruct (ensure_ok st dev dest d to_ a b I C Ct Ma Mb La Lb) as (sf & sts & st' & ck & E & I' & P1 & P2).
        assert (HS : spu_calls VT V st' = spu_calls VT V st).
        { clear -E. unfold DevProgModel.ensure in E. destruct (find _ _) as [[? ?]|]; [injection E as _ <-; reflexivity|]. destruct (dv_members dev) as [|? [|]]; try discriminate E. destruct (dv_members dest) as [|? [|]]; try discriminate E. destruct (session _ _ _ _ _ _ _ _ _ _ _ _ _) as [[? ?]|]; [|discriminate E]. injection E as _ <-. reflexivity. }
        rewrite E. unfold d2d. rewrite NE, K, K', Ma, Mb. cbn [with_session].
        destruct (encrypted_spec n key_t encrypt decrypt a b sf sts x ck t v La Lb P1 P2 Pa Hdec) as (y & tr & Ey & Py & _). rewrite Ey.
        exists y, st'. split; [reflexivity|]. split; [exact (lies_plain _ dest y t b v Ct (or_intror K') Mb Py)|auto].
    + (* SPU *) destruct (dv_kind dest) eqn:K'; try discriminate; intros E; injection E as <-; destruct Km' as (b & Mb); pose proof (member_lt _ _ _ Ct Mb) as Lb;
      destruct H as (col & Hl & Hs & (Q & HQ & Hin) & _ & Hv);
      destruct (from_spu_spec n share_t reconstruct b (dv_members dev) x Q col Lb Lm HQ (fun m Hm => proj2 (Hin m) Hm) Hl Hv) as (y & tr & E & Py);
      unfold d2d; rewrite NE, K, K', Mb, E; exists y, st; (split; [reflexivity|]); (split; [|auto]);
      rewrite (law_rec _ _ _ _ _ _ _ _ L v col Hs) in Py; apply (lies_plain _ dest y _ b v Ct ltac:(auto) Mb Py).
    + (* TEE *) destruct H as (t & a & Ma & Pa). pose proof (member_lt _ _ _ C Ma) as La. destruct (dv_kind dest) eqn:K'; [| |discriminate|discriminate]; intros E; injection E as <-.
      * destruct Km' as (b & Mb). pose proof (member_lt _ _ _ Ct Mb) as Lb.
        destruct (ensure_ok st dest dev to_ d b a I Ct C Mb Ma Lb La) as (sf & sts & st' & ck & E & I' & P1 & P2).
        assert (HS : spu_calls VT V st' = spu_calls VT V st).
        { clear -E. unfold DevProgModel.ensure in E. destruct (find _ _) as [[? ?]|]; [injection E as _ <-; reflexivity|]. destruct (dv_members dest) as [|? [|]]; try discriminate E. destruct (dv_members dev) as [|? [|]]; try discriminate E. destruct (session _ _ _ _ _ _ _ _ _ _ _ _ _) as [[? ?]|]; [|discriminate E]. injection E as _ <-. reflexivity. }
        rewrite E. unfold d2d. rewrite NE, K, K', Ma, Mb. cbn [with_session].
        destruct (encrypted_spec n key_t encrypt decrypt a b sts sf x ck t v La Lb P2 P1 Pa Hdec) as (y & tr & Ey & Py & _). rewrite Ey.
        exists y, st'. split; [reflexivity|]. split; [exact (lies_plain _ dest y t b v Ct (or_introl K') Mb Py)|auto].
      * destruct (SpuRunProofs.move_ok vt_eqb vt_eqb_spec n share_t key_t make_shares reconstruct encrypt decrypt pub hkdf quote attest derive compile joint is_share enc sec shared L dest K' (proj1 Km') (proj2 Km') Lm' tsk vsk (dev, x) (enc v)) as (y & tr & E & Y).
        { right. exists v. split; [|reflexivity]. split; [cbn; rewrite Nm, Nm'; exact Nd|]. split; [right; exact K|]. cbn. eauto 8. }
        cbn [fst snd] in E. rewrite E. exists y, st. split; [reflexivity|]. split; [exact (lies_spu _ dest y (enc v) Ct K' Y)|auto].
Qed.

(** an object of the program and its meaning *)
Definition good (p : string * object) (q : string * V) : Prop := fst p = fst q /\ lies (fst p) (snd p) (snd q).

Lemma moves_lies : forall ps qs st to_ ws, inv st -> Forall2 good ps qs -> mapO (fun q => arrives cluster enc (fst q) to_ (snd q)) qs = Some ws ->
  exists ys st', moves st to_ ps = Some (ys, st') /\ Forall2 (lies to_) ys ws /\ inv st'.
Proof.
  induction ps as [|[d x] ps IH]; intros qs st to_ ws I F E; inversion F; subst.
  - injection E as <-. exists [], st. repeat split; [constructor|exact I].
  - destruct y as [d' v]. match goal with H : good _ _ |- _ => destruct H as [Hd Hl]; cbn in Hd, Hl; subst d' end. cbn [SimpModel.mapO fst snd] in E.
    destruct (arrives cluster enc d to_ v) as [w|] eqn:A; [|discriminate E]. destruct (mapO _ l') as [ws'|] eqn:E'; [|discriminate E]. injection E as <-.
    destruct (move_lies st d to_ x v w I Hl A) as (y & st' & M & Y & I' & _). cbn [DevProgModel.moves]. rewrite M.
    destruct (IH l' st' to_ ws' I' ltac:(assumption) E') as (ys & st'' & M' & F' & I''). rewrite M'. exists (y :: ys), st''. split; [reflexivity|]. split; [constructor; assumption|exact I''].
Qed.

(** an argument: its meaning is a value on a device or a Python value *)
Definition place (a : darg VT V) : option string := match a with OnDevice _ _ d _ => Some d | Value _ _ _ => None end.

Lemma resolve_good env wenv : Forall2 good env wenv -> forall (rs : list (ref V)) places,
  mapO (fun a => match a with Ref _ i => option_map (fun p : string * V => Some (fst p)) (nth_error wenv i) | Lit _ _ => Some None end) rs = Some places ->
  exists args qs, mapO (dresolve VT V env) rs = Some args /\ map place args = places /\ dtemplate VT V args = lits rs /\
    Forall2 good (dobjects VT V args) qs /\ mapO (nth_error wenv) (refs rs) = Some qs.
Proof.
  intros F. induction rs as [|[i|v] rs IH]; intros places E.
  - injection E as <-. exists [], []. repeat split. constructor.
  - cbn [SimpModel.mapO] in E. destruct (nth_error wenv i) as [[d v]|] eqn:Ei; [|discriminate E]. cbn [option_map fst] in E. destruct (mapO _ rs) as [pl|] eqn:Er; [|discriminate E]. injection E as <-.
    destruct (IH pl eq_refl) as (args & qs & A & B & C & D & G).
    assert (P : exists q, nth_error env i = Some q /\ good q (d, v)).
    { clear -F Ei. revert i Ei. induction F as [|q w' qs ws Hq HF IH]; intros [|i] Ew; try discriminate Ew; cbn in *; [injection Ew as <-; eauto|eauto]. }
    destruct P as ([d' x] & Ex & Hg). destruct (Hg) as [Hd _]. cbn in Hd. subst d'.
    exists (OnDevice VT V d x :: args), ((d, v) :: qs). cbn [SimpModel.mapO dresolve refs]. rewrite Ex, A, Ei, G. cbn [option_map fst snd].
    split; [reflexivity|]. split; [cbn; congruence|]. split; [unfold dtemplate, lits in *; cbn; congruence|]. split; [|reflexivity]. unfold dobjects. cbn. constructor; assumption.
  - cbn [SimpModel.mapO] in E. destruct (mapO _ rs) as [pl|] eqn:Er; [|discriminate E]. injection E as <-.
    destruct (IH pl eq_refl) as (args & qs & A & B & C & D & G). exists (Value VT V v :: args), qs. cbn [SimpModel.mapO dresolve refs]. rewrite A.
    split; [reflexivity|]. split; [cbn; congruence|]. split; [unfold dtemplate, lits in *; cbn; congruence|]. split; [exact D|exact G].
Qed.

Lemma as_arg_ok args qs d dev ws : Forall2 good (dobjects VT V args) qs -> cluster d = Some dev -> dv_kind dev = SPU ->
  mapO (fun q => arrives cluster enc (fst q) d (snd q)) qs = Some ws ->
  exists sargs, mapO (as_arg VT V cluster) args = Some sargs /\ template VT V sargs = dtemplate VT V args /\
    Forall2 (holds (VT:=VT) n enc shared dev) (objects VT V sargs) ws.
Proof.
  revert qs ws. induction args as [|[d' x|v] args IH]; intros qs ws F C K E.
  - cbn in F. inversion F; subst. injection E as <-. exists []. repeat split. constructor.
  - unfold dobjects in F. cbn in F. inversion F; subst. destruct y as [d'' v]. match goal with H : good _ _ |- _ => destruct H as [Hd Hl]; cbn in Hd, Hl; subst d'' end.
    cbn [SimpModel.mapO fst snd] in E. destruct (arrives cluster enc d' d v) as [w|] eqn:A; [|discriminate E]. destruct (mapO _ l') as [ws'|] eqn:E'; [|discriminate E]. injection E as <-.
    destruct (IH l' ws' ltac:(assumption) C K E') as (sargs & R & T & H). destruct Hl as (dev' & C' & O & Hl).
    cbn [SimpModel.mapO as_arg]. rewrite C', R. cbn [option_map]. exists (Obj VT V dev' x :: sargs). split; [reflexivity|]. split; [unfold template, dtemplate in *; cbn; congruence|].
    unfold objects. cbn. constructor; [|exact H]. unfold arrives in A. destruct (String.eqb_spec d' d) as [->|Nd].
    + injection A as <-. rewrite C in C'. injection C' as <-. rewrite K in Hl. left. auto.
    + rewrite C, C' in A. cbn [option_map] in A. rewrite K in A. destruct (W d dev C) as (Nm & _). destruct (W d' dev' C') as (Nm' & _).
      assert (dv_name dev' <> dv_name dev) as ND by (rewrite Nm, Nm'; exact Nd).
      destruct (dv_kind dev') eqn:K'; try discriminate A; injection A as <-; destruct Hl as (t & a & Ma & Pa); pose proof (member_lt _ _ _ C' Ma); right; exists v; (split; [|reflexivity]); (split; [exact ND|]); cbn; rewrite ?K'; eauto 10.
  - destruct (IH qs ws F C K E) as (sargs & R & T & H). cbn [SimpModel.mapO as_arg]. rewrite R. exists (Const VT V v :: sargs). split; [reflexivity|]. split; [unfold template, dtemplate in *; cbn; congruence|exact H].
Qed.

Lemma run_on_ok st d f types args qs ws outs : inv st -> Forall2 good (dobjects VT V args) qs ->
  mapO (fun q => arrives cluster enc (fst q) d (snd q)) qs = Some ws ->
  computes cluster sec accepts d (fun vs => f (fill V (dtemplate VT V args) vs)) (length types) ws = Some outs ->
  exists ys st', run_on st d f types args = Some (ys, st') /\ Forall2 (lies d) ys outs /\ inv st'.
Proof.
  intros I F E H. unfold computes in H. unfold DevProgModel.run_on. destruct (cluster d) as [dev|] eqn:C; [|discriminate H]. cbn [option_map] in H.
  destruct (W d dev C) as (Nm & Lm & Km).
  assert (PLAIN : (dv_kind dev = PPU \/ dv_kind dev = TEE) -> (if length (f (fill V (dtemplate VT V args) ws)) =? length types then Some (f (fill V (dtemplate VT V args) ws)) else None) = Some outs -> (exists r, dv_members dev = [r]) ->
    exists ys st', match moves st d (dobjects VT V args) with
      | None => None
      | Some (xs, st) => match dv_members dev with
              | [r] => match pcall VT V n [r] (Local VT V types (fun vs k => match all_some vs with Some vs => nth_error (f (fill V (dtemplate VT V args) vs)) k | None => None end)) xs with Some ys => Some (ys, st) | None => None end
              | _ => None end
      end = Some (ys, st') /\ Forall2 (lies d) ys outs /\ inv st').
  { clear H. intros K H (r & Mr). destruct (Nat.eqb_spec (length (f (fill V (dtemplate VT V args) ws))) (length types)) as [Ln|]; [|discriminate H]. injection H as H.
    destruct (moves_lies _ _ st d ws I F E) as (xs & st' & M & X & I'). rewrite M, Mr.
    set (loc := Local VT V types _).
    assert (HX : Forall2 (fun (x : object) w => exists t, plain_at x t r w) xs ws).
    { clear -X K C Mr. induction X as [|x w xs ws (dev' & C' & _ & Hx) X IH]; constructor; [|exact IH]. rewrite C in C'. injection C' as <-. destruct K as [K|K]; rewrite K in Hx; destruct Hx as (t & a & Ma & Pa); rewrite Mr in Ma; injection Ma as <-; eauto. }
    destruct (pcall_ok n r loc xs) as (ys & Ey).
    { intros x Hx. clear -HX Hx. induction HX as [|x' w xs ws (t & _ & P & _) X IH]; [destruct Hx|]. destruct Hx as [<-|Hx]; [|exact (IH Hx)]. exists [r]. split; [exact P|left; reflexivity]. }
    rewrite Ey. exists ys, st'. split; [reflexivity|]. split; [|exact I'].
    assert (AS : all_some (map (fun x : object => snd x r) xs) = Some ws).
    { clear -HX. induction HX as [|x' w xs ws (t & _ & _ & P & _) X IH]; [reflexivity|]. cbn. rewrite P, IH. reflexivity. }
    destruct (pcall_sound _ _ _ _ _ Ey) as [Ly Ky].
    assert (G : forall j y, nth_error ys j = Some y -> exists o, nth_error outs j = Some o /\ lies d y o).
    { intros j y Hy. destruct (Ky j y Hy) as (t & Et & A & B). cbn [lf_out lf_sem loc] in *. rewrite AS in B. rewrite H in *.
      destruct (nth_error outs j) as [o|] eqn:Eo; [|apply nth_error_None in Eo; assert (j < length types) by (apply nth_error_Some; congruence); lia].
      exists o. split; [reflexivity|]. apply (lies_plain d dev y t r o C K Mr). apply plain_of; assumption. }
    cbn [lf_out loc] in Ly. rewrite H in Ln. rewrite <- Ln in Ly. clear -G Ly. revert outs G Ly. induction ys as [|y ys IH]; intros [|o outs] G Ly; try discriminate Ly; constructor.
    - destruct (G 0 y eq_refl) as (o' & Eo & Hl). injection Eo as <-. exact Hl.
    - apply IH; [intros j z Hz; exact (G (S j) z Hz)|cbn in Ly; congruence]. }
  destruct (dv_kind dev) eqn:K; [apply PLAIN; auto| |apply PLAIN; auto|discriminate H].
  clear PLAIN. destruct (as_arg_ok args qs d dev ws F C K E) as (sargs & R & T & HS). rewrite R. destruct (draw 0) as [tsk vsk].
  unfold accepts in H. destruct (compile (length ws) _) as [cp|] eqn:Ec; [|discriminate H]. injection H as <-. rewrite <- T in Ec.
  destruct (device_run_ok vt_eqb vt_eqb_spec n share_t key_t make_shares reconstruct encrypt decrypt pub hkdf quote attest derive compile joint is_share enc sec shared L dev K (proj1 Km) (proj2 Km) Lm tsk vsk f sargs ws (left (spu_calls VT V st)) cp HS Ec) as (ys & rt & Er & Fr).
  rewrite Er. rewrite T in Fr. do 2 eexists. split; [reflexivity|]. split; [|exact I]. clear -Fr C K.
  induction Fr as [|v y vs ys Hv Fr IH]; constructor; [|exact IH]. exact (lies_spu d dev y v C K Hv).
Qed.

Lemma on_good d ys outs : Forall2 (lies d) ys outs -> Forall2 good (map (pair d) ys) (map (pair d) outs).
Proof. induction 1; cbn; constructor; [split; [reflexivity|assumption]|assumption]. Qed.

Lemma kind_of_eq d : kind_of cluster d = option_map dv_kind (cluster d).
Proof. reflexivity. Qed.

Lemma mapO_arrives wenv to_ : forall is qs, mapO (nth_error wenv) is = Some qs ->
  mapO (fun i => match nth_error wenv i with Some (from, v) => arrives cluster enc from to_ v | None => None end) is = mapO (fun q : string * V => arrives cluster enc (fst q) to_ (snd q)) qs.
Proof.
  induction is as [|i is IH]; intros qs E; [injection E as <-; reflexivity|]. cbn [SimpModel.mapO] in E. destruct (nth_error wenv i) as [[d v]|] eqn:Ei; [|discriminate E]. destruct (mapO (nth_error wenv) is) as [qs'|] eqn:Er; [|discriminate E]. injection E as <-.
  cbn [SimpModel.mapO fst snd]. rewrite Ei, (IH qs' eq_refl). reflexivity.
Qed.

Lemma stmt_ok st env wenv s more : inv st -> Forall2 good env wenv -> meaning_of cluster enc sec accepts wenv s = Some more ->
  exists omore st', run_stmt st env s = Some (omore, st') /\ Forall2 good omore more /\ inv st'.
Proof.
  intros I F H. destruct s as [d v|d i|d f types rs].
  - cbn [meaning_of] in H. unfold DevProgModel.run_stmt. destruct (cluster d) as [dev|] eqn:C; [|discriminate H]. cbn [option_map] in H. destruct (W d dev C) as (Nm & Lm & Km).
    assert (PLAIN : (dv_kind dev = PPU \/ dv_kind dev = TEE) -> Some [(d, v)] = Some more -> (exists r, dv_members dev = [r]) ->
      exists omore st', match dv_members dev with [r] => option_map (fun y => ([(d, y)], st)) (pcall1 VT V n [r] (const VT V (typ v) v) []) | _ => None end = Some (omore, st') /\ Forall2 good omore more /\ inv st').
    { intros K E (r & Mr). injection E as <-. rewrite Mr. unfold const. destruct (pcall1_ok n r (typ v) (fun _ _ => Some v) []) as (y & Ey); [intros x []|]. rewrite Ey. do 2 eexists. split; [reflexivity|]. split; [|exact I].
      constructor; [|constructor]. split; [reflexivity|]. apply pcall1_sound in Ey. destruct Ey as [Y1 Y2]. apply (lies_plain d dev y (typ v) r v C K Mr). apply plain_of; assumption. }
    destruct (dv_kind dev) eqn:K; [apply PLAIN; auto| |apply PLAIN; auto|discriminate H]. clear PLAIN.
    destruct (computes cluster sec accepts d (fun _ => [v]) 1 []) as [outs|] eqn:Eo; [|discriminate H]. injection H as <-.
    destruct (run_on_ok st d (fun vs => vs) [] [Value VT V v] [] [] outs I) as (ys & st' & R & X & I'); [constructor|reflexivity| |].
    + unfold computes in *. rewrite C in *. cbn [option_map] in *. rewrite K in *. exact Eo.
    + rewrite R. cbn [on option_map fst snd]. do 2 eexists. split; [reflexivity|]. split; [apply on_good, X|exact I'].
  - cbn [meaning_of] in H. unfold DevProgModel.run_stmt. destruct (nth_error wenv i) as [[from v]|] eqn:Ei; [|discriminate H].
    assert (P : exists q, nth_error env i = Some q /\ good q (from, v)).
    { clear -F Ei. revert i Ei. induction F as [|q w' qs ws Hq HF IH]; intros [|i] Ew; try discriminate Ew; cbn in *; [injection Ew as <-; eauto|eauto]. }
    destruct P as ([d' x] & Ex & [Hd Hl]). cbn in Hd, Hl. subst d'. rewrite Ex. destruct (cluster d) as [dev|] eqn:C; [|discriminate H].
    destruct (arrives cluster enc from d v) as [w|] eqn:A; [|discriminate H]. injection H as <-.
    destruct (move_lies st from d x v w I Hl A) as (y & st' & M & Y & I' & _). rewrite M. cbn [option_map fst snd]. do 2 eexists. split; [reflexivity|]. split; [|exact I']. constructor; [|constructor]. split; [reflexivity|exact Y].
  - cbn [meaning_of] in H. destruct (mapO _ rs) as [places|] eqn:Ep; [|discriminate H].
    destruct (resolve_good env wenv F rs places Ep) as (args & qs & A & B & T & G & Q).
    destruct (chosen cluster d places) as [d'|] eqn:Ec; [|discriminate H]. rewrite (mapO_arrives _ _ _ _ Q) in H.
    destruct (mapO _ qs) as [ws|] eqn:Ew; [|discriminate H]. destruct (computes _ _ _ _ _ _ _) as [outs|] eqn:Eo; [|discriminate H]. injection H as <-. rewrite <- T in Eo.
    destruct (run_on_ok st d' f types args qs ws outs I G Ew Eo) as (ys & st' & R & X & I').
    unfold DevProgModel.run_stmt. rewrite A.
    assert (ED : match d with Some d0 => Some d0 | None => match infer true (kind_of cluster) (map (fun a => match a with OnDevice _ _ d0 _ => Some d0 | Value _ _ _ => None end) args) with Dev d0 => Some d0 | _ => None end end = Some d').
    { rewrite <- Ec. unfold chosen. destruct d; [reflexivity|]. rewrite <- B. reflexivity. }
    rewrite ED, R. cbn [on option_map fst snd]. do 2 eexists. split; [reflexivity|]. split; [apply on_good, X|exact I'].
Qed.

Lemma prog_ok : forall p st env wenv ws, inv st -> Forall2 good env wenv -> meaning cluster enc sec accepts wenv p = Some ws ->
  exists out, run_prog st env p = Some out /\ Forall2 good out ws.
Proof.
  induction p as [|s p IH]; intros st env wenv ws I F H; cbn [meaning DevProgModel.run_prog] in *; [injection H as <-; eauto|].
  destruct (meaning_of _ _ _ _ _ s) as [more|] eqn:E; [|discriminate H]. destruct (stmt_ok st env wenv s more I F E) as (om & st' & R & G & I'). rewrite R.
  apply (IH st' (env ++ om) (wenv ++ more) ws I'); [apply Forall2_app; assumption|exact H].
Qed.
Lemma lies_fetch d dev x v : cluster d = Some dev -> (dv_kind dev = PPU \/ dv_kind dev = TEE) -> lies d x v -> fetch VT V dev x = Some v.
Proof.
  intros C K (dev' & C' & _ & H). rewrite C in C'. injection C' as <-. unfold fetch. destruct K as [K|K]; rewrite K in *; destruct H as (t & a & Ma & _ & _ & P & _); rewrite Ma; exact P.
Qed.
End P.

(* ---------------------------------------------------------------- exact arithmetic *)
Section Exact.
Context {VT V : Type}.
Variable cluster : string -> option device.
Variables (enc : V -> V) (sec : (list V -> list V) -> list V -> list V) (acc : nat -> (list V -> list V) -> bool).
Hypothesis He : forall v, enc v = v.
Hypothesis Hs : forall g vs, sec g vs = g vs.

Lemma arrives_same from to_ v w : arrives cluster enc from to_ v = Some w -> w = v.
Proof.
  unfold arrives. destruct (String.eqb from to_); [congruence|]. destruct (option_map dv_kind (cluster from)) as [[]|]; destruct (option_map dv_kind (cluster to_)) as [[]|]; rewrite ?He; congruence.
Qed.
Lemma computes_same d g k vs outs : computes cluster sec acc d g k vs = Some outs -> outs = g vs.
Proof.
  unfold computes. destruct (option_map dv_kind (cluster d)) as [[]|]; try discriminate; [destruct (_ =? _)|destruct (acc _ _)|destruct (_ =? _)]; rewrite ?Hs; congruence.
Qed.
Lemma map_snd_pair (d : string) (l : list V) : map snd (map (pair d) l) = l.
Proof. induction l as [|a l IH]; [reflexivity|]. cbn. f_equal. exact IH. Qed.
Lemma refs_same (env : list (string * V)) d : forall rs ws, mapO (fun i => match nth_error env i with Some (from, v) => arrives cluster enc from d v | None => None end) (refs rs) = Some ws ->
  mapO (fun a => match a with Ref _ i => nth_error (map snd env) i | Lit _ v => Some v end) rs = Some (fill V (lits rs) ws).
Proof.
  induction rs as [|[i|v] rs IH]; intros ws E.
  - injection E as <-. reflexivity.
  - cbn [refs SimpModel.mapO] in E. destruct (nth_error env i) as [[from v]|] eqn:Ei; [|discriminate E]. destruct (arrives cluster enc from d v) as [w|] eqn:A; [|discriminate E]. destruct (mapO _ (refs rs)) as [ws'|] eqn:Er; [|discriminate E]. injection E as <-.
    cbn [SimpModel.mapO]. rewrite nth_error_map, Ei. cbn [option_map snd]. rewrite (IH ws' eq_refl). apply arrives_same in A. subst w. reflexivity.
  - cbn [refs] in E. cbn [SimpModel.mapO]. rewrite (IH ws E). reflexivity.
Qed.
Lemma meaning_python : forall (p : list (stmt VT V)) env ws, meaning cluster enc sec acc env p = Some ws -> python p (map snd env) = Some (map snd ws).
Proof.
  induction p as [|s p IH]; intros env ws H; cbn [meaning] in H; [injection H as <-; reflexivity|].
  destruct (meaning_of cluster enc sec acc env s) as [more|] eqn:E; [|discriminate H]. specialize (IH _ _ H). rewrite map_app in IH.
  destruct s as [d v|d i|d f types rs]; cbn [meaning_of python] in *.
  - assert (map snd more = [v]) as <-; [|exact IH]. destruct (option_map dv_kind (cluster d)) as [[]|]; try discriminate E; try (injection E as <-; reflexivity).
    destruct (computes _ _ _ _ _ _ _) as [outs|] eqn:Eo; [|discriminate E]. injection E as <-. rewrite map_snd_pair. exact (computes_same _ _ _ _ _ Eo).
  - destruct (nth_error env i) as [[from v]|] eqn:Ei; [|discriminate E]. destruct (cluster d); [|discriminate E]. destruct (arrives cluster enc from d v) as [w|] eqn:A; [|discriminate E]. injection E as <-.
    rewrite nth_error_map, Ei. cbn [option_map snd]. apply arrives_same in A. subst w. exact IH.
  - destruct (mapO _ rs) as [places|]; [|discriminate E]. destruct (chosen cluster d places) as [d'|]; [|discriminate E]. destruct (mapO _ (refs rs)) as [ws'|] eqn:Er; [|discriminate E].
    destruct (computes _ _ _ _ _ _ _) as [outs|] eqn:Eo; [|discriminate E]. injection E as <-. rewrite (refs_same _ _ _ _ Er). rewrite map_snd_pair in IH. apply computes_same in Eo. subst outs. exact IH.
Qed.
End Exact.
