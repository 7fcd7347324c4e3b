(** Properties of devices: inference (C43), transfers (C44), fetch (C45), SPU links (C46), share
    order (C69), TEE session cache (C70).

    VT are value types, V local values, n the world size; the sharing, encryption, key agreement
    and attestation functions are parameters, constrained only where a theorem says so. *)
From Coq Require Import Bool Arith ZArith Lia String Sorted Permutation List.
From Verif Require Import SimpModel SimpSpec DeviceModel DeviceSpec DeviceProofs.
Import ListNotations.
Local Open Scope nat_scope.

(* ================================================================ C43 *)

(** The device chosen is the only one that occurs among the arguments; or, with automatic
    transfer, when all devices are known, the only secure one. *)
Theorem C43_device : forall (auto : bool) (kind_of : string -> option kind) (args : list (option string)) (d : string),
  infer auto kind_of args = Dev d <->
  occurs args d /\ ((forall d', occurs args d' -> d' = d) \/
   (auto = true /\ (forall d', occurs args d' -> kind_of d' <> None) /\ secure kind_of d /\ (forall d', occurs args d' -> secure kind_of d' -> d' = d))).
Proof. exact infer_dev. Qed.
Print Assumptions C43_device.
(** A bare KeyError escapes exactly when several devices occur and one is not in the cluster. *)
Theorem C43_key_error : forall (auto : bool) (kind_of : string -> option kind) (args : list (option string)),
  infer auto kind_of args = KeyError <->
  auto = true /\ (exists d1 d2, occurs args d1 /\ occurs args d2 /\ d1 <> d2) /\ exists d, occurs args d /\ kind_of d = None.
Proof. exact infer_key. Qed.
Print Assumptions C43_key_error.
(** Order, repetition and arguments without device do not matter. *)
Theorem C43_order_independent : forall (auto : bool) (kind_of : string -> option kind) (args args' : list (option string)),
  (Permutation args args' \/ (forall d, occurs args d <-> occurs args' d)) -> infer auto kind_of args = infer auto kind_of args'.
Proof.
  intros auto kind_of args args' [P|H]; [|apply infer_same, H]. apply infer_same. intros d. unfold occurs. split; apply Permutation_in; [exact P|apply Permutation_sym, P].
Qed.
Print Assumptions C43_order_independent.
Definition ex_kind (s : string) : option kind :=
  if String.eqb s "P0" then Some PPU else if String.eqb s "P1" then Some PPU else if String.eqb s "SP" then Some SPU else if String.eqb s "T" then Some TEE else None.
Example C43_ex : infer true ex_kind [Some "P0"; None; Some "SP"; Some "P1"]%string = Dev "SP"%string /\ infer true ex_kind [Some "P0"; Some "P1"]%string = InferenceError /\
  infer true ex_kind [Some "T"; Some "SP"]%string = InferenceError /\ infer false ex_kind [Some "P0"; Some "SP"]%string = InferenceError /\ infer true ex_kind [Some "P0"; Some "X"]%string = KeyError /\
  infer true ex_kind [Some "X"; Some "X"]%string = Dev "X"%string.
Proof. repeat split; reflexivity. Qed.

(* ================================================================ C44 *)

(** a concrete instance: integers, additive shares, one-time-pad encryption *)
Section Instance.
Local Open Scope Z_scope.
Definition zmake (v : Z) (k : nat) : list Z := (v - 7 * Z.of_nat (pred k)) :: repeat 7 (pred k).
Definition zrec (l : list Z) : Z := fold_right Z.add 0 l.
Definition zd2d (n : nat) := d2d nat Z Nat.eqb n 100%nat 200%nat zmake zrec Z.add (fun k c => c - k) (fun s => s) (fun x => x + 1) (fun x => x + 5) (fun x => x - 5) Z.mul.
Lemma zshare : forall v k, (0 < k)%nat -> zrec (zmake v k) = v.
Proof.
  intros v k Hk. unfold zrec, zmake. cbn [fold_right]. assert (forall j, fold_right Z.add 0 (repeat 7 j) = 7 * Z.of_nat j) as G by (induction j; cbn [repeat fold_right]; lia). rewrite G. lia.
Qed.
Lemma zlen : forall v k, (0 < k)%nat -> length (zmake v k) = k.
Proof. intros v [|k] H; [lia|]. unfold zmake. cbn [length pred]. rewrite repeat_length. reflexivity. Qed.
End Instance.
Definition P0 := Device "P0" PPU [0]. Definition P1 := Device "P1" PPU [1]. Definition SP := Device "SP" SPU [2; 1]. Definition T2 := Device "T" TEE [2].
Definition secret : object nat Z := (MP _ 7 (Some [0]), fun r => if r =? 0 then Some 41%Z else None).

(** No rank outside the members of the two devices ever holds anything; afterwards only members
    of the destination hold the result. *)
Theorem C44_confined : forall (VT V : Type) (vt_eqb : VT -> VT -> bool) (n : nat) (share_t key_t : VT)
    (make_shares : V -> nat -> list V) (reconstruct : list V -> V) (encrypt decrypt : V -> V -> V) (pub hkdf quote attest : V -> V) (derive : V -> V -> V)
    (from to_ : device) (cached : option (object VT V * object VT V)) (tsk vsk : V) (obj y : object VT V) (tr : list (step VT V)),
  d2d VT V vt_eqb n share_t key_t make_shares reconstruct encrypt decrypt pub hkdf quote attest derive from to_ cached tsk vsk obj = Some (y, tr) ->
  (forall z, In z tr -> only_at (obj_of z) (dv_members from ++ dv_members to_)) /\
  (dv_name from = dv_name to_ /\ y = obj \/ only_at y (dv_members to_)).
Proof. intros VT V e n st kt ms rc enc dec pub hk q at_ dr from to_ c tsk vsk obj y tr H. exact (d2d_confined e n st kt ms rc enc dec pub hk q at_ dr from to_ c tsk vsk obj y tr H). Qed.
Print Assumptions C44_confined.

(** Sealing to an SPU: a rank other than the source never holds anything but the share of its
    position; the i-th member ends up with the i-th share. *)
Theorem C44_seal : forall (VT V : Type) (vt_eqb : VT -> VT -> bool) (n : nat) (share_t key_t : VT)
    (make_shares : V -> nat -> list V) (reconstruct : list V -> V) (encrypt decrypt : V -> V -> V) (pub hkdf quote attest : V -> V) (derive : V -> V -> V)
    (from to_ : device) (a : nat) (cached : option (object VT V * object VT V)) (tsk vsk : V) (obj : object VT V) (t : VT) (v : V),
  (forall x y, vt_eqb x y = true <-> x = y) -> dv_name from <> dv_name to_ -> (dv_kind from = PPU \/ dv_kind from = TEE) -> dv_members from = [a] -> dv_kind to_ = SPU ->
  a < n -> (forall m, In m (dv_members to_) -> m < n) -> NoDup (dv_members to_) -> dv_members to_ <> [] ->
  plain_at obj t a v -> (forall v k, 0 < k -> length (make_shares v k) = k) ->
  exists (y : object VT V) (tr : list (step VT V)),
    d2d VT V vt_eqb n share_t key_t make_shares reconstruct encrypt decrypt pub hkdf quote attest derive from to_ cached tsk vsk obj = Some (y, tr) /\
    (forall i r, nth_error (dv_members to_) i = Some r -> snd y r = nth_error (make_shares v (length (dv_members to_))) i) /\
    (forall z r w, In z tr -> snd (obj_of z) r = Some w -> r <> a -> exists i, nth_error (dv_members to_) i = Some r /\ nth_error (make_shares v (length (dv_members to_))) i = Some w).
Proof.
  intros VT V e n st kt ms rc enc dec pub hk q at_ dr from to_ a c tsk vsk obj t v He Hn Hk Hm Hk2 Ha Hms ND Hne Ho Hl.
  destruct (to_spu_spec e He n st ms a (dv_members to_) obj t v Ha Hms ND Hne Ho) as (y & tr & E & _ & _ & Y & _ & W).
  { apply Hl. destruct (dv_members to_); [congruence|cbn; lia]. }
  exists y, tr. split; [|split; assumption]. unfold d2d. apply String.eqb_neq in Hn. rewrite Hn, Hm, Hk2. destruct Hk as [-> | ->]; exact E.
Qed.
Print Assumptions C44_seal.

(** PPU to PPU: the value arrives. *)
Theorem C44_ppu : forall (VT V : Type) (vt_eqb : VT -> VT -> bool) (n : nat) (share_t key_t : VT)
    (make_shares : V -> nat -> list V) (reconstruct : list V -> V) (encrypt decrypt : V -> V -> V) (pub hkdf quote attest : V -> V) (derive : V -> V -> V)
    (from to_ : device) (a b : nat) (cached : option (object VT V * object VT V)) (tsk vsk : V) (obj : object VT V) (t : VT) (v : V),
  dv_name from <> dv_name to_ -> dv_kind from = PPU -> dv_members from = [a] -> dv_kind to_ = PPU -> dv_members to_ = [b] -> a < n -> b < n -> plain_at obj t a v ->
  exists (y : object VT V) (tr : list (step VT V)),
    d2d VT V vt_eqb n share_t key_t make_shares reconstruct encrypt decrypt pub hkdf quote attest derive from to_ cached tsk vsk obj = Some (y, tr) /\ plain_at y t b v.
Proof.
  intros VT V e n st kt ms rc enc dec pub hk q at_ dr from to_ a b c tsk vsk obj t v Hn K1 M1 K2 M2 Ha Hb (O1 & O2 & O3 & O4).
  unfold d2d. apply String.eqb_neq in Hn. rewrite Hn, K1, K2, M1, M2. unfold ppu_to_ppu. destruct (shuffle1_ok n obj b a [a] O2 (or_introl eq_refl) Ha Hb) as (y & E). rewrite E.
  do 2 eexists. split; [reflexivity|]. apply shuffle1 in E. destruct E as [T W]. apply plain_of; [rewrite T, O1; reflexivity|]. rewrite O3 in W. exact W.
Qed.
Print Assumptions C44_ppu.

(** Between a PPU and a TEE, in both directions, with a fresh session or a cached one whose two
    ends hold the same key: the value arrives, and all that travels is the attestation quote,
    the public key of the PPU and the encryption of the value. *)
Theorem C44_tee : forall (VT V : Type) (vt_eqb : VT -> VT -> bool) (n : nat) (share_t key_t : VT)
    (make_shares : V -> nat -> list V) (reconstruct : list V -> V) (encrypt decrypt : V -> V -> V) (pub hkdf quote attest : V -> V) (derive : V -> V -> V)
    (ppu tee : device) (a b : nat) (cached : option (object VT V * object VT V)) (tsk vsk ck : V) (obj : object VT V) (t : VT) (v : V),
  (forall k v, decrypt k (encrypt k v) = v) -> (forall x, attest (quote x) = x) -> (forall s s', derive s (pub s') = derive s' (pub s)) ->
  dv_name ppu <> dv_name tee -> dv_kind ppu = PPU -> dv_members ppu = [a] -> dv_kind tee = TEE -> dv_members tee = [b] -> a < n -> b < n ->
  (forall sf st, cached = Some (sf, st) -> plain_at sf key_t a ck /\ plain_at st key_t b ck) ->
  let key := match cached with Some _ => ck | None => hkdf (derive vsk (pub tsk)) end in
  let wire (dst : nat) (tr : list (step VT V)) := forall x r w, In (Sent _ _ x) tr -> snd x r = Some w ->
     (r = dst /\ w = encrypt key v) \/ (cached = None /\ ((r = a /\ w = quote (pub tsk)) \/ (r = b /\ w = pub vsk))) in
  (plain_at obj t a v -> exists (y : object VT V) (tr : list (step VT V)),
    d2d VT V vt_eqb n share_t key_t make_shares reconstruct encrypt decrypt pub hkdf quote attest derive ppu tee cached tsk vsk obj = Some (y, tr) /\ plain_at y t b v /\ wire b tr) /\
  (plain_at obj t b v -> exists (y : object VT V) (tr : list (step VT V)),
    d2d VT V vt_eqb n share_t key_t make_shares reconstruct encrypt decrypt pub hkdf quote attest derive tee ppu cached tsk vsk obj = Some (y, tr) /\ plain_at y t a v /\ wire a tr).
Proof.
  intros VT V e n st kt ms rc enc dec pub hk q at_ dr ppu tee a b c tsk vsk ck obj t v Hd Hat Hdh Hn K1 M1 K2 M2 Ha Hb Hc key wire.
  pose proof (proj2 (String.eqb_neq _ _) Hn) as Hn1. pose proof (proj2 (String.eqb_neq _ _) (not_eq_sym Hn)) as Hn2.
  assert (exists (sf sT : object VT V) (tr0 : list (step VT V)), (forall k, with_session VT V n kt pub hk q at_ dr a b c tsk vsk k = match k sf sT with Some (y, tr') => Some (y, tr0 ++ tr') | None => None end) /\
     plain_at sf kt a key /\ plain_at sT kt b key /\ (forall x r w, In (Sent _ _ x) tr0 -> snd x r = Some w -> c = None /\ ((r = a /\ w = q (pub tsk)) \/ (r = b /\ w = pub vsk)))) as (sf & sT & tr0 & HS & PF & PT & PW).
  { unfold with_session. destruct c as [[sf sT]|].
    - exists sf, sT, []. split; [intros k; destruct (k sf sT) as [[y tr]|]; reflexivity|]. destruct (Hc sf sT eq_refl) as [A B]. split; [exact A|]. split; [exact B|]. intros x r w [].
    - destruct (session_spec n kt pub hk q at_ dr a b tsk vsk Ha Hb Hat Hdh) as (sf & sT & tr & E & A & B & C). exists sf, sT, tr. rewrite E. split; [intros k; destruct (k sf sT) as [[y tr']|]; reflexivity|]. split; [exact A|]. split; [exact B|]. intros x r w H1 H2. split; [reflexivity|]. exact (C x r w H1 H2). }
  split; intros Ho; unfold d2d.
  - rewrite Hn1, K1, K2, M1, M2. rewrite HS. destruct (encrypted_spec n kt enc dec a b sf sT obj key t v Ha Hb PF PT Ho Hd) as (y & tr & E & Y & W). rewrite E.
    exists y, (tr0 ++ tr). split; [reflexivity|]. split; [exact Y|]. intros x r w Hx Hw. apply in_app_iff in Hx. destruct Hx as [Hx|Hx]; [right; exact (PW x r w Hx Hw)|left; exact (W x r w Hx Hw)].
  - rewrite Hn2, K1, K2, M1, M2. rewrite HS. destruct (encrypted_spec n kt enc dec b a sT sf obj key t v Hb Ha PT PF Ho Hd) as (y & tr & E & Y & W). rewrite E.
    exists y, (tr0 ++ tr). split; [reflexivity|]. split; [exact Y|]. intros x r w Hx Hw. apply in_app_iff in Hx. destruct Hx as [Hx|Hx]; [right; exact (PW x r w Hx Hw)|left; exact (W x r w Hx Hw)].
Qed.
Print Assumptions C44_tee.

(** Sealing to an SPU and revealing from it (to the same or another PPU or TEE) gives the value
    back, with its members in any order. *)
Theorem C44_seal_reveal : forall (VT V : Type) (vt_eqb : VT -> VT -> bool) (n : nat) (share_t key_t : VT)
    (make_shares : V -> nat -> list V) (reconstruct : list V -> V) (encrypt decrypt : V -> V -> V) (pub hkdf quote attest : V -> V) (derive : V -> V -> V)
    (from spu to_ : device) (a b : nat) (cached : option (object VT V * object VT V)) (tsk vsk : V) (obj : object VT V) (t : VT) (v : V),
  (forall x y, vt_eqb x y = true <-> x = y) -> (forall v k, 0 < k -> length (make_shares v k) = k) -> (forall v k, 0 < k -> reconstruct (make_shares v k) = v) ->
  dv_name from <> dv_name spu -> dv_name spu <> dv_name to_ -> (dv_kind from = PPU \/ dv_kind from = TEE) -> (dv_kind to_ = PPU \/ dv_kind to_ = TEE) -> dv_kind spu = SPU ->
  dv_members from = [a] -> dv_members to_ = [b] -> a < n -> b < n -> (forall m, In m (dv_members spu) -> m < n) -> NoDup (dv_members spu) -> dv_members spu <> [] ->
  plain_at obj t a v ->
  let move := d2d VT V vt_eqb n share_t key_t make_shares reconstruct encrypt decrypt pub hkdf quote attest derive in
  exists (s y : object VT V) (tr tr' : list (step VT V)),
    move from spu cached tsk vsk obj = Some (s, tr) /\ move spu to_ cached tsk vsk s = Some (y, tr') /\ snd y b = Some v /\ only_at y [b].
Proof.
  intros VT V e n st kt ms rc enc dec pub hk q at_ dr from spu to_ a b c tsk vsk obj t v He Hl Hr Hn1 Hn2 Kf Kt Ks Mf Mt Ha Hb Hms ND Hne Ho move.
  assert (0 < length (dv_members spu)) as Hpos by (destruct (dv_members spu); [congruence|cbn; lia]).
  destruct (to_spu_spec e He n st ms a (dv_members spu) obj t v Ha Hms ND Hne Ho (Hl v _ Hpos)) as (s & tr & E & (Q & HQ & HQi) & _ & Y & _ & _).
  destruct (from_spu_spec n st rc b (dv_members spu) s Q (ms v (length (dv_members spu))) Hb Hms HQ) as (y & tr' & E' & (_ & _ & Y1 & Y2)).
  - intros m Hm. apply HQi, Hm.
  - apply Hl, Hpos.
  - exact Y.
  - exists s, y, tr, tr'. apply String.eqb_neq in Hn1. apply String.eqb_neq in Hn2. unfold move, d2d. rewrite Hn1, Hn2, Ks, Mf, Mt. split; [destruct Kf as [-> | ->]; exact E|]. split; [destruct Kt as [-> | ->]; exact E'|]. rewrite Hr in Y1 by exact Hpos. auto.
Qed.
Print Assumptions C44_seal_reveal.
Example C44_ex :
  (exists s tr y tr', zd2d 3 P0 SP None 3%Z 4%Z secret = Some (s, tr) /\ map (snd s) [0; 1; 2] = [None; Some 7%Z; Some 34%Z] /\ zd2d 3 SP P1 None 3%Z 4%Z s = Some (y, tr') /\ snd y 1 = Some 41%Z) /\
  (exists y tr, zd2d 3 P0 T2 None 3%Z 4%Z secret = Some (y, tr) /\ snd y 2 = Some 41%Z /\
     flat_map (fun s => match s with Sent _ _ x => [map (snd x) [0; 1; 2]] | _ => [] end) tr = [[Some 8; None; None]; [None; None; Some 4]; [None; None; Some 54]]%Z).
Proof.
  split.
  - do 4 eexists. split; [vm_compute; reflexivity|]. split; [vm_compute; reflexivity|]. split; vm_compute; reflexivity.
  - do 2 eexists. split; [vm_compute; reflexivity|]. split; vm_compute; reflexivity.
Qed.

(* ================================================================ C45 *)

(** fetch of an SPU object does not reconstruct: of a sealed value it returns the first share,
    whatever the sharing. *)
Theorem C45_fetch_refuted : forall (VT V : Type) (vt_eqb : VT -> VT -> bool) (n : nat) (share_t key_t : VT)
    (make_shares : V -> nat -> list V) (reconstruct : list V -> V) (encrypt decrypt : V -> V -> V) (pub hkdf quote attest : V -> V) (derive : V -> V -> V)
    (from to_ : device) (a : nat) (cached : option (object VT V * object VT V)) (tsk vsk : V) (obj : object VT V) (t : VT) (v : V),
  (forall x y, vt_eqb x y = true <-> x = y) -> dv_name from <> dv_name to_ -> (dv_kind from = PPU \/ dv_kind from = TEE) -> dv_members from = [a] -> dv_kind to_ = SPU ->
  a < n -> (forall m, In m (dv_members to_) -> m < n) -> NoDup (dv_members to_) -> dv_members to_ <> [] ->
  plain_at obj t a v -> (forall v k, 0 < k -> length (make_shares v k) = k) ->
  exists (y : object VT V) (tr : list (step VT V)),
    d2d VT V vt_eqb n share_t key_t make_shares reconstruct encrypt decrypt pub hkdf quote attest derive from to_ cached tsk vsk obj = Some (y, tr) /\
    fetch VT V to_ y = nth_error (make_shares v (length (dv_members to_))) 0.
Proof.
  intros VT V e n st kt ms rc enc dec pub hk q at_ dr from to_ a c tsk vsk obj t v He Hn Hk Hm Hk2 Ha Hms ND Hne Ho Hl.
  destruct (C44_seal VT V e n st kt ms rc enc dec pub hk q at_ dr from to_ a c tsk vsk obj t v He Hn Hk Hm Hk2 Ha Hms ND Hne Ho Hl) as (y & tr & E & Y & _).
  exists y, tr. split; [exact E|]. unfold fetch. rewrite Hk2.
  assert (length (ms v (length (dv_members to_))) = length (dv_members to_)) as L by (apply Hl; destruct (dv_members to_); [congruence|cbn; lia]).
  set (sh := ms v (length (dv_members to_))) in *.
  assert (map (snd y) (dv_members to_) = map Some sh) as EM.
  { clearbody sh. clear -Y L. revert sh Y L. generalize (dv_members to_). induction l as [|m l IH]; intros [|s sh] Y L; try discriminate L; [reflexivity|]. cbn [map]. f_equal; [exact (Y 0 m eq_refl)|]. apply IH; [intros i r H; exact (Y (S i) r H)|cbn in L; congruence]. }
  rewrite EM, all_some_map. destruct sh; [destruct (dv_members to_); [congruence|discriminate L]|reflexivity].
Qed.
Print Assumptions C45_fetch_refuted.
Example C45_ex : exists y tr, zd2d 3 P0 SP None 3%Z 4%Z secret = Some (y, tr) /\ fetch _ _ SP y = Some 34%Z /\ snd secret 0 = Some 41%Z.
Proof. do 2 eexists. split; [vm_compute; reflexivity|]. split; reflexivity. Qed.
(** fetch of a PPU or TEE object returns the value. *)
Theorem C181_fetch_plain : forall (VT V : Type) (dev : device) (obj : object VT V) (t : VT) (r : nat) (v : V),
  (dv_kind dev = PPU \/ dv_kind dev = TEE) -> dv_members dev = [r] -> plain_at obj t r v -> fetch VT V dev obj = Some v.
Proof. intros VT V dev obj t r v K M (_ & _ & H & _). unfold fetch. rewrite M. destruct K as [-> | ->]; exact H. Qed.
Print Assumptions C181_fetch_plain.

(* ================================================================ C46 *)

(** With endpoints (brpc), every SPU execution at a rank uses a link created for exactly its own
    parties, whatever was executed before. *)
Theorem C46_endpoints : forall (ep : nat -> string) (me : nat) (es : list spu_exec) (links : list (list nat)),
  (forall e e' x y, In e es -> In e' es -> In x (ex_parties e) -> In y (ex_parties e') -> ep x = ep y -> x = y) ->
  run_execs (Some ep) me [] es = Some links -> links = map ex_parties es.
Proof.
  intros ep me es links Hi H. refine (run_execs_ok _ _ _ _ _ H). intros e e' k He He' E E'. unfold key_of in E, E'.
  destruct (index_of me (ex_parties e)); [|discriminate E]. destruct (index_of me (ex_parties e')); [|discriminate E']. injection E as <-. injection E' as _ _ _ E'.
  assert (forall l l', (forall x y, In x l -> In y l' -> ep x = ep y -> x = y) -> map ep l' = map ep l -> l = l') as G.
  { induction l as [|x l IH]; intros [|y l'] Hx EM; try discriminate EM; [reflexivity|]. cbn in EM. injection EM as E1 E2. f_equal; [apply Hx; [left; reflexivity|left; reflexivity|congruence]|]. apply IH; [intros u w Hu Hw; apply Hx; right; assumption|exact E2]. }
  apply G; [|exact E']. intros x y Hx Hy. apply (Hi e e'); assumption.
Qed.
Print Assumptions C46_endpoints.
(** In memory (no endpoints), the same holds as long as no two party lists that contain this
    rank at the same position have the same length; in general it fails: rank 0 runs an SPU of
    parties 0, 2 over the link of parties 0, 1. *)
Theorem C121_channel_partial : forall (me : nat) (es : list spu_exec) (links : list (list nat)),
  (forall e e', In e es -> In e' es -> ex_cfg e = ex_cfg e' -> length (ex_parties e) = length (ex_parties e') -> index_of me (ex_parties e) = index_of me (ex_parties e') -> ex_parties e = ex_parties e') ->
  run_execs None me [] es = Some links -> links = map ex_parties es.
Proof.
  intros me es links Hi H. refine (run_execs_ok _ _ _ _ _ H). intros e e' k He He' E E'. unfold key_of in E, E'.
  destruct (index_of me (ex_parties e)) eqn:I; [|discriminate E]. destruct (index_of me (ex_parties e')) eqn:I'; [|discriminate E']. injection E as <-. injection E' as E1 E2 E3. apply Hi; auto; congruence.
Qed.
Print Assumptions C121_channel_partial.
Theorem C121_channel_refuted : run_execs None 0 [] [Exec [0; 1] 9; Exec [0; 2] 9] = Some [[0; 1]; [0; 1]].
Proof. reflexivity. Qed.
Print Assumptions C121_channel_refuted.
Example C46_ex : run_execs (Some (fun r => if r =? 1 then "b:1"%string else if r =? 2 then "c:1"%string else "a:1"%string)) 0 [] [Exec [0; 1] 9; Exec [0; 2] 9; Exec [0; 1] 9] = Some [[0; 1]; [0; 2]; [0; 1]] /\
  run_execs None 1 [] [Exec [0; 1] 9; Exec [1; 2] 9] = Some [[0; 1]; [1; 2]].
Proof. split; reflexivity. Qed.

(* ================================================================ C69 *)

(** The share a member is dealt is the one of its rank inside the SPU runtime, for every member,
    exactly when the members are listed in increasing rank order. *)
Theorem C69_iff : forall members : list nat, NoDup members ->
  ((forall r, In r members -> share_index members r = local_rank members r) <-> StronglySorted lt members).
Proof. exact share_order_iff. Qed.
Print Assumptions C69_iff.
(** A cluster may list them otherwise. *)
Theorem C152_order_refuted : NoDup [2; 0; 1] /\ map (share_index [2; 0; 1]) [0; 1; 2] = [Some 1; Some 2; Some 0] /\ map (local_rank [2; 0; 1]) [0; 1; 2] = [Some 0; Some 1; Some 2].
Proof. split; [repeat constructor; cbn; intuition discriminate|]. split; reflexivity. Qed.
Print Assumptions C152_order_refuted.

(* ================================================================ C70 *)

(** While every context ever used keeps its own address, the session returned for a device pair
    was created in the current context. *)
Theorem C186_session_context : forall (history : list ((string * string) * ctx)) (serial_of : nat -> nat),
  (forall k cur, In (k, cur) history -> ctx_serial cur = serial_of (ctx_addr cur)) ->
  run_sessions [] history = map (fun kc => ctx_serial (snd kc)) history.
Proof. intros h so H. apply (run_sessions_ok so); [intros e []|exact H]. Qed.
Print Assumptions C186_session_context.
Example C70_ex : run_sessions [] [(("P0", "T")%string, Ctx 10 1); (("P0", "T")%string, Ctx 11 2); (("P1", "T")%string, Ctx 11 2); (("P0", "T")%string, Ctx 10 1)] = [1; 2; 2; 1].
Proof. reflexivity. Qed.
(** A transfer establishes a new session exactly when its pair of devices has not been used yet,
    or was last used in a context at another address, whatever other pairs did in between. *)
Theorem C186_handshakes : forall (history : list ((string * string) * ctx)) (i : nat) (pair : string * string) (cur : ctx),
  nth_error history i = Some (pair, cur) ->
  nth_error (run_handshakes [] history) i =
    Some (match find (fun e => key_eqb (fst e) pair) (rev (firstn i history)) with
          | Some (_, last) => negb (ctx_addr last =? ctx_addr cur)
          | None => true
          end).
Proof.
  intros h i k cur H. rewrite (run_handshakes_ok h [] [] (fun _ => eq_refl) i k cur H), app_nil_r. unfold latest_for.
  destruct (find _ (rev (firstn i h))) as [[k' l]|]; reflexivity.
Qed.
Print Assumptions C186_handshakes.
Example C186_handshakes_ex : run_handshakes [] [(("P0", "T")%string, Ctx 10 1); (("P1", "T")%string, Ctx 10 1); (("P0", "T")%string, Ctx 10 1); (("P0", "T")%string, Ctx 11 2); (("P1", "T")%string, Ctx 10 1); (("P0", "T")%string, Ctx 10 1)] = [true; true; false; true; false; true].
Proof. reflexivity. Qed.
(** A context created at the address of a dead one is given the session of the dead one. *)
Theorem C70_address_reuse_refuted : run_sessions [] [(("P0", "T")%string, Ctx 10 1); (("P0", "T")%string, Ctx 10 2)] = [1; 1].
Proof. reflexivity. Qed.
Print Assumptions C70_address_reuse_refuted.
