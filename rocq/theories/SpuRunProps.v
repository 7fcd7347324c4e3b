(** C192-C193: computing on an SPU device. *)
From Coq Require Import Bool Arith ZArith String List Lia Sorted.
From Verif Require Import SimpModel DeviceModel DeviceSpec SpuRunModel SpuRunSpec SpuRunProofs SpuRunExample.
Import ListNotations.
Local Open Scope nat_scope.

(** *** C192.  For every SPU library that keeps its promises ([spu_laws]), every SPU device whose
    members are listed in increasing rank order, every program of calls on it whose functions
    can be traced, all inputs on PPU and TEE devices and whatever variables earlier executions
    left in the runtimes: the program runs; every output is held by the members only; and
    moving an output to a PPU or TEE and fetching it there gives the value that the functions,
    in SPU arithmetic, have on the (encoded) inputs. *)
Theorem C192_spu_program : forall (VT V code : Type) (vt_eqb : VT -> VT -> bool) (n : nat) (share_t key_t : VT)
    (make_shares : V -> nat -> list V) (reconstruct : list V -> V) (encrypt decrypt : V -> V -> V) (pub hkdf quote attest : V -> V) (derive : V -> V -> V)
    (compile : nat -> (list V -> list V) -> option (code * nat)) (joint : code -> list (list V) -> option (list (list V))) (is_share : V -> bool)
    (enc : V -> V) (sec : (list V -> list V) -> list V -> list V) (shared : V -> list V -> Prop)
    (spu : device) (tsk vsk : V) (inputs : list (device * object VT V)) (values : list V) (calls : list (call V)) (results : list V) (st : runtimes V),
  (forall x y, vt_eqb x y = true <-> x = y) ->
  spu_laws make_shares reconstruct compile joint is_share enc sec shared ->
  dv_kind spu = SPU -> StronglySorted lt (dv_members spu) -> dv_members spu <> [] -> (forall m, In m (dv_members spu) -> m < n) ->
  Forall2 (input_at n spu) inputs values ->
  traceable compile calls ->
  plain_calls sec calls (map enc values) = Some results ->
  exists env,
    run_calls VT V vt_eqb n share_t key_t make_shares reconstruct encrypt decrypt pub hkdf quote attest derive code compile joint is_share tsk vsk spu calls inputs st = Some env /\
    length env = length results /\
    forall i v, length inputs <= i -> nth_error results i = Some v ->
    exists x, nth_error env i = Some (spu, x) /\ only_at x (dv_members spu) /\
      forall to_ b cached, dv_name spu <> dv_name to_ -> (dv_kind to_ = PPU \/ dv_kind to_ = TEE) -> dv_members to_ = [b] -> b < n ->
      exists y tr, d2d VT V vt_eqb n share_t key_t make_shares reconstruct encrypt decrypt pub hkdf quote attest derive spu to_ cached tsk vsk x = Some (y, tr) /\
        fetch VT V to_ y = Some v /\ only_at y [b].
Proof.
  intros. assert (F : Forall2 (holds (VT:=VT) n enc shared spu) inputs (map enc values)).
  { match goal with H : Forall2 (input_at n spu) _ _ |- _ => clear -H; induction H; cbn; constructor; [right; eauto|assumption] end. }
  destruct (run_calls_ok vt_eqb ltac:(assumption) n share_t key_t make_shares reconstruct encrypt decrypt pub hkdf quote attest derive compile joint is_share enc sec shared ltac:(assumption) spu
              ltac:(assumption) ltac:(assumption) ltac:(assumption) ltac:(assumption) tsk vsk calls inputs (map enc values) results st F ltac:(assumption) ltac:(assumption)) as (env & R & FE & more & Em & Fm).
  exists env. split; [exact R|]. assert (LE : length env = length results) by (clear -FE; induction FE; cbn; congruence). split; [exact LE|].
  intros i v Hi Hv.
  assert (P : exists q, nth_error env i = Some q /\ holds n enc shared spu q v).
  { clear -FE Hv. revert i Hv. induction FE as [|q w qs ws Hq FE IH]; intros [|i] Hv; try discriminate Hv; cbn in *; [injection Hv as <-; eauto|eauto]. }
  destruct P as ([d x] & Eq & Hq).
  assert (Ed : d = spu).
  { rewrite Em in Eq. rewrite nth_error_app2 in Eq by exact Hi. apply nth_error_In in Eq. rewrite Forall_forall in Fm. exact (Fm _ Eq). }
  subst d. destruct Hq as [[_ Hq]|(w & (C & _) & _)]; [|exfalso; apply C; reflexivity]. cbn [snd] in Hq.
  exists x. split; [exact Eq|]. split; [destruct Hq as (col & _ & _ & _ & O & _); exact O|].
  intros to_ b cached Hn Hk Hm Hb. eapply reveal_ok; eassumption.
Qed.
Print Assumptions C192_spu_program.

(** With exact arithmetic (no rounding at encoding, integer functions within the ring) the
    fetched values are those of the program run in plain Python. *)
Lemma fill_direct {V : Type} (env : list V) : forall args : list (ref V),
  mapO (fun a => match a with Ref _ i => nth_error env i | Lit _ v => Some v end) args = option_map (fill V (lits args)) (mapO (nth_error env) (refs args)).
Proof.
  induction args as [|[i|v] args IH]; [reflexivity| |]; cbn [refs lits map SimpModel.mapO].
  - destruct (nth_error env i) as [x|]; [|reflexivity]. cbn. rewrite IH. destruct (SimpModel.mapO (nth_error env) (refs args)); reflexivity.
  - cbn. rewrite IH. destruct (SimpModel.mapO (nth_error env) (refs args)); reflexivity.
Qed.
Theorem C192_exact : forall (V : Type) (enc : V -> V) (sec : (list V -> list V) -> list V -> list V) (calls : list (call V)) (values : list V),
  (forall v, enc v = v) -> (forall g vs, sec g vs = g vs) ->
  plain_calls sec calls (map enc values) = direct_calls calls values.
Proof.
  intros V enc sec calls values He Hs. replace (map enc values) with values by (induction values as [|v vs IH]; [reflexivity|]; cbn; rewrite He; now rewrite <- IH).
  revert values. induction calls as [|c cs IH]; intros vs; [reflexivity|]. cbn [plain_calls direct_calls]. unfold plain_call, direct_call. rewrite fill_direct.
  destruct (SimpModel.mapO (nth_error vs) (refs (c_args V c))) as [us|]; [|reflexivity]. cbn [option_map]. rewrite Hs. apply IH.
Qed.
Print Assumptions C192_exact.

(** An instance: x on P0, y on P2; z = x*y+5, then w = z+z-x on the SPU of ranks 0, 1, 2; w is
    fetched at P1.  With the members listed as 2, 0, 1 the same program fails in the runtime. *)
Definition ex_dev (nm : string) k ms := Device nm k ms.
Definition ex_obj (r : nat) (v : Z) : object nat XV := (MP nat 0 (Some [r]), fun q => if q =? r then Some (inl v) else None).
Definition ex_calls : list (call XV) :=
  [ Call XV (fun l => match l with [x; k; y] => [inl (toZ x * toZ y + toZ k)%Z] | _ => [] end) [Ref XV 0; Lit XV (inl 5%Z); Ref XV 1];
    Call XV (fun l => match l with [z; z'; x] => [inl (toZ z + toZ z' - toZ x)%Z] | _ => [] end) [Ref XV 2; Ref XV 2; Ref XV 0] ].
Definition ex_run ms (st : runtimes XV) :=
  run_calls nat XV Nat.eqb 3 7 8 x_make x_rec (fun _ v => v) (fun _ v => v) (fun v => v) (fun v => v) (fun v => v) (fun v => v) (fun v _ => v) x_code x_compile x_joint x_is
    (inl 0%Z) (inl 0%Z) (ex_dev "S" SPU ms) ex_calls [(ex_dev "P0" PPU [0], ex_obj 0 6); (ex_dev "P2" PPU [2], ex_obj 2 7)] st.
Example C192_example :
  spu_laws x_make x_rec x_compile x_joint x_is (fun v => inl (toZ v)) x_sec x_shared /\
  Forall2 (input_at 3 (ex_dev "S" SPU [0; 1; 2])) [(ex_dev "P0" PPU [0], ex_obj 0 6); (ex_dev "P2" PPU [2], ex_obj 2 7)] [inl 6%Z; inl 7%Z] /\
  traceable x_compile ex_calls /\
  plain_calls x_sec ex_calls [inl 6%Z; inl 7%Z] = Some [inl 6%Z; inl 7%Z; inl 47%Z; inl 88%Z] /\
  (match ex_run [0; 1; 2] (fun _ => [(InV 0, inr (9, 9%Z)); (OutV 0, inr (9, 9%Z))]) with
   | Some env => match nth_error env 3 with
                 | Some (_, x) => option_map (fun y => fetch nat XV (ex_dev "P1" PPU [1]) (fst y))
                     (d2d nat XV Nat.eqb 3 7 8 x_make x_rec (fun _ v => v) (fun _ v => v) (fun v => v) (fun v => v) (fun v => v) (fun v => v) (fun v _ => v)
                        (ex_dev "S" SPU [0; 1; 2]) (ex_dev "P1" PPU [1]) None (inl 0%Z) (inl 0%Z) x)
                 | None => None end
   | None => None end) = Some (Some (inl 88%Z)) /\
  ex_run [2; 0; 1] (fun _ => []) = None.
Proof.
  split; [exact x_laws|]. split; [|split; [|split; [|split]]].
  - repeat constructor; cbn; try discriminate; auto.
    + exists 0, 0. repeat split; try lia. intros r Hr. cbn. destruct (Nat.eqb_spec r 0); [exfalso; apply Hr; subst; left; reflexivity|reflexivity].
    + exists 2, 0. repeat split; try lia. intros r Hr. cbn. destruct (Nat.eqb_spec r 2); [exfalso; apply Hr; subst; left; reflexivity|reflexivity].
  - intros c [<-|[<-|[]]]; eexists; reflexivity.
  - reflexivity.
  - vm_compute. reflexivity.
  - vm_compute. reflexivity.
Qed.

(** *** C193: a tensor held by the members can be passed to spu.run_jax as a public argument.
    Refuted: tracing accepts it, but the execution raises whatever the tensor, the function, the
    other arguments and the library. *)
Theorem C193_public_arguments_refuted : forall (VT V code : Type) (joint : code -> list (list V) -> option (list (list V))) (is_share : V -> bool)
    (parties : list nat) (c : code) (nin nout : nat) (st : runtimes V) (xs : list (object VT V)) (x : object VT V) (r : nat) (v : V),
  In x xs -> In r parties -> snd x r = Some v -> is_share v = false ->
  exec VT V code joint is_share parties c nin nout st xs = None.
Proof.
  intros VT V code joint is_share parties c nin nout st xs x r v Hx Hr Hv Hs. unfold exec.
  destruct (mapO (fun r => all_some (map (fun x : object VT V => snd x r) xs)) parties) as [rows|] eqn:E; [|reflexivity].
  replace (forallb (forallb is_share) rows) with false; [reflexivity|]. symmetry. apply not_true_iff_false. intros F.
  rewrite forallb_forall in F. apply In_nth_error in Hr. destruct Hr as (k & Hk). destruct (SimpProofs2.mapO_nth _ _ _ E) as [_ N]. destruct (N k r Hk) as (row & Hrow & Erow).
  specialize (F row (nth_error_In _ _ Hrow)). rewrite all_some_mapO in Erow. apply In_nth_error in Hx. destruct Hx as (i & Hi).
  destruct (SimpProofs2.mapO_nth _ _ _ Erow) as [_ N2]. destruct (N2 i x Hi) as (w & Hw & Ew). rewrite forallb_forall in F. specialize (F w (nth_error_In _ _ Hw)). congruence.
Qed.
Print Assumptions C193_public_arguments_refuted.

Example C193_example :
  exec nat XV x_code x_joint x_is [0; 1; 2] (2, fun l => [hd (inl 0%Z) l]) 2 1 (fun _ => [])
    [(MP nat 7 (Some [0; 1; 2]), fun r => nth_error (x_make (inl 5%Z) 3) r); (MP nat 0 (Some [0; 1; 2]), fun _ => Some (inl 4%Z))] = None /\
  exec nat XV x_code x_joint x_is [0; 1; 2] (1, fun l => [hd (inl 0%Z) l]) 1 1 (fun _ => [])
    [(MP nat 7 (Some [0; 1; 2]), fun r => nth_error (x_make (inl 5%Z) 3) r)] <> None.
Proof. split; [reflexivity|discriminate]. Qed.
