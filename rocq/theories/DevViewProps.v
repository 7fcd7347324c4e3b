(** C211: what a program of device calls shows to whom. *)
From Coq Require Import Bool Arith ZArith String List Lia.
From Verif Require Import SimpModel DeviceModel DeviceSpec SpuRunModel SpuRunSpec SpuRunExample DevProgModel DevProgSpec DevProgProps DevViewModel DevViewSpec DevViewProofs.
Import ListNotations.
Local Open Scope nat_scope.

(** *** C211.  Two runs of a program that differ only in the secret values put at the start of it
    (or anywhere in it).  Follow the secrets through the program text: they get to the devices that
    are the target of a secret put, or of a statement that uses an object they got into.  A rank
    that is a member of none of these devices sees exactly the same in the two runs: the same
    values, shares, session keys and messages, in the same order.  And every object the secrets did
    not get into is the same in the two runs, so that fetching it gives the same.  Nothing is
    assumed of the SPU library (except that a constant function has one output), of the ciphers
    and key agreement, of the cluster or of the variables the SPU runtimes hold. *)
Theorem C211_secrets_stay_on_their_path : forall (VT V code : Type) (vt_eqb : VT -> VT -> bool) (n : nat) (share_t key_t : VT)
    (make_shares : V -> nat -> list V) (reconstruct : list V -> V) (encrypt decrypt : V -> V -> V) (pub hkdf quote attest : V -> V) (derive : V -> V -> V)
    (compile : nat -> (list V -> list V) -> option (code * nat)) (joint : code -> list (list V) -> option (list (list V))) (is_share : V -> bool)
    (typ : V -> VT) (cluster : string -> option device) (draw : nat -> V * V) (left : nat -> runtimes V)
    (secret : nat -> bool) (program program' : list (stmt VT V)) (objects objects' : list (string * object VT V)),
  let run := run VT V vt_eqb n share_t key_t make_shares reconstruct encrypt decrypt pub hkdf quote attest derive code compile joint is_share typ cluster draw left in
  let seen := seen VT V vt_eqb n share_t key_t make_shares reconstruct encrypt decrypt pub hkdf quote attest derive code compile joint is_share typ cluster draw left in
  let widths := widths VT V vt_eqb n share_t key_t make_shares reconstruct encrypt decrypt pub hkdf quote attest derive code compile joint is_share typ cluster draw left in
  (forall v c k, compile 0 (fun _ => [v]) = Some (c, k) -> k = 1) ->
  same_but_secrets secret program program' ->
  run program = Some objects -> run program' = Some objects' ->
  let (marks, reached) := follow cluster secret [] program (widths program) in
  map fst objects = map fst objects' /\
  (forall i d, nth_error marks i = Some (d, false) -> nth_error objects i = nth_error objects' i) /\
  forall r : nat, (forall d dev, In d reached -> cluster d = Some dev -> ~ In r (dv_members dev)) -> view r (seen program) = view r (seen program').
Proof.
  intros VT V code vt_eqb n share_t key_t make_shares reconstruct encrypt decrypt pub hkdf quote attest derive compile joint is_share typ cluster draw left secret p p' o o' run seen widths Hc HS R R'.
  assert (G : forall r : nat, (forall d, In d (snd (follow cluster secret [] p (widths p))) -> hidden cluster r d) ->
    view r (seen p) = view r (seen p') /\ rel (fst (follow cluster secret [] p (widths p))) o o').
  { intros r Hr. destruct (prog_view vt_eqb n share_t key_t make_shares reconstruct encrypt decrypt pub hkdf quote attest derive compile joint is_share typ cluster draw left Hc r
              p p' secret [] (State VT V [] 0 0) [] [] o o' HS) as (_ & Vw & Q).
    - split; [reflexivity|]. split; [reflexivity|]. intros [|j] d Hj; discriminate Hj.
    - intros [|j] d Hj; discriminate Hj.
    - exact R.
    - exact R'.
    - exact Hr.
    - split; [exact Vw|exact Q]. }
  destruct (follow cluster secret [] p (widths p)) as [marks reached]. cbn [fst snd] in G.
  destruct (somebody cluster reached) as (m & Hm). destruct (G m) as (_ & A & B & C).
  { intros d Hd dev Cd Hi. specialize (Hm d dev Hd Cd m Hi). lia. }
  split; [congruence|]. split; [exact C|]. intros r Hr. apply G. intros d Hd dev Cd. exact (Hr d dev Hd Cd).
Qed.
Print Assumptions C211_secrets_stay_on_their_path.

(** What is seen contains every result: at the latest when a statement returns an object, it has
    been seen by those who hold a part of it. *)
Theorem C211_results_are_seen : forall (VT V code : Type) (vt_eqb : VT -> VT -> bool) (n : nat) (share_t key_t : VT)
    (make_shares : V -> nat -> list V) (reconstruct : list V -> V) (encrypt decrypt : V -> V -> V) (pub hkdf quote attest : V -> V) (derive : V -> V -> V)
    (compile : nat -> (list V -> list V) -> option (code * nat)) (joint : code -> list (list V) -> option (list (list V))) (is_share : V -> bool)
    (typ : V -> VT) (cluster : string -> option device) (draw : nat -> V * V) (left : nat -> runtimes V)
    (program : list (stmt VT V)) (objects : list (string * object VT V)),
  run VT V vt_eqb n share_t key_t make_shares reconstruct encrypt decrypt pub hkdf quote attest derive code compile joint is_share typ cluster draw left program = Some objects ->
  forall d x, In (d, x) objects ->
    In x (seen VT V vt_eqb n share_t key_t make_shares reconstruct encrypt decrypt pub hkdf quote attest derive code compile joint is_share typ cluster draw left program).
Proof.
  intros VT V code vt_eqb n share_t key_t make_shares reconstruct encrypt decrypt pub hkdf quote attest derive compile joint is_share typ cluster draw left p o R d x H.
  destruct (prog_in vt_eqb n share_t key_t make_shares reconstruct encrypt decrypt pub hkdf quote attest derive compile joint is_share typ cluster draw left p _ _ _ R (d, x) H) as [[]|K]. exact K.
Qed.
Print Assumptions C211_results_are_seen.

(** So does every argument a PPU or TEE function is given: it is an object of the program or one
    that was delivered on the way. *)
Theorem C211_arguments_are_seen : forall (VT V : Type) (vt_eqb : VT -> VT -> bool) (n : nat) (share_t key_t : VT)
    (make_shares : V -> nat -> list V) (reconstruct : list V -> V) (encrypt decrypt : V -> V -> V) (pub hkdf quote attest : V -> V) (derive : V -> V -> V)
    (cluster : string -> option device) (draw : nat -> V * V) (st st' : state VT V) (to_ : string) (args : list (string * object VT V)) (xs : list (object VT V)),
  moves VT V vt_eqb n share_t key_t make_shares reconstruct encrypt decrypt pub hkdf quote attest derive cluster draw st to_ args = Some (xs, st') ->
  forall x, In x xs -> In x (map snd args) \/
    In x (moves_log VT V vt_eqb n share_t key_t make_shares reconstruct encrypt decrypt pub hkdf quote attest derive cluster draw st to_ args).
Proof.
  intros VT V vt_eqb n share_t key_t make_shares reconstruct encrypt decrypt pub hkdf quote attest derive cluster draw st st' to_ args xs E.
  exact (moves_in vt_eqb n share_t key_t make_shares reconstruct encrypt decrypt pub hkdf quote attest derive cluster draw args st to_ xs st' E).
Qed.
Print Assumptions C211_arguments_are_seen.

(** An instance with the cluster of C209: the value at P0 is secret, is multiplied with the value of
    P2 on the SPU and revealed to P0; the TEE, rank 3, adds the value of P2 and a constant, and P2
    gets the sum.  The secret gets to the SPU and to P0; the TEE sees the same (the key exchange
    with P2, the ciphertext and the value of P2), whatever the secret is; rank 0 does not. *)
Definition ex_secret (i : nat) : bool := i =? 0.
Definition ex_view_program (v : Z) : list (stmt nat XV) :=
  [ PutValue _ _ "P0" (inl v); PutValue _ _ "P2" (inl 7%Z);
    CallOn _ _ (Some "S"%string) mul2 [0] [Ref _ 0; Ref _ 1]; CallOn _ _ (Some "T"%string) add2 [0] [Ref _ 1; Lit _ (inl 1%Z)];
    PutObject _ _ "P0" 2; PutObject _ _ "P2" 3 ].
Definition ex_run (p : list (stmt nat XV)) := run nat XV Nat.eqb 4 7 8 x_make x_rec ex_enc ex_dec (fun v => v) (fun v => v) (fun v => v) (fun v => v) (fun s p => inl (toZ s * toZ p)%Z) x_code x_compile x_joint x_is
    (fun _ => 0) ex_cluster (fun i => (inl (3 + Z.of_nat i)%Z, inl 5%Z)) (fun k => fun _ => []) p.
Definition ex_seen (p : list (stmt nat XV)) := seen nat XV Nat.eqb 4 7 8 x_make x_rec ex_enc ex_dec (fun v => v) (fun v => v) (fun v => v) (fun v => v) (fun s p => inl (toZ s * toZ p)%Z) x_code x_compile x_joint x_is
    (fun _ => 0) ex_cluster (fun i => (inl (3 + Z.of_nat i)%Z, inl 5%Z)) (fun k => fun _ => []) p.
Definition ex_widths (p : list (stmt nat XV)) := widths nat XV Nat.eqb 4 7 8 x_make x_rec ex_enc ex_dec (fun v => v) (fun v => v) (fun v => v) (fun v => v) (fun s p => inl (toZ s * toZ p)%Z) x_code x_compile x_joint x_is
    (fun _ => 0) ex_cluster (fun i => (inl (3 + Z.of_nat i)%Z, inl 5%Z)) (fun k => fun _ => []) p.
Example C211_example :
  (forall v c k, x_compile 0 (fun _ => [v]) = Some (c, k) -> k = 1) /\
  same_but_secrets ex_secret (ex_view_program 6) (ex_view_program 60) /\
  (exists o o', ex_run (ex_view_program 6) = Some o /\ ex_run (ex_view_program 60) = Some o') /\
  follow ex_cluster ex_secret [] (ex_view_program 6) (ex_widths (ex_view_program 6)) =
    ([("P0", true); ("P2", false); ("S", true); ("T", false); ("P0", true); ("P2", false)], ["P0"; "S"; "P0"])%string /\
  view 3 (ex_seen (ex_view_program 6)) <> [] /\ view 3 (ex_seen (ex_view_program 6)) = view 3 (ex_seen (ex_view_program 60)) /\
  view 0 (ex_seen (ex_view_program 6)) <> view 0 (ex_seen (ex_view_program 60)).
Proof.
  split; [|split; [|split; [|split; [|split; [|split]]]]].
  - intros v c k E. vm_compute in E. congruence.
  - split; [reflexivity|]. intros [|i] s s' H H'; [right|left; cbn [nth_error ex_view_program] in *; congruence].
    injection H as <-. injection H' as <-. split; [reflexivity|]. eauto.
  - eexists. eexists. split; vm_compute; reflexivity.
  - vm_compute. reflexivity.
  - vm_compute. discriminate.
  - vm_compute. reflexivity.
  - vm_compute. discriminate.
Qed.
