(** C36 (the object store is a map), C37 (keys stay below the root), C56 (a failed put keeps the old object). *)
From Coq Require Import String Ascii List Bool.
From stdpp Require Import gmap strings.
From Verif Require Import StoreSpec StoreModel StoreObs StoreProofs.
Import ListNotations.
Local Open Scope list_scope.

(** ** C36 *)
(** In every history, [get] returns exactly the object of the last successful put to the same
    address that was not deleted (or clobbered by a put of an unpicklable object) since; calls on
    other addresses, other backends and failing calls never change it. *)
Theorem C36_get_returns_last_put : forall (V : Type) (picklable : V -> bool) (persistent : option path) h (s : @store V) m s' rs,
  matches s m -> run picklable persistent s h = (s', rs) ->
  forall uri v, snd (step picklable persistent s' (Get uri)) = RVal v <->
    exists a, address persistent uri = Some a /\ effects persistent h rs m !! a = Some v.
Proof.
  intros V picklable persistent h s m s' rs M E uri v. rewrite get_content. pose proof (run_effects picklable persistent h s m s' rs E M) as M'.
  split; intros (a & A & H); exists a; split; auto; [rewrite <- (M' a)|rewrite (M' a)]; auto.
Qed.
Print Assumptions C36_get_returns_last_put.
(** When no path used is a directory prefix of another one and objects can be pickled, every
    outcome of every call is that of a finite map. *)
Theorem C118_map_partial : forall (V : Type) (picklable : V -> bool) (persistent : option path) (K : path -> Prop) h (s : @store V) m s' rs,
  apart K -> tidy K s -> matches s m ->
  Forall (uses_paths picklable persistent K) h -> Forall (fun c => is_list c = false) h ->
  run picklable persistent s h = (s', rs) ->
  rs = snd (spec_run persistent h m) /\ matches s' (fst (spec_run persistent h m)).
Proof. intros V picklable persistent K h s m s' rs A T M U L E. destruct (run_map picklable persistent K A h s m s' rs T M U L E) as (R & _ & M'). auto. Qed.
Print Assumptions C118_map_partial.
(** what the listing contains, in every state *)
Theorem C36_listing : forall (V : Type) (picklable : V -> bool) (persistent : option path) h (s0 : @store V),
  match persistent with Some root => path_ok root | None => True end -> files_ok s0 ->
  let s := fst (run picklable persistent s0 h) in
  exists l, snd (step picklable persistent s ListKeys) = RKeys l /\
  (forall u, In u l <->
    (exists k v, s_mem s !! k = Some v /\ u = ("mem://" ++ k)%string) \/
    (exists root rel c, persistent = Some root /\ s_fs s !! (root ++ rel) = Some (NFile c) /\ u = ("fs://" ++ join_slash rel)%string)) /\
  (forall u, In u l -> (exists v, snd (step picklable persistent s (Get u)) = RVal v) \/ snd (step picklable persistent s (Get u)) = ErrPickle).
Proof.
  intros V picklable persistent h s0 R F s. eexists. split; [reflexivity|]. split.
  - intros u. now apply list_spec with (picklable := picklable).
  - intros u Hu. eapply listed_get; eauto. now apply run_files_ok.
Qed.
Print Assumptions C36_listing.
(** store.save followed by store.load *)
Theorem C36_save_load : forall (V : Type) (picklable : V -> bool) (persistent : option path) (s : @store V) v uri s',
  save picklable persistent s v uri = (s', RVal v) -> load picklable persistent s' uri = RVal v.
Proof.
  intros V picklable persistent s v uri s' E. eapply save_load; eauto. cbn [step].
  assert (P : forall u root key, match snd (ret_uri u (put_fs picklable root key v s)) with RVal _ => False | _ => True end).
  { intros u root key. unfold put_fs. destruct (resolve root key) as [p|]; [|exact I]. unfold with_fs, fs_put.
    destruct (makedirs p (s_fs s)); [|exact I]. destruct (is_dir _ p); [exact I|]. destruct (picklable v); exact I. }
  destruct (split_uri uri); [destruct (parse_uri persistent uri) as [[[|root] key]|]|destruct persistent]; try exact I; apply P.
Qed.
Print Assumptions C36_save_load.
(** Keys that are directory prefixes of other keys: exists() answers True for a key that was never
    stored, and put() fails although the store has room for it. *)
Definition root0 : path := ["data"; "store"]%string.
Definition fs0 : gmap path (@node nat) := <[[] := NDir]> (<[["data"%string] := NDir]> (<[root0 := NDir]> ∅)).
Definition store0 : @store nat := Store ∅ fs0.
Definition even_pickles (n : nat) : bool := Nat.even n.
Theorem C118_prefix_keys_refuted :
  snd (run even_pickles (Some root0) store0 [Put 2 "a/b"; Exists "fs://a"; Get "fs://a"; Put 4 "a"])%string
    = [RUri "fs://a/b"; RBool true; ErrOS; ErrOS]%string /\
  snd (run even_pickles (Some root0) store0 [Put 2 "a"; Put 4 "a/b"; Get "fs://a"])%string
    = [RUri "fs://a"; ErrOS; RVal 2]%string.
Proof. split; vm_compute; reflexivity. Qed.
Print Assumptions C118_prefix_keys_refuted.
(** the hypotheses are met by a store with two files and a transient object *)
Definition h0 : list (call nat) := [Put 2 "a/b"; PutAuto 7 "u1"; Put 4 "fs:///c"; Get "fs://c"; Delete "fs://x/../a/b"; Exists "fs://a/b"; Get "mem://u1"; Get "s3://a"]%string.
Definition K0 (p : path) : Prop := p = ["data"; "store"; "a"; "b"]%string \/ p = ["data"; "store"; "c"]%string.
Example ex_C36 : apart K0 /\ tidy K0 store0 /\ matches store0 ∅ /\ Forall (uses_paths even_pickles (Some root0) K0) h0 /\ Forall (fun c => is_list c = false) h0 /\
  snd (run even_pickles (Some root0) store0 h0) = [RUri "fs://a/b"; RUri "mem://u1"; RUri "fs:///c"; RVal 4; RNone; RBool false; RVal 7; ErrValue]%string.
Proof.
  split; [intros p q c r [-> | ->] [-> | ->] E; destruct r as [|? [|? ?]]; discriminate|].
  split; [split; [intros p [-> | ->]; left; vm_compute; reflexivity|intros p a [-> | ->] H; cbn in H; repeat (destruct H as [<-|H]; [vm_compute; reflexivity|]); destruct H]|].
  split.
  { intros [k|p]; cbn [content store0 s_mem s_fs]; rewrite ?lookup_empty; auto. unfold fs0. destruct (decide (p = [])) as [->|n1]; [now rewrite lookup_insert|]. rewrite lookup_insert_ne by auto.
    destruct (decide (p = ["data"%string])) as [->|n2]; [now rewrite lookup_insert|]. rewrite lookup_insert_ne by auto.
    destruct (decide (p = root0)) as [->|n3]; [now rewrite lookup_insert|]. rewrite lookup_insert_ne by auto. now rewrite !lookup_empty. }
  split.
  { unfold h0. repeat (apply Forall_cons; split); try apply Forall_nil_2; (split; [intros p E|try exact I; intros p E]); vm_compute in E; try discriminate E;
      try (injection E as <-; unfold K0; auto; fail); try reflexivity. }
  split; [repeat constructor|]. vm_compute. reflexivity.
Qed.

(** ** C37 *)
(** exactly which keys are accepted: below the root, or below a sibling whose name extends the
    root's own name *)
Theorem C37_accepted_keys : forall root key p, path_ok root ->
  resolve root key = Some p <-> p = walk root (split_slash key) /\
    ((exists rel, p = root ++ rel) \/ (exists par l x rest, root = par ++ [l] /\ p = par ++ (l ++ x)%string :: rest /\ x <> ""%string)).
Proof.
  intros root key p H. pose proof (norm_raw root key H) as E. rewrite (norm_ok_comps root (split_slash key)), app_nil_r in E by auto. rewrite (norm_walk (split_slash key)), rev_involutive in E.
  rewrite <- E. now apply resolve_spec.
Qed.
Print Assumptions C37_accepted_keys.
(** a sibling directory is reachable, for every root and every sibling name that extends it *)
Theorem C148_escape_refuted : forall par l x, path_ok (par ++ [l]) -> name_ok (l ++ x)%string -> x <> ""%string ->
  resolve (par ++ [l]) ("../" ++ l ++ x ++ "/secret")%string = Some (par ++ [(l ++ x)%string; "secret"%string]) /\
  ~ exists rel, par ++ [(l ++ x)%string; "secret"%string] = (par ++ [l]) ++ rel.
Proof.
  intros par l x H N X. split.
  - apply resolve_spec; auto. split.
    + rewrite norm_root by auto. change (lstrip ("../" ++ l ++ x ++ "/secret")) with (".." ++ String slash (l ++ x ++ "/secret"))%string.
      rewrite split_app by reflexivity. cbn [norm]. change (String.eqb ".." "" || String.eqb ".." ".") with false. change (String.eqb ".." "..") with true. cbn [orb].
      rewrite rev_app_distr. cbn [rev app tl]. rewrite <- sapp_assoc. destruct N as (S & N1 & N2 & N3).
      change ("/secret"%string) with (String slash "secret"). rewrite split_app by exact S. cbn [norm].
      rewrite (proj2 (String.eqb_neq (l ++ x)%string "")), (proj2 (String.eqb_neq (l ++ x)%string ".")), (proj2 (String.eqb_neq (l ++ x)%string "..")) by auto. cbn [orb].
      cbn [split_slash norm]. cbn. rewrite rev_involutive. now rewrite <- app_assoc.
    + right. exists par, l, x, ["secret"%string]. auto.
  - intros [rel E]. rewrite <- app_assoc in E. apply app_inv_head in E. injection E as E _. apply X.
    assert (L : String.length (l ++ x) = String.length l) by congruence. clear - L. induction l as [|c l IH]; cbn in L; [destruct x; [auto|discriminate]|]. apply IH. now injection L.
Qed.
Print Assumptions C148_escape_refuted.
(** keys without ".." always stay below the root *)
Theorem C37_plain_keys : forall root key, path_ok root -> ~ In ".."%string (split_slash key) ->
  exists rel, resolve root key = Some (root ++ rel).
Proof.
  intros root key H N0. assert (N : ~ In ".."%string (split_slash (lstrip key))) by (intros X; apply N0; now apply in_lstrip). destruct (norm_no_dotdot _ (rev root) N) as [rel E]. rewrite rev_involutive in E. exists rel. apply resolve_spec; auto.
  split; [now rewrite norm_root, E by auto|eauto].
Qed.
Print Assumptions C37_plain_keys.
Example ex_C37 : path_ok root0 /\ resolve root0 "../store2/secret" = Some ["data"; "store2"; "secret"]%string /\ resolve root0 "a/../../x" = None /\
  resolve root0 "//a/./b//c/../d" = Some ["data"; "store"; "a"; "b"; "d"]%string.
Proof. split; [repeat constructor; discriminate|]. vm_compute. auto. Qed.

(** ** C56 *)
(** put() opens the target for writing before serialising: when pickling fails (or the process
    stops there) the previous object is gone, for every key that was stored before *)
Theorem C151_failed_put_refuted : forall (V : Type) (picklable : V -> bool) root key (s : @store V) bad u s1 r p c,
  resolve root key = Some p -> s_fs s !! p = Some (NFile c) -> (forall a, In a (ancestors p) -> is_file (s_fs s) a = false) ->
  picklable bad = false -> u = ("fs://" ++ key)%string ->
  step picklable (Some root) s (Put bad u) = (s1, r) ->
  r = ErrPickle /\ snd (step picklable (Some root) s1 (Get u)) = ErrPickle.
Proof.
  intros V picklable root key s bad u s1 r p c Hr Hp Ha Hb -> E. cbn [step] in *. unfold parse_uri in *. rewrite uri_fs in *. cbn in E |- *.
  unfold put_fs in E. rewrite Hr in *. unfold fs_put in E.
  destruct (makedirs p (s_fs s)) as [fs1|] eqn:Em.
  2:{ exfalso. unfold makedirs in Em. destruct (existsb (is_file (s_fs s)) (ancestors p)) eqn:X; [|discriminate]. apply existsb_exists in X. destruct X as (a & A1 & A2). rewrite Ha in A2; auto. discriminate. }
  destruct (makedirs_spec _ _ _ Em) as [_ Hl]. assert (H1 : fs1 !! p = Some (NFile c)).
  { rewrite Hl. destruct (in_dec path_dec p (ancestors p)) as [i|]; auto. now apply not_own_ancestor in i. }
  unfold is_dir in E. rewrite H1, Hb in E. cbn in E. injection E as <- <-. split; auto. cbn. unfold fs_get. now rewrite lookup_insert.
Qed.
Print Assumptions C151_failed_put_refuted.
(** every other failure of put() leaves all objects as they were *)
Theorem C56_other_failures : forall (V : Type) (picklable : V -> bool) (persistent : option path) (s : @store V) v uri s' r,
  step picklable persistent s (Put v uri) = (s', r) -> (forall u, r <> RUri u) -> r <> ErrPickle ->
  forall w x, snd (step picklable persistent s (Get w)) = RVal x <-> snd (step picklable persistent s' (Get w)) = RVal x.
Proof.
  intros V picklable persistent s v uri s' r E N1 N2 w x.
  assert (C : forall a, content s' a = content s a).
  { intros a. cbn [step] in E.
    assert (P : forall u root key, ret_uri u (put_fs picklable root key v s) = (s', r) -> content s' a = content s a).
    { intros u root key X. unfold put_fs in X. destruct (resolve root key) as [p|]; [|injection X as <- <-; auto].
      unfold with_fs in X. destruct (fs_put picklable p v (s_fs s)) as [fs' r'] eqn:Ef. unfold ret_uri in X. cbn [fst snd] in X.
      destruct a as [k|q].
      - destruct r'; injection X as <- <-; reflexivity.
      - destruct (fs_put_content _ _ _ _ _ _ q Ef) as [Hc [->|[->| ->]]]; injection X as <- <-; [destruct (N1 u); auto|congruence|exact Hc]. }
    destruct (split_uri uri) as [[sc k0]|].
    - destruct (parse_uri persistent uri) as [[[|root] key]|]; [|eauto|injection E as <- <-; auto].
      injection E as <- <-. destruct (N1 uri); auto.
    - destruct persistent as [root|]; [eauto|injection E as <- <-; auto]. }
  rewrite !get_content. split; intros (a & A & H); exists a; split; auto; [rewrite C|rewrite <- C]; auto.
Qed.
Print Assumptions C56_other_failures.
Example ex_C56 : snd (run even_pickles (Some root0) store0 [Put 2 "k"; Put 3 "fs://k"; Get "fs://k"])%string = [RUri "fs://k"; ErrPickle; ErrPickle]%string.
Proof. vm_compute. reflexivity. Qed.
