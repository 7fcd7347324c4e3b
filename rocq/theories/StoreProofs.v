From Coq Require Import String Ascii List Bool Arith Lia.
From stdpp Require Import gmap strings.
From Verif Require Import StoreSpec StoreModel StoreObs.
Import ListNotations.
Local Open Scope list_scope.
Local Arguments String.append : simpl nomatch.

(** ** strings *)
Lemma prefix_cons c s d t : String.prefix (String c s) (String d t) = if ascii_dec c d then String.prefix s t else false.
Proof. reflexivity. Qed.
Lemma prefix_nil t : String.prefix "" t = true.
Proof. destruct t; reflexivity. Qed.
Lemma prefix_spec s : forall t, String.prefix s t = true <-> exists u, t = (s ++ u)%string.
Proof.
  induction s as [|c s IH]; intros t.
  - rewrite prefix_nil. split; [intros _; exists t; reflexivity|auto].
  - destruct t as [|d t]; [split; [discriminate|intros [u E]; discriminate]|]. rewrite prefix_cons.
    destruct (ascii_dec c d) as [<-|n].
    + rewrite IH. split; intros [u E]; exists u; [subst; reflexivity|injection E; auto].
    + split; [discriminate|]. intros [u E]. injection E as E _. congruence.
Qed.
Lemma sapp_nil s : (s ++ "" = s)%string.
Proof. induction s; cbn; congruence. Qed.
Lemma sapp_assoc (a b c : string) : ((a ++ b) ++ c = a ++ (b ++ c))%string.
Proof. induction a; cbn; congruence. Qed.
Lemma slash_cut a : forall b u v, no_slash a = true -> no_slash b = true -> (a ++ String slash u = b ++ String slash v)%string -> a = b /\ u = v.
Proof.
  induction a as [|c a IH]; intros [|d b] u v Ha Hb E; cbn in *.
  - injection E; auto.
  - injection E as E _. subst. discriminate.
  - injection E as E _. subst. discriminate.
  - apply andb_prop in Ha, Hb. injection E as -> E. destruct (IH b u v) as [-> ->]; tauto.
Qed.
Lemma no_slash_app a : forall b, no_slash (a ++ b) = no_slash a && no_slash b.
Proof. induction a as [|c a IH]; intros b; cbn; auto. rewrite IH. now destruct (Ascii.eqb c slash). Qed.
Lemma slash_prefix a : forall b u v, no_slash a = true -> (a ++ u = b ++ String slash v)%string -> exists x, b = (a ++ x)%string.
Proof.
  induction a as [|c a IH]; intros [|d b] u v Ha E; cbn in *.
  - exists ""%string; auto.
  - eexists; reflexivity.
  - injection E as E _. subst. discriminate.
  - apply andb_prop in Ha. injection E as -> E. destruct (IH b u v) as [x ->]; [tauto|auto|]. eauto.
Qed.

Lemma join_cons c cs : cs <> [] -> join_slash (c :: cs) = (c ++ String slash (join_slash cs))%string.
Proof. destruct cs; [easy|auto]. Qed.
(** the meaning of the prefix test on rendered paths *)
Lemma prefix_paths : forall rc pc, path_ok rc -> path_ok pc -> (exists u, join_slash pc = (join_slash rc ++ u)%string) ->
  (exists rel, pc = rc ++ rel) \/ (exists par l x rest, rc = par ++ [l] /\ pc = par ++ (l ++ x)%string :: rest /\ x <> ""%string).
Proof.
  induction rc as [|c rc IH]; intros pc Hr Hp [u E]; [left; eexists; reflexivity|].
  inversion Hr as [|? ? Hc Hr']; subst. destruct Hc as (Sc & Nc & _).
  destruct pc as [|d pc].
  { exfalso. destruct c; [easy|]. destruct rc; cbn in E; discriminate. }
  inversion Hp as [|? ? Hd Hp']; subst. destruct Hd as (Sd & Nd & _).
  destruct rc as [|c2 rc].
  - cbn [join_slash] in E. assert (X : exists x, d = (c ++ x)%string).
    { destruct pc as [|d2 pc]; [cbn in E; eauto|]. symmetry in E. now apply slash_prefix in E. }
    destruct X as [x ->]. destruct x as [|a x].
    + left. exists pc. now rewrite sapp_nil.
    + right. exists [], c, (String a x), pc. repeat split; easy.
  - rewrite (join_cons c) in E by discriminate. destruct pc as [|d2 pc].
    + exfalso. cbn [join_slash] in E. rewrite E, sapp_assoc, no_slash_app in Sd. cbn in Sd. now rewrite andb_false_r in Sd.
    + rewrite (join_cons d) in E by discriminate. rewrite sapp_assoc in E. cbn [append] in E. apply slash_cut in E; auto. destruct E as [-> E].
      destruct (IH (d2 :: pc) Hr' Hp' ltac:(eauto)) as [[rel ->]|(par & l & x & rest & E1 & E2 & E3)].
      * left. exists rel. reflexivity.
      * right. exists (c :: par), l, x, rest. rewrite E1, E2. auto.
Qed.
Lemma join_app_prefix : forall rc rel, path_ok rc -> rc <> [] -> exists u, join_slash (rc ++ rel) = (join_slash rc ++ u)%string.
Proof.
  induction rc as [|c rc IH]; intros rel H N; [easy|]. destruct rc as [|c2 rc].
  - cbn [app]. destruct rel as [|d rel]; [exists ""%string; now rewrite sapp_nil|]. rewrite join_cons by discriminate. cbn. eauto.
  - inversion H; subst. destruct (IH rel) as [u Hu]; [auto|easy|]. rewrite (join_cons c) by discriminate. cbn [app]. rewrite join_cons by discriminate.
    exists u. change (c2 :: rc ++ rel) with ((c2 :: rc) ++ rel). rewrite Hu, sapp_assoc. reflexivity.
Qed.
Lemma join_sibling : forall par l x rest, exists u, join_slash (par ++ (l ++ x)%string :: rest) = (join_slash (par ++ [l]) ++ u)%string.
Proof.
  induction par as [|c par IH]; intros l x rest; cbn [app].
  - destruct rest as [|d rest]; [cbn; eauto|]. rewrite join_cons by discriminate. cbn [join_slash]. rewrite sapp_assoc. eauto.
  - destruct (IH l x rest) as [u Hu]. rewrite !join_cons by (destruct par; easy). rewrite Hu. exists u. now rewrite sapp_assoc.
Qed.

(** ** normalisation *)
Lemma split_ok s : Forall (fun c => no_slash c = true) (split_slash s) /\ split_slash s <> [].
Proof.
  induction s as [|c s [IH N]]; cbn; [split; [constructor; auto|easy]|].
  destruct (Ascii.eqb c slash) eqn:E; [split; [constructor; auto|easy]|].
  destruct (split_slash s) as [|x l]; [easy|]. inversion IH; subst. split; [|easy]. constructor; auto. cbn. now rewrite E.
Qed.
Lemma norm_ok : forall cs acc, path_ok acc -> Forall (fun c => no_slash c = true) cs -> path_ok (norm acc cs).
Proof.
  induction cs as [|c cs IH]; intros acc Ha Hc; cbn [norm]; [apply Forall_rev, Ha|]. inversion Hc; subst.
  destruct (String.eqb_spec c ""); [now apply IH|]. destruct (String.eqb_spec c "."); [now apply IH|]. cbn [orb].
  destruct (String.eqb_spec c ".."); [apply IH; auto; destruct Ha; cbn; auto; constructor|]. apply IH; auto. constructor; auto. repeat split; auto.
Qed.
Lemma norm_ok_comps : forall root cs acc, path_ok root -> norm acc (root ++ cs) = norm (rev root ++ acc) cs.
Proof.
  induction root as [|c root IH]; intros cs acc H; cbn [app norm rev]; auto. inversion H as [|? ? (S & N1 & N2 & N3) H']; subst.
  rewrite (proj2 (String.eqb_neq c "")), (proj2 (String.eqb_neq c ".")), (proj2 (String.eqb_neq c "..")) by auto. cbn [orb].
  rewrite IH by auto. now rewrite <- app_assoc.
Qed.
Lemma norm_root root key : path_ok root -> norm [] (root ++ split_slash (lstrip key)) = norm (rev root) (split_slash (lstrip key)).
Proof. intros H. rewrite norm_ok_comps by auto. now rewrite app_nil_r. Qed.
Lemma norm_path_ok root key : path_ok root -> path_ok (norm [] (root ++ split_slash (lstrip key))).
Proof. intros H. rewrite norm_root by auto. apply norm_ok; [apply Forall_rev, H|apply split_ok]. Qed.
(** without ".." nothing is dropped *)
Lemma norm_no_dotdot : forall cs acc, ~ In ".."%string cs -> exists rel, norm acc cs = rev acc ++ rel.
Proof.
  induction cs as [|c cs IH]; intros acc H; cbn [norm]; [exists []; now rewrite app_nil_r|].
  assert (H' : ~ In ".."%string cs) by (cbn in H; tauto).
  destruct (String.eqb c "" || String.eqb c "."); [auto|]. destruct (String.eqb_spec c ".."); [subst; cbn in H; tauto|].
  destruct (IH (c :: acc) H') as [rel ->]. exists (c :: rel). cbn [rev]. now rewrite <- app_assoc.
Qed.
Lemma no_slash_lstrip s : no_slash s = true -> lstrip s = s.
Proof. destruct s as [|c s]; cbn; auto. now destruct (Ascii.eqb c slash). Qed.
Lemma split_no_slash s : no_slash s = true -> split_slash s = [s].
Proof. induction s as [|c s IH]; cbn; auto. destruct (Ascii.eqb c slash); [discriminate|]. cbn. intros H. now rewrite IH. Qed.
Lemma split_app a : forall b, no_slash a = true -> split_slash (a ++ String slash b) = a :: split_slash b.
Proof.
  induction a as [|c a IH]; intros b H; cbn in *; auto. destruct (Ascii.eqb c slash); [discriminate|]. cbn in H. now rewrite IH.
Qed.
Lemma split_join : forall rel, path_ok rel -> rel <> [] -> split_slash (join_slash rel) = rel.
Proof.
  induction rel as [|c rel IH]; intros H N; [easy|]. inversion H as [|? ? (S & _) H']; subst. destruct rel as [|d rel]; [now apply split_no_slash|].
  rewrite join_cons by discriminate. rewrite split_app by auto. f_equal. now apply IH.
Qed.
Lemma lstrip_join rel : path_ok rel -> lstrip (join_slash rel) = join_slash rel.
Proof.
  intros H. destruct H as [|c rel (S & N & _) H]; auto. destruct c as [|a c]; [easy|]. cbn in S. destruct (Ascii.eqb a slash) eqn:E; [discriminate|].
  destruct rel; cbn; now rewrite E.
Qed.
Lemma norm_valid : forall rel acc, path_ok rel -> norm acc rel = rev acc ++ rel.
Proof. intros rel acc H. rewrite <- (app_nil_r rel) at 1. rewrite norm_ok_comps by auto. cbn. now rewrite rev_app_distr, rev_involutive. Qed.

(** ** resolution *)
Lemma join_lstrip root key : path_join root (lstrip key) = root ++ split_slash (lstrip key).
Proof. induction key as [|c key IH]; cbn [lstrip]; [reflexivity|]. destruct (Ascii.eqb c slash) eqn:E; [exact IH|]. cbn [path_join]. now rewrite E. Qed.
Lemma norm_lstrip key : forall acc, norm acc (split_slash (lstrip key)) = norm acc (split_slash key).
Proof. induction key as [|c key IH]; intros acc; cbn [lstrip]; [reflexivity|]. destruct (Ascii.eqb c slash) eqn:E; [|reflexivity]. rewrite IH. cbn [split_slash]. now rewrite E. Qed.
Lemma norm_raw root key : path_ok root -> norm [] (root ++ split_slash (lstrip key)) = norm [] (root ++ split_slash key).
Proof. intros H. rewrite !norm_ok_comps by auto. apply norm_lstrip. Qed.
Lemma removelast_rev {X} (l : list X) : removelast (rev l) = rev (tl l).
Proof. destruct l as [|x l]; [reflexivity|]. cbn [rev tl]. apply removelast_last. Qed.
Lemma norm_walk comps : forall acc, norm acc comps = walk (rev acc) comps.
Proof.
  induction comps as [|c comps IH]; intros acc; cbn [norm walk List.fold_left]; [reflexivity|]. unfold walk in IH. unfold walk_one at 2.
  destruct (String.eqb c "" || String.eqb c "."); [apply IH|]. destruct (String.eqb c ".."); rewrite IH; [now rewrite removelast_rev|reflexivity].
Qed.
Lemma in_lstrip key x : In x (split_slash (lstrip key)) -> In x (split_slash key).
Proof. induction key as [|c key IH]; cbn [lstrip]; [auto|]. destruct (Ascii.eqb c slash) eqn:E; [|auto]. intros H. cbn [split_slash]. rewrite E. right. auto. Qed.
Lemma resolve_spec root key p : path_ok root ->
  resolve root key = Some p <-> p = norm [] (root ++ split_slash (lstrip key)) /\
    ((exists rel, p = root ++ rel) \/ (exists par l x rest, root = par ++ [l] /\ p = par ++ (l ++ x)%string :: rest /\ x <> ""%string)).
Proof.
  intros H. unfold resolve. rewrite join_lstrip. set (q := norm [] (root ++ split_slash (lstrip key))). assert (Hq : path_ok q) by now apply norm_path_ok.
  assert (Pr : String.prefix (render root) (render q) = true <-> exists u, join_slash q = (join_slash root ++ u)%string).
  { rewrite prefix_spec. unfold render. split; intros [u E]; exists u; [injection E; auto|cbn; now rewrite E]. }
  destruct (String.prefix (render root) (render q)) eqn:E.
  - assert (E' := proj1 Pr eq_refl). apply prefix_paths in E'; auto. split.
    + intros X. injection X as <-. auto.
    + intros [-> _]. reflexivity.
  - split; [discriminate|]. intros [-> D]. exfalso. assert (F : false = true); [|discriminate]. apply Pr. clear Pr E. fold q in D.
    destruct D as [[rel E]|(par & l & x & rest & E1 & E2 & _)].
    + rewrite E. destruct root as [|c root]; [cbn; eauto|]. apply join_app_prefix; auto.
    + rewrite E2, E1. apply join_sibling.
Qed.
Lemma resolve_join root rel : path_ok root -> path_ok rel -> resolve root (join_slash rel) = Some (root ++ rel).
Proof.
  intros H R. apply resolve_spec; auto. split; [|left; eauto]. rewrite norm_root by auto. rewrite lstrip_join by auto.
  destruct rel as [|c rel]; [cbn; now rewrite rev_involutive, app_nil_r|]. rewrite split_join by (auto; easy). rewrite norm_valid by auto. now rewrite rev_involutive.
Qed.

(** ** URIs *)
Lemma uri_mem k : split_uri ("mem://" ++ k) = Some ("mem"%string, k). Proof. destruct k; reflexivity. Qed.
Lemma uri_fs k : split_uri ("fs://" ++ k) = Some ("fs"%string, k). Proof. destruct k; reflexivity. Qed.

Definition path_dec : forall a b : path, {a = b} + {a <> b} := Coq.Lists.List.list_eq_dec string_dec.

Lemma or_iff_compat_both (A B C D : Prop) : (A <-> C) -> (B <-> D) -> (A \/ B <-> C \/ D).
Proof. tauto. Qed.
Section Proofs.
  Context {V : Type}.
  Variable picklable : V -> bool.
  Variable persistent : option path.
  Notation fsys := (gmap path (@node V)).
  Notation store := (@store V).
  Notation step := (step picklable persistent).
  Notation run := (run picklable persistent).
  Notation address := (address persistent).
  Notation call_addr := (call_addr persistent).
  Notation effect := (effect persistent).
  Notation effects := (effects persistent).
  Notation spec_res := (spec_res persistent).
  Notation spec_next := (spec_next persistent).
  Notation spec_run := (spec_run persistent).
  Notation uses_paths := (uses_paths picklable persistent).

  (** ** directories *)
  Lemma anc_in p a : In a (ancestors p) <-> exists c r, p = a ++ c :: r.
  Proof.
    revert a. induction p as [|c p IH]; intros a; cbn [ancestors In].
    - split; [tauto|]. intros (c & r & E). destruct a; discriminate.
    - split.
      + intros [<-|H]; [exists c, p; reflexivity|]. apply in_map_iff in H. destruct H as (b & <- & Hb). apply IH in Hb. destruct Hb as (d & r & ->). exists d, r. reflexivity.
      + intros (d & r & E). destruct a as [|e a]; [now left|]. right. injection E as -> E. apply in_map. apply IH. eauto.
  Qed.
  Lemma mkdirs_lookup (l : list path) (fs : fsys) (q : path) : fold_right (fun a m => <[a := NDir]> m) fs l !! q = if in_dec path_dec q l then Some NDir else fs !! q.
  Proof.
    induction l as [|a l IH]; cbn [fold_right]; [destruct (in_dec _ q []); [destruct i|]; auto|].
    destruct (decide (a = q)) as [->|n].
    - rewrite lookup_insert. destruct (in_dec _ q (q :: l)) as [|N]; auto. exfalso. apply N. now left.
    - rewrite lookup_insert_ne by auto. rewrite IH. destruct (in_dec _ q l) as [i|i], (in_dec _ q (a :: l)) as [j|j]; auto.
      + exfalso. apply j. now right.
      + exfalso. destruct j; auto.
  Qed.
  Lemma makedirs_spec (p : path) (fs fs' : fsys) : makedirs p fs = Some fs' ->
    (forall a, In a (ancestors p) -> is_file fs a = false) /\
    forall q, fs' !! q = if in_dec path_dec q (ancestors p) then Some NDir else fs !! q.
  Proof.
    unfold makedirs. destruct (existsb (is_file fs) (ancestors p)) eqn:E; [discriminate|]. intros X. injection X as <-. split; [|intros q; apply mkdirs_lookup].
    intros a Ha. destruct (is_file fs a) eqn:F; auto. assert (existsb (is_file fs) (ancestors p) = true); [|congruence]. apply existsb_exists. eauto.
  Qed.
  Lemma not_own_ancestor p : ~ In p (ancestors p).
  Proof. rewrite anc_in. intros (c & r & E). apply (f_equal (@List.length _)) in E. rewrite app_length in E. cbn in E. lia. Qed.

  (** ** the object held at an address *)
  Lemma fs_put_content (p : path) (v : V) (fs fs' : fsys) (r : res V) (q : path) : fs_put picklable p v fs = (fs', r) ->
    match fs' !! q with Some (NFile (Some w)) => Some w | _ => None end =
    (match r with
     | RNone => if decide (p = q) then Some v else match fs !! q with Some (NFile (Some w)) => Some w | _ => None end
     | ErrPickle => if decide (p = q) then None else match fs !! q with Some (NFile (Some w)) => Some w | _ => None end
     | _ => match fs !! q with Some (NFile (Some w)) => Some w | _ => None end
     end) /\ (r = RNone \/ r = ErrPickle \/ r = ErrOS).
  Proof.
    unfold fs_put. destruct (makedirs p fs) as [fs1|] eqn:Em; [|intros X; injection X as <- <-; auto].
    destruct (makedirs_spec _ _ _ Em) as [Ha Hl].
    assert (K : match fs1 !! q with Some (NFile (Some w)) => Some w | _ => None end = match fs !! q with Some (NFile (Some w)) => Some w | _ => None end).
    { rewrite Hl. destruct (in_dec _ q (ancestors p)) as [i|]; auto. apply Ha in i. unfold is_file in i. destruct (fs !! q) as [[|]|]; auto. discriminate. }
    destruct (is_dir fs1 p); [intros X; injection X as <- <-; auto|].
    destruct (picklable v); intros X; injection X as <- <-; (split; [|auto]); destruct (decide (p = q)) as [->|n]; rewrite ?lookup_insert, ?lookup_insert_ne by auto; auto.
  Qed.
  Lemma matches_put (s : store) m a v : matches s m -> forall s', (forall b, content s' b = if decide (a = b) then Some v else content s b) -> matches s' (m_put a v m).
  Proof. intros M s' H b. rewrite H. unfold m_put. destruct (decide (a = b)) as [->|n]; [now rewrite lookup_insert|]. rewrite lookup_insert_ne by auto. apply M. Qed.
  Lemma matches_del (s : store) m a : matches s m -> forall s', (forall b, content s' b = if decide (a = b) then None else content s b) -> matches s' (m_del a m).
  Proof. intros M s' H b. rewrite H. unfold m_del. destruct (decide (a = b)) as [->|n]; [now rewrite lookup_delete|]. rewrite lookup_delete_ne by auto. apply M. Qed.

  Lemma put_fs_matches root key v s s' r m : put_fs picklable root key v s = (s', r) -> matches s m ->
    match resolve root key with
    | None => r = ErrValue /\ s' = s
    | Some p => (r = RNone /\ matches s' (m_put (Fs p) v m)) \/ (r = ErrPickle /\ matches s' (m_del (Fs p) m)) \/ (r = ErrOS /\ matches s' m)
    end.
  Proof.
    unfold put_fs. intros E M. destruct (resolve root key) as [p|]; [|injection E as <- <-; auto].
    unfold with_fs in E. destruct (fs_put picklable p v (s_fs s)) as [fs' r'] eqn:Ef. cbn [fst snd] in E. injection E as <- <-.
    pose proof (fun q => fs_put_content _ _ _ _ _ q Ef) as H. destruct (H p) as [_ R].
    destruct R as [->|[->| ->]].
    - left. split; auto. eapply matches_put; eauto. intros [k|q]; cbn [content s_mem s_fs].
      + destruct (decide _); [discriminate|auto].
      + etransitivity; [exact (proj1 (H q))|]. destruct (decide (p = q)), (decide (Fs p = Fs q)); congruence.
    - right. left. split; auto. eapply matches_del; eauto. intros [k|q]; cbn [content s_mem s_fs].
      + destruct (decide _); [discriminate|auto].
      + etransitivity; [exact (proj1 (H q))|]. destruct (decide (p = q)), (decide (Fs p = Fs q)); congruence.
    - right. right. split; auto. intros [k|q]; [apply (M (Mem k))|]. rewrite <- (M (Fs q)). cbn [content s_mem s_fs]. exact (proj1 (H q)).
  Qed.
  Lemma mem_put_matches (s : store) m k v : matches s m -> matches (Store (<[k := v]> (s_mem s)) (s_fs s)) (m_put (Mem k) v m).
  Proof.
    intros M. eapply matches_put; eauto. intros [k'|q]; cbn [content s_mem s_fs].
    - destruct (decide (Mem k = Mem k')) as [E|n]; [injection E as ->; now rewrite lookup_insert|]. rewrite lookup_insert_ne by congruence. auto.
    - destruct (decide _); [discriminate|auto].
  Qed.

  Theorem step_effect s c s' r m : step s c = (s', r) -> matches s m -> matches s' (effect c r m).
  Proof.
    intros E M. unfold effect. destruct c as [v uri|v id|uri|uri|uri|]; cbn [step call_addr] in *.
    - destruct (split_uri uri) as [[a b]|] eqn:Es.
      + unfold address. destruct (parse_uri persistent uri) as [[[|root] key]|]; [| |injection E as <- <-; auto].
        * injection E as <- <-. now apply mem_put_matches.
        * destruct (put_fs picklable root key v s) as [s1 r1] eqn:Ep. pose proof (put_fs_matches _ _ _ _ _ _ _ Ep M) as H. cbn [option_map].
          destruct (resolve root key) as [p|]; cbn [option_map].
          -- unfold ret_uri in E. cbn [fst snd] in E. destruct H as [[-> H]|[[-> H]|[-> H]]]; injection E as <- <-; auto.
          -- destruct H as [-> ->]. injection E as <- <-. auto.
      + destruct persistent as [root|]; [|injection E as <- <-; auto].
        destruct (put_fs picklable root uri v s) as [s1 r1] eqn:Ep. pose proof (put_fs_matches _ _ _ _ _ _ _ Ep M) as H.
        destruct (resolve root uri) as [p|]; cbn [option_map].
        * unfold ret_uri in E. cbn [fst snd] in E. destruct H as [[-> H]|[[-> H]|[-> H]]]; injection E as <- <-; auto.
        * destruct H as [-> ->]. injection E as <- <-. auto.
    - injection E as <- <-. now apply mem_put_matches.
    - assert (s' = s) as -> by (destruct (parse_uri persistent uri) as [[[|root] key]|]; injection E as <- <-; auto). now destruct (address uri).
    - unfold address. destruct (parse_uri persistent uri) as [[[|root] key]|]; [| |injection E as <- <-; auto].
      + injection E as <- <-. eapply matches_del; eauto. intros [k'|q]; cbn [content s_mem s_fs].
        * destruct (decide (Mem key = Mem k')) as [E|n]; [injection E as ->; now rewrite lookup_delete|]. rewrite lookup_delete_ne by congruence. auto.
        * destruct (decide _); [discriminate|auto].
      + destruct (resolve root key) as [p|]; cbn [option_map]; [|injection E as <- <-; auto].
        unfold fs_delete, with_fs in E. destruct (s_fs s !! p) as [[o|]|] eqn:Ep; cbn [fst snd] in E; injection E as <- <-.
        * eapply matches_del; eauto. intros [k'|q]; cbn [content s_mem s_fs]; [destruct (decide _); [discriminate|auto]|].
          destruct (decide (Fs p = Fs q)) as [E|n]; [injection E as ->; now rewrite lookup_delete|]. rewrite lookup_delete_ne by congruence. auto.
        * intros a. apply M.
        * eapply matches_del; eauto. intros [k'|q]; cbn [content s_mem s_fs]; [destruct (decide _); [discriminate|auto]|].
          destruct (decide (Fs p = Fs q)) as [E|n]; [injection E as ->; now rewrite Ep|auto].
    - assert (s' = s) as -> by (destruct (parse_uri persistent uri) as [[[|root] key]|]; injection E as <- <-; auto). now destruct (address uri).
    - injection E as <- <-. auto.
  Qed.
  Theorem run_effects : forall h s m s' rs, run s h = (s', rs) -> matches s m -> matches s' (effects h rs m).
  Proof.
    induction h as [|c h IH]; intros s m s' rs E M; cbn [run] in E; [injection E as <- <-; auto|].
    destruct (step s c) as [s1 r] eqn:Es. destruct (run s1 h) as [s2 rs'] eqn:Er. injection E as <- <-. cbn [effects].
    eapply IH; eauto. eapply step_effect; eauto.
  Qed.
  Theorem get_content s uri v : snd (step s (Get uri)) = RVal v <-> exists a, address uri = Some a /\ content s a = Some v.
  Proof.
    cbn [step]. unfold address. destruct (parse_uri persistent uri) as [[[|root] key]|]; cbn [snd].
    - split.
      + intros H. exists (Mem key). split; auto. cbn. destruct (s_mem s !! key); congruence.
      + intros (a & E & H). injection E as <-. cbn in H. now rewrite H.
    - destruct (resolve root key) as [p|]; cbn [option_map].
      + unfold fs_get. split.
        * intros H. exists (Fs p). split; auto. cbn. destruct (s_fs s !! p) as [[[w|]|]|]; congruence.
        * intros (a & E & H). injection E as <-. cbn in H. destruct (s_fs s !! p) as [[[w|]|]|]; congruence.
      + split; [discriminate|]. intros (a & E & _). discriminate.
    - split; [discriminate|]. intros (a & E & _). discriminate.
  Qed.

  (** ** exact map behaviour on prefix-free keys *)
  Lemma fs_put_tidy K p v s : apart K -> tidy K s -> K p -> picklable v = true ->
    exists fs', fs_put picklable p v (s_fs s) = (fs', RNone) /\ tidy K (Store (s_mem s) fs').
  Proof.
    intros A [TF TA] Hp Hv. unfold fs_put. destruct (makedirs p (s_fs s)) as [fs1|] eqn:Em.
    2:{ exfalso. unfold makedirs in Em. destruct (existsb (is_file (s_fs s)) (ancestors p)) eqn:E; [|discriminate]. apply existsb_exists in E. destruct E as (a & Ha & F). rewrite (TA _ _ Hp Ha) in F. discriminate. }
    destruct (makedirs_spec _ _ _ Em) as [Ha Hl].
    assert (Hpl : fs1 !! p = s_fs s !! p) by (rewrite Hl; destruct (in_dec _ p (ancestors p)) as [i|]; auto; now apply not_own_ancestor in i).
    assert (is_dir fs1 p = false) as -> by (unfold is_dir; rewrite Hpl; destruct (TF _ Hp) as [->|[w ->]]; auto). rewrite Hv.
    eexists. split; [reflexivity|]. split; cbn [s_fs].
    - intros q Hq. destruct (decide (p = q)) as [->|n]; [rewrite lookup_insert; eauto|]. rewrite lookup_insert_ne by auto. rewrite Hl.
      destruct (in_dec _ q (ancestors p)) as [i|]; auto. apply anc_in in i. destruct i as (c & r & E). exfalso. apply (A q p c r); auto.
    - intros q a Hq Hi. unfold is_file. destruct (decide (p = a)) as [->|n].
      + exfalso. apply anc_in in Hi. destruct Hi as (c & r & E). apply (A a q c r); auto.
      + rewrite lookup_insert_ne by auto. rewrite Hl. destruct (in_dec _ a (ancestors p)); auto. apply (TA _ _ Hq Hi).
  Qed.
  Theorem step_map K s c m s' r : apart K -> tidy K s -> matches s m -> uses_paths K c -> step s c = (s', r) ->
    (is_list c = false -> r = spec_res c m) /\ tidy K s' /\ matches s' (match c with
      | Put v _ | PutAuto v _ => match call_addr c with Some a => m_put a v m | None => m end
      | Delete _ => match call_addr c with Some a => m_del a m | None => m end
      | _ => m end).
  Proof.
    intros A T M [U1 U2] E. pose proof (step_effect _ _ _ _ _ E M) as M'. unfold effect in M'.
    assert (PF : forall root key v, (forall p, resolve root key = Some p -> K p) -> (forall p, resolve root key = Some p -> picklable v = true) -> forall s1 r1, put_fs picklable root key v s = (s1, r1) ->
      match resolve root key with Some _ => r1 = RNone | None => r1 = ErrValue end /\ tidy K s1).
    { intros root key v Hk Hv s1 r1 Ep. unfold put_fs in Ep. destruct (resolve root key) as [p|]; [|injection Ep as <- <-; auto].
      destruct (fs_put_tidy K p v s A T (Hk _ eq_refl) (Hv _ eq_refl)) as (fs' & E1 & T1). rewrite E1 in Ep. injection Ep as <- <-. auto. }
    destruct c as [v uri|v id|uri|uri|uri|]; cbn [is_list].
    - cbn [step] in E. cbn [spec_res]. unfold full_uri. cbn [call_addr] in *. destruct (split_uri uri) as [[a b]|] eqn:Es.
      + unfold address in *. destruct (parse_uri persistent uri) as [[[|root] key]|]; [| |injection E as <- <-; auto].
        * injection E as <- <-. split; [auto|]. split; [destruct T; split; auto|auto].
        * destruct (put_fs picklable root key v s) as [s1 r1] eqn:Ep. cbn [option_map] in *.
          destruct (PF root key v) with (s1 := s1) (r1 := r1) as [R T1]; auto; try (intros p Hp; rewrite Hp in *; cbn in *; eauto).
          unfold ret_uri in E. cbn [fst snd] in E. destruct (resolve root key) as [p|]; subst r1; cbn [option_map] in *; injection E as <- <-; auto.
      + destruct persistent as [root|]; [|injection E as <- <-; auto].
        destruct (put_fs picklable root uri v s) as [s1 r1] eqn:Ep.
        destruct (PF root uri v) with (s1 := s1) (r1 := r1) as [R T1]; auto; try (intros p Hp; rewrite Hp in *; cbn in *; eauto).
        unfold ret_uri in E. cbn [fst snd] in E. destruct (resolve root uri) as [p|]; subst r1; cbn [option_map] in *; injection E as <- <-; auto.
    - cbn [step] in E. injection E as <- <-. split; [auto|]. split; [destruct T; split; auto|auto].
    - cbn [step] in E. cbn [spec_res call_addr] in *. unfold address in *. destruct (parse_uri persistent uri) as [[[|root] key]|].
      + injection E as <- <-. rewrite <- (M (Mem key)). auto.
      + destruct (resolve root key) as [p|] eqn:Er; cbn [option_map] in *; injection E as <- <-; auto. split; auto. intros _.
        rewrite <- (M (Fs p)). cbn [content]. unfold fs_get. destruct (t_files _ _ T p (U1 _ eq_refl)) as [->|[w ->]]; auto.
      + injection E as <- <-. auto.
    - cbn [step] in E. cbn [spec_res call_addr] in *. unfold address in *. destruct (parse_uri persistent uri) as [[[|root] key]|].
      + injection E as <- <-. split; [auto|]. split; [destruct T; split; auto|auto].
      + destruct (resolve root key) as [p|] eqn:Er; cbn [option_map] in *; [|injection E as <- <-; auto].
        unfold fs_delete, with_fs in E. destruct (t_files _ _ T p (U1 _ eq_refl)) as [H|[w H]]; rewrite H in E; cbn [fst snd] in E; injection E as <- <-.
        * split; auto. split; auto. destruct s; auto.
        * split; auto. split; auto. destruct T as [TF TA]. split; cbn [s_fs].
          -- intros q Hq. destruct (decide (p = q)) as [->|n]; [rewrite lookup_delete; auto|rewrite lookup_delete_ne by auto; auto].
          -- intros q a Hq Ha. unfold is_file. destruct (decide (p = a)) as [->|n]; [now rewrite lookup_delete|rewrite lookup_delete_ne by auto; apply (TA _ _ Hq Ha)].
      + injection E as <- <-. auto.
    - cbn [step] in E. cbn [spec_res call_addr] in *. unfold address in *. destruct (parse_uri persistent uri) as [[[|root] key]|].
      + injection E as <- <-. rewrite <- (M (Mem key)). auto.
      + destruct (resolve root key) as [p|] eqn:Er; cbn [option_map] in *; injection E as <- <-; auto. split; auto. intros _.
        rewrite <- (M (Fs p)). cbn [content]. unfold fs_exists. destruct (t_files _ _ T p (U1 _ eq_refl)) as [->|[w ->]]; auto.
      + injection E as <- <-. auto.
    - cbn [step] in E. injection E as <- <-. split; [discriminate|auto].
  Qed.
  Theorem run_map K : apart K -> forall h s m s' rs, tidy K s -> matches s m -> Forall (uses_paths K) h -> Forall (fun c => is_list c = false) h ->
    run s h = (s', rs) -> rs = snd (spec_run h m) /\ tidy K s' /\ matches s' (fst (spec_run h m)).
  Proof.
    intros A. induction h as [|c h IH]; intros s m s' rs T M U L E; cbn [run spec_run] in *; [injection E as <- <-; auto|].
    destruct (step s c) as [s1 r] eqn:Es. destruct (run s1 h) as [s2 rs'] eqn:Er. injection E as <- <-. inversion U; inversion L; subst.
    destruct (step_map _ _ _ _ _ _ A T M H1 Es) as (R & T1 & M1). fold (spec_next c m) in M1.
    destruct (IH _ _ _ _ T1 M1 H2 H6 Er) as (R2 & T2 & M2). destruct (spec_run h (spec_next c m)) as [m' rs2]. cbn [fst snd] in *. rewrite R2, R; auto.
  Qed.

  (** ** listing *)
  Lemma strip_root_spec root : forall p rel, strip_root root p = Some rel <-> p = root ++ rel.
  Proof.
    induction root as [|c root IH]; intros p rel; cbn.
    - split; intros; congruence.
    - destruct p as [|d p]; [split; discriminate|]. destruct (String.eqb_spec c d) as [->|n].
      + rewrite IH. split; intros; congruence.
      + split; intros; congruence.
  Qed.
  Theorem list_spec s l : snd (step s ListKeys) = RKeys l -> forall u, In u l <->
    (exists k v, s_mem s !! k = Some v /\ u = ("mem://" ++ k)%string) \/
    (exists root rel c, persistent = Some root /\ s_fs s !! (root ++ rel) = Some (NFile c) /\ u = ("fs://" ++ join_slash rel)%string).
  Proof.
    cbn [step snd]. intros E u. injection E as <-. rewrite in_app_iff. apply or_iff_compat_both.
    - rewrite map_map, in_map_iff. split.
      + intros ([k v] & <- & H). exists k, v. split; auto. apply elem_of_list_In, elem_of_map_to_list in H. auto.
      + intros (k & v & H & ->). exists (k, v). split; auto. apply elem_of_list_In, elem_of_map_to_list. auto.
    - destruct persistent as [root|]; [|split; [intros []|intros (r & rel & c & X & _); discriminate]].
      rewrite in_map_iff. unfold fs_list. split.
      + intros (x & <- & H). apply in_flat_map in H. destruct H as ([p [c|]] & Hp & Hx); cbn [fst snd] in Hx; [|destruct Hx].
        destruct (strip_root root p) as [rel|] eqn:Er; [|destruct Hx]. destruct Hx as [<-|[]]. apply strip_root_spec in Er. subst p.
        apply elem_of_list_In, elem_of_map_to_list in Hp. exists root, rel, c. auto.
      + intros (r & rel & c & X & H & ->). injection X as <-. exists (join_slash rel). split; auto. apply in_flat_map. exists (root ++ rel, NFile c). split.
        * apply elem_of_list_In, elem_of_map_to_list. auto.
        * cbn [fst snd]. rewrite (proj2 (strip_root_spec root _ rel) eq_refl). now left.
  Qed.
  (** ** stored files have proper names, so listed URIs can be read back *)
  Definition root_ok : Prop := match persistent with Some root => path_ok root | None => True end.
  Lemma parse_root uri root key : parse_uri persistent uri = Some (BFs root, key) -> persistent = Some root.
  Proof.
    unfold parse_uri. destruct (split_uri uri) as [[a b]|]; [|discriminate]. destruct (String.eqb a "mem"); [discriminate|].
    destruct (String.eqb a "fs"); [|discriminate]. destruct persistent; [|discriminate]. intros E. injection E as <- <-. auto.
  Qed.
  Lemma resolve_ok root key p : path_ok root -> resolve root key = Some p -> path_ok p.
  Proof. intros H E. apply resolve_spec in E; auto. destruct E as [-> _]. now apply norm_path_ok. Qed.
  Lemma put_files_ok root key v s : path_ok root -> files_ok s -> files_ok (fst (put_fs picklable root key v s)).
  Proof.
    intros R F. unfold put_fs. destruct (resolve root key) as [p|] eqn:Er; auto. apply resolve_ok in Er; auto.
    unfold with_fs, fs_put. destruct (makedirs p (s_fs s)) as [fs1|] eqn:Em; [|exact F]. destruct (makedirs_spec _ _ _ Em) as [_ Hl].
    assert (F1 : forall q c, fs1 !! q = Some (NFile c) -> path_ok q).
    { intros q c H. rewrite Hl in H. destruct (in_dec path_dec q (ancestors p)); [discriminate|]. eapply F; eauto. }
    destruct (is_dir fs1 p); [exact F1|]. destruct (picklable v); intros q c H; cbn [fst s_fs] in H.
    - destruct (decide (p = q)) as [->|n]; auto. rewrite lookup_insert_ne in H by auto. eauto.
    - destruct (decide (p = q)) as [->|n]; auto. rewrite lookup_insert_ne in H by auto. eauto.
  Qed.
  Lemma step_files_ok s c : root_ok -> files_ok s -> files_ok (fst (step s c)).
  Proof.
    intros R F. destruct c as [v uri|v id|uri|uri|uri|]; cbn [step]; auto.
    - assert (G : forall u root key, persistent = Some root -> files_ok (fst (ret_uri u (put_fs picklable root key v s)))).
      { intros u root key Hp. unfold root_ok in R. rewrite Hp in R. pose proof (put_files_ok root key v s R F) as X. destruct (put_fs picklable root key v s) as [s1 []]; auto. }
      destruct (split_uri uri).
      + destruct (parse_uri persistent uri) as [[[|root] key]|] eqn:Ep; auto. apply parse_root in Ep. auto.
      + destruct persistent as [root|] eqn:Ep; auto.
    - destruct (parse_uri persistent uri) as [[[|root] key]|]; auto.
    - destruct (parse_uri persistent uri) as [[[|root] key]|]; auto. destruct (resolve root key) as [p|]; auto.
      unfold with_fs, fs_delete. destruct (s_fs s !! p) as [[o|]|]; auto. intros q c H. cbn [fst s_fs] in H.
      destruct (decide (p = q)) as [->|n]; [now rewrite lookup_delete in H|]. rewrite lookup_delete_ne in H by auto. eauto.
    - destruct (parse_uri persistent uri) as [[[|root] key]|]; auto.
  Qed.
  Lemma run_files_ok : root_ok -> forall h s, files_ok s -> files_ok (fst (run s h)).
  Proof.
    intros R. induction h as [|c h IH]; intros s F; cbn [run]; auto. pose proof (step_files_ok s c R F). destruct (step s c) as [s1 r]. cbn [fst] in *.
    specialize (IH s1 H). destruct (run s1 h). auto.
  Qed.
  Lemma path_ok_app a b : path_ok (a ++ b) -> path_ok b.
  Proof. intros H. apply Forall_app in H. tauto. Qed.
  Theorem listed_get s l u : root_ok -> files_ok s -> snd (step s ListKeys) = RKeys l -> In u l ->
    (exists v, snd (step s (Get u)) = RVal v) \/ snd (step s (Get u)) = ErrPickle.
  Proof.
    intros R F E Hu. apply (list_spec _ _ E) in Hu. destruct Hu as [(k & v & H & ->)|(root & rel & c & Hp & H & ->)]; cbn [step].
    - unfold parse_uri. rewrite uri_mem. cbn. rewrite H. eauto.
    - unfold parse_uri. rewrite uri_fs. cbn [String.eqb]. cbn. unfold root_ok in R. rewrite Hp in *. cbn [snd].
      rewrite resolve_join; auto. 2:{ apply F in H. now apply path_ok_app in H. } unfold fs_get. rewrite H. destruct c; eauto.
  Qed.
  (** ** save and load *)
  Theorem save_load s v uri s' : save picklable persistent s v uri = (s', RVal v) -> (match snd (step s (Put v uri)) with RVal _ => False | _ => True end) ->
    load picklable persistent s' uri = RVal v.
  Proof.
    unfold save, load. destruct (step s (Put v uri)) as [s1 r] eqn:Es. cbn [snd]. intros E N.
    assert (Hr : exists u, r = RUri u) by (destruct r; try (injection E; discriminate); eauto; destruct N). destruct Hr as [u ->]. injection E as <-.
    assert (P : forall u0 root key, ret_uri u0 (put_fs picklable root key v s) = (s1, RUri u) -> exists p, resolve root key = Some p /\ s_fs s1 !! p = Some (NFile (Some v))).
    { intros u0 root key X. unfold put_fs in X. destruct (resolve root key) as [p|]; [|discriminate]. exists p. split; auto.
      unfold with_fs, fs_put in X. destruct (makedirs p (s_fs s)) as [fs1|]; [|discriminate]. destruct (is_dir fs1 p); [discriminate|].
      destruct (picklable v); [|discriminate]. cbn in X. injection X as <- _. cbn. now rewrite lookup_insert. }
    cbn [step] in Es |- *. destruct (split_uri uri) as [[a b]|] eqn:Eu.
    - destruct (parse_uri persistent uri) as [[[|root] key]|]; [| |discriminate].
      + injection Es as <- _. cbn. now rewrite lookup_insert.
      + destruct (P _ _ _ Es) as (p & -> & Hp). cbn. unfold fs_get. now rewrite Hp.
    - destruct persistent as [root|] eqn:Ep; [|discriminate]. unfold parse_uri. rewrite uri_fs. cbn [String.eqb]. cbn.
      destruct (P _ _ _ Es) as (p & -> & Hp). cbn. unfold fs_get. now rewrite Hp.
  Qed.
End Proofs.
