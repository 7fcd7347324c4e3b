From Coq Require Import List Bool Arith Lia.
From Verif Require Import TraceModel TraceProofs TraceSound TraceCaps TraceProps EagerModel EagerSpec.
Import ListNotations.
Local Open Scope list_scope.

Section Eager.
  Context {C V : Type}.
  Variable c_eqb : C -> C -> bool.
  Hypothesis Hc : forall a b, c_eqb a b = true -> a = b.
  Variable sem : nat -> list V -> list V.
  Variable truth : V -> bool.
  Variable ctruth : C -> bool.
  Notation rb := (run_body sem truth ctruth).
  Notation dv := (dval C V).

  Lemma rb_prim f outer frame p args n k : rb (S f) outer frame (BPrim p args n k) =
    match dlooks outer frame args with
    | None => None
    | Some vs => let rs := sem p (objs vs) in
                 if Nat.eqb (List.length rs) n then rb (S f) outer (frame ++ map DV rs) k else None
    end.
  Proof. reflexivity. Qed.
  Lemma rb_cond f outer frame pred args t e k : rb (S f) outer frame (BCond pred args t e k) =
    match dlook outer frame pred, dlooks outer frame args with
    | Some (DV c), Some vs =>
        match rb f (outer ++ [frame]) vs (if truth c then t else e) with
        | Some rs => rb (S f) outer (frame ++ rs) k
        | None => None
        end
    | _, _ => None
    end.
  Proof. reflexivity. Qed.
  Lemma rb_while f outer frame init c l k : rb (S f) outer frame (BWhile init c l k) =
    match dlooks outer frame init with
    | None => None
    | Some vs =>
        match iterate f (fun st => match rb f (outer ++ [frame]) st c with Some [d] => Some (dtruth truth ctruth d) | _ => None end)
                        (fun st => rb f (outer ++ [frame]) st l) vs with
        | Some rs => rb (S f) outer (frame ++ rs) k
        | None => None
        end
    end.
  Proof. reflexivity. Qed.
  Lemma rb_call f outer frame args g k : rb (S f) outer frame (BCall args g k) =
    match dlooks outer frame args with
    | None => None
    | Some vs => match rb f (outer ++ [frame]) vs g with
                 | Some rs => rb (S f) outer (frame ++ rs) k
                 | None => None
                 end
    end.
  Proof. reflexivity. Qed.
  Lemma rb_ret f outer frame ls : rb (S f) outer frame (BRet ls) = dleaves outer frame ls.
  Proof. reflexivity. Qed.

  (** ** lengths *)
  Lemma dleaves_len outer frame : forall ls rs, dleaves (C := C) (V := V) outer frame ls = Some rs -> List.length rs = List.length ls.
  Proof.
    induction ls as [|[r|c] ls IH]; intros rs E; cbn [dleaves] in E.
    - injection E as <-. reflexivity.
    - destruct (dlook outer frame r); [|discriminate]. destruct (dleaves outer frame ls); [|discriminate].
      injection E as <-. cbn. now rewrite IH.
    - destruct (dleaves outer frame ls); [|discriminate]. injection E as <-. cbn. now rewrite IH.
  Qed.
  Lemma run_nret : forall b fuel outer frame rs, rb fuel outer frame b = Some rs -> List.length rs = nret b.
  Proof.
    induction b as [ls|p args n k IHk|pred args t IHt e IHe k IHk|init c IHc l IHl k IHk|args g IHg k IHk];
      intros [|f] outer frame rs E; try discriminate E; cbn [nret].
    - rewrite rb_ret in E. now apply dleaves_len in E.
    - rewrite rb_prim in E. destruct (dlooks outer frame args); [|discriminate]. cbv zeta in E.
      destruct (Nat.eqb _ n); [|discriminate]. eauto.
    - rewrite rb_cond in E. destruct (dlook outer frame pred) as [[|]|]; try discriminate.
      destruct (dlooks outer frame args); [|discriminate]. destruct (rb f _ _ _); [|discriminate]. eauto.
    - rewrite rb_while in E. destruct (dlooks outer frame init); [|discriminate].
      destruct (iterate _ _ _ _); [|discriminate]. eauto.
    - rewrite rb_call in E. destruct (dlooks outer frame args); [|discriminate]. destruct (rb f _ _ _); [|discriminate]. eauto.
  Qed.
  Lemma lift_leaves_len outer : forall ls (s s' : tst C) ts, lift_leaves outer s ls = Some (s', ts) -> List.length ts = List.length ls.
  Proof.
    induction ls as [|[r|c] ls IH]; intros s s' ts E; cbn [lift_leaves] in E.
    - injection E as _ <-. reflexivity.
    - destruct (lift outer s r) as [[s1 t]|]; [|discriminate].
      destruct (lift_leaves outer s1 ls) as [[s2 ts2]|] eqn:E2; [|discriminate]. injection E as _ <-. cbn. f_equal. eauto.
    - destruct (lift_leaves outer s ls) as [[s2 ts2]|] eqn:E2; [|discriminate]. injection E as _ <-. cbn. f_equal. eauto.
  Qed.
  Lemma trace_nret st : forall b outer (s s' : tst C) ops outs, trace_body c_eqb st outer s b = Some (s', ops, outs) -> List.length outs = nret b.
  Proof.
    induction b as [ls|p args n k IHk|pred args t IHt e IHe k IHk|init c IHc l IHl k IHk|args g IHg k IHk];
      intros outer s s' ops outs E; cbn [trace_body nret] in *.
    - destruct (lift_leaves outer s ls) as [[s1 ts]|] eqn:E1; [|discriminate]. injection E as _ _ <-. eapply lift_leaves_len; eauto.
    - destruct (lift_all outer s args) as [[s1 ts]|]; [|discriminate]. destruct (new_outs n s1) as [s2 os].
      destruct (trace_body c_eqb st outer (push (map TV os) s2) k) as [[[s3 ops3] q]|] eqn:E3; [|discriminate].
      injection E as _ _ <-. eauto.
    - destruct (lift outer s pred) as [[s0 [pg|]]|]; try discriminate.
      destruct (lift_all outer s0 args) as [[s1 ts]|]; [|discriminate].
      destruct (trace_body c_eqb st (outer ++ [t_frame s1]) (start ts) t) as [[[st1 o1] r1]|]; [|discriminate].
      destruct (trace_body c_eqb st (outer ++ [t_frame s1]) (start ts) e) as [[[st2 o2] r2]|]; [|discriminate].
      destruct (negb _); [discriminate|]. destruct (st && _); [discriminate|].
      match type of E with match ?c with _ => _ end = _ => destruct c as [[s2 cs]|]; [|discriminate] end.
      match type of E with match ?c with _ => _ end = _ => destruct c as [s3 os] end.
      match type of E with match ?c with _ => _ end = _ => destruct c as [rs|]; [|discriminate] end.
      destruct (trace_body c_eqb st outer (push rs s3) k) as [[[s4 ops4] q]|] eqn:E4; [|discriminate].
      injection E as _ _ <-. eauto.
    - destruct (lift_all outer s init) as [[s1 ts]|]; [|discriminate].
      destruct (_ || _); [discriminate|].
      destruct (trace_body c_eqb st (outer ++ [t_frame s1]) (start ts) c) as [[[st1 o1] r1]|]; [|discriminate].
      destruct (trace_body c_eqb st (outer ++ [t_frame s1]) (start ts) l) as [[[st2 o2] r2]|]; [|discriminate].
      destruct (negb _); [discriminate|]. destruct (st && _); [discriminate|].
      destruct (negb _); [discriminate|]. destruct (negb _); [discriminate|].
      match type of E with match ?c with _ => _ end = _ => destruct c as [[s2 cs]|]; [|discriminate] end.
      match type of E with match ?c with _ => _ end = _ => destruct c as [s3 os] end.
      destruct (trace_body c_eqb st outer (push (map TV os) s3) k) as [[[s4 ops4] q]|] eqn:E4; [|discriminate].
      injection E as _ _ <-. eauto.
    - destruct (lift_all outer s args) as [[s1 ts]|]; [|discriminate].
      destruct (trace_body c_eqb st (outer ++ [t_frame s1]) (start ts) g) as [[[st1 o1] r1]|]; [|discriminate].
      match type of E with match ?c with _ => _ end = _ => destruct c as [[s2 cs]|]; [|discriminate] end.
      match type of E with match ?c with _ => _ end = _ => destruct c as [s3 os] end.
      match type of E with match ?c with _ => _ end = _ => destruct c as [rs|]; [|discriminate] end.
      destruct (trace_body c_eqb st outer (push rs s3) k) as [[[s4 ops4] q]|] eqn:E4; [|discriminate].
      injection E as _ _ <-. eauto.
  Qed.

  (** ** one statement *)
  Lemma seen_obj (w : list dv) : Forall is_value w -> forallb is_obj (map seen w) = true.
  Proof. induction 1 as [|d w [v ->] H IH]; cbn; auto. Qed.
  Lemma seen_stands (w : list dv) : Forall2 stands_for (map seen w) w.
  Proof. induction w as [|[v|c] w IH]; cbn; constructor; cbn; auto. Qed.
  Lemma captured_spec (w : list dv) : forall rs vs, captured_values w rs = Some vs -> Forall2 (value_of [w]) rs vs.
  Proof.
    induction rs as [|[l i] rs IH]; intros vs E; cbn [captured_values] in E.
    - injection E as <-. constructor.
    - cbn [fst snd] in E. destruct l as [|l]; cbn [Nat.eqb] in E; [|discriminate].
      destruct (nth_error w i) as [[v|c]|] eqn:En; try discriminate.
      destruct (captured_values w rs) as [vs'|]; [|discriminate]. injection E as <-. constructor; auto.
  Qed.
  Lemma captured_total (w : list dv) : forall rs, (forall r, In r rs -> refers_obj [map seen w] r = true) -> exists vs, captured_values w rs = Some vs.
  Proof.
    induction rs as [|[l i] rs IH]; intros H; [exists []; reflexivity|].
    destruct IH as [vs E]; [intros r Hr; apply H; now right|].
    specialize (H (l, i) (or_introl eq_refl)). unfold refers_obj in H. cbn [fst snd] in H.
    destruct l as [|l]; [|destruct l; discriminate]. cbn [nth_error] in H. rewrite nth_error_map in H.
    cbn [captured_values fst snd Nat.eqb]. rewrite E.
    destruct (nth_error w i) as [[v|c]|]; cbn in H; try discriminate. eauto.
  Qed.

  Lemma eval_len fuel g ins vs : eval_graph sem truth fuel g ins = Some vs -> List.length vs = List.length (g_outputs g).
  Proof.
    destruct fuel as [|f]; [discriminate|]. cbn [eval_graph]. destruct (bind_all _ _ _) as [e|]; [|discriminate].
    destruct (eval_ops _ _ _ _ _ _) as [e'|]; [|discriminate]. revert vs.
    induction (g_outputs g) as [|x l IH]; intros vs E; cbn [get_all] in E; [injection E as <-; reflexivity|].
    destruct (e' x); [|discriminate]. destruct (get_all e' l); [|discriminate]. injection E as <-. cbn. f_equal. auto.
  Qed.

  Lemma bind_sound fuel (w : list dv) call rs : no_const call = true -> Forall is_value w ->
    bind_eager c_eqb sem truth fuel w call = Some rs ->
    (nret call <> 0 -> rb fuel [w] [] call = Some rs) /\ (forall rs', rb fuel [w] [] call = Some rs' -> rs' = rs).
  Proof.
    intros Nc Dv E. unfold bind_eager in E.
    destruct (trace_fn c_eqb false [map seen w] [] call) as [t|] eqn:Et; [|discriminate].
    assert (Ob := seen_obj w Dv).
    destruct (captured_total w (tf_caps t)) as [cv Ecv].
    { intros r Hr. destruct (C27_captures_in_first_use_order _ _ _ _ _ _ Et) as [Ec _]. rewrite Ec in Hr.
      unfold first_uses in Hr. apply in_rev in Hr. apply nodup_In in Hr. apply in_rev in Hr. now apply filter_In in Hr. }
    assert (M := fun a b c d e g => C55_meaning_objects C V c_eqb Hc sem truth ctruth [map seen w] [] call t [w] [] cv Et a b c d e g fuel).
    assert (M' : run_traced sem truth fuel t [] cv = rb fuel [w] [] call).
    { apply M; auto.
      - cbn [forallb]. now rewrite Ob.
      - constructor; [apply seen_stands|constructor].
      - now apply captured_spec. }
    clear M. unfold run_traced, prepare_inputs in M'. cbn [objs flat_map app] in M'.
    destruct (g_outputs (tf_graph t)) as [|x xs] eqn:Eo.
    - split.
      + intros Hn. exfalso. unfold trace_fn in Et.
        destruct (trace_body c_eqb false [map seen w] (start []) call) as [[[s ops] outs]|] eqn:Eb; [|discriminate].
        injection Et as <-. cbn [finish tf_graph g_outputs] in Eo.
        assert (L := trace_nret _ _ _ _ _ _ _ Eb).
        destruct (objects_strict c_eqb call [map seen w] _ _ _ _ Nc ltac:(cbn [forallb]; now rewrite Ob) (start_obj [] eq_refl) Eb) as [_ A].
        destruct (obj_morph _ A) as [_ G]. rewrite Eo in G. cbn in G. lia.
      + intros rs' Er. rewrite Er in M'. destruct (eval_graph sem truth fuel (tf_graph t) cv) as [vs|] eqn:Ev; [|discriminate].
        apply eval_len in Ev. rewrite Eo in Ev. destruct vs; [|discriminate]. congruence.
    - rewrite Ecv in E. rewrite E in M'. split; [congruence|intros; congruence].
  Qed.

  (** ** renaming: the objects of the function become the objects of the session *)
  Lemma dlook_swap (a b : list dv) rest frame r : dlook (a :: b :: rest) frame r = dlook (b :: a :: rest) frame (swap r).
  Proof. destruct r as [[|[|l]] i]; reflexivity. Qed.
  Lemma dlooks_swap (a b : list dv) rest frame : forall rs, dlooks (a :: b :: rest) frame rs = dlooks (b :: a :: rest) frame (map swap rs).
  Proof. induction rs as [|r rs IH]; cbn [dlooks map]; auto. now rewrite <- dlook_swap, IH. Qed.
  Lemma dleaves_swap (a b : list dv) rest frame : forall ls, dleaves (a :: b :: rest) frame ls = dleaves (b :: a :: rest) frame (map swap_leaf ls).
  Proof. induction ls as [|[r|c] ls IH]; cbn [dleaves map swap_leaf]; auto; now rewrite ?IH, <- ?dlook_swap. Qed.
  Lemma iterate_ext {S : Type} n (c c' : S -> option bool) (g g' : S -> option S) : (forall s, c s = c' s) -> (forall s, g s = g' s) -> forall s, iterate n c g s = iterate n c' g' s.
  Proof. intros A B. induction n as [|n IH]; intros s; cbn; auto. rewrite A, B. destruct (c' s) as [[|]|]; auto. destruct (g' s); auto. Qed.
  Lemma run_swap : forall fuel b (x y : list dv) rest frame, rb fuel (x :: y :: rest) frame b = rb fuel (y :: x :: rest) frame (swap_body b).
  Proof.
    induction fuel as [|f IHf]; [reflexivity|].
    induction b as [ls|p args n k IHk|pred args t IHt e IHe k IHk|init c IHc l IHl k IHk|args g IHg k IHk];
      intros x y rest frame; cbn [swap_body].
    - rewrite !rb_ret. apply dleaves_swap.
    - rewrite !rb_prim, dlooks_swap. destruct (dlooks _ _ _); auto. cbv zeta. destruct (Nat.eqb _ n); auto.
    - rewrite !rb_cond, dlook_swap, dlooks_swap. destruct (dlook _ _ _) as [[v|]|]; auto. destruct (dlooks _ _ _); auto.
      cbn [app]. rewrite IHf. destruct (truth v); (destruct (rb f _ _ _); auto).
    - rewrite !rb_while, dlooks_swap. destruct (dlooks _ _ _); auto. cbn [app].
      rewrite (iterate_ext f _ (fun st => match rb f (y :: x :: rest ++ [frame]) st (swap_body c) with Some [d] => Some (dtruth truth ctruth d) | _ => None end) _ (fun st => rb f (y :: x :: rest ++ [frame]) st (swap_body l))).
      + destruct (iterate _ _ _ _); auto.
      + intros st. now rewrite IHf.
      + intros st. now rewrite IHf.
    - rewrite !rb_call, dlooks_swap. destruct (dlooks _ _ _); auto. cbn [app]. rewrite IHf. destruct (rb f _ _ _); auto.
  Qed.
  Lemma dlook_top (w : list dv) r : dlook [[]] w r = dlook [w] [] (swap r).
  Proof. destruct r as [[|[|l]] i]; cbn; auto; now (destruct i || destruct l). Qed.
  Lemma dlooks_top (w : list dv) : forall rs, dlooks [[]] w rs = dlooks [w] [] (map swap rs).
  Proof. induction rs as [|r rs IH]; cbn [dlooks map]; auto. now rewrite <- dlook_top, IH. Qed.

  Lemma ret_all_run f (w fr : list dv) : rb (S f) [w] fr (ret_all (List.length fr)) = Some fr.
  Proof.
    unfold ret_all. rewrite rb_ret.
    assert (A : forall pre suf, dleaves [w] (pre ++ suf) (map (fun i => LRef (1, i)) (seq (List.length pre) (List.length suf))) = Some suf).
    { intros pre suf. revert pre. induction suf as [|d suf IH]; intros pre; cbn [List.length seq map dleaves]; auto.
      unfold dlook at 1. cbn [fst snd List.length Nat.eqb]. rewrite nth_error_app2, Nat.sub_diag by lia. cbn [nth_error].
      specialize (IH (pre ++ [d])). rewrite <- app_assoc, app_length in IH. cbn [app List.length] in IH.
      rewrite Nat.add_1_r in IH. now rewrite IH. }
    apply (A []).
  Qed.

  Lemma dlooks_len outer (frame : list dv) : forall q vs, dlooks outer frame q = Some vs -> List.length vs = List.length q.
  Proof.
    induction q as [|x q IH]; intros vs E; cbn [dlooks] in E; [injection E as <-; auto|].
    destruct (dlook _ _ _); [|discriminate]. destruct (dlooks _ _ q) eqn:Eq; [|discriminate]. injection E as <-. cbn. f_equal. eauto.
  Qed.

  (** direct runs of values give values *)
  Lemma dlooks_val outer (frame : list dv) : Forall (Forall is_value) outer -> Forall is_value frame -> forall rs vs, dlooks outer frame rs = Some vs -> Forall is_value vs.
  Proof.
    intros Ho Hf. induction rs as [|r rs IH]; intros vs E; cbn [dlooks] in E; [injection E as <-; constructor|].
    destruct (dlook outer frame r) as [d|] eqn:Ed; [|discriminate]. destruct (dlooks outer frame rs) as [vs'|]; [|discriminate].
    injection E as <-. constructor; auto. unfold dlook in Ed. destruct (Nat.eqb _ _).
    - rewrite Forall_forall in Hf. apply Hf. eapply nth_error_In; eauto.
    - destruct (nth_error outer (fst r)) as [fr|] eqn:Er; [|discriminate]. apply nth_error_In in Er, Ed.
      rewrite Forall_forall in Ho. specialize (Ho _ Er). rewrite Forall_forall in Ho. auto.
  Qed.
  Lemma dleaves_val outer (frame : list dv) : Forall (Forall is_value) outer -> Forall is_value frame -> forall ls vs, forallb leaf_obj ls = true -> dleaves outer frame ls = Some vs -> Forall is_value vs.
  Proof.
    intros Ho Hf ls vs Hl E. assert (E' : dlooks outer frame (leaf_refs ls) = Some vs).
    { revert vs E. induction ls as [|[r|c] ls IH]; intros vs E; [exact E| |discriminate Hl].
      change (leaf_refs (LRef r :: ls)) with (r :: leaf_refs ls). cbn [dlooks dleaves] in *.
      destruct (dlook outer frame r); [|discriminate]. destruct (dleaves outer frame ls) as [vs'|]; [|discriminate].
      now rewrite (IH Hl vs' eq_refl). }
    eapply dlooks_val; eauto.
  Qed.
  Lemma iterate_inv {S : Type} (P : S -> Prop) n c (g : S -> option S) : (forall s s', P s -> g s = Some s' -> P s') -> forall s s', P s -> iterate n c g s = Some s' -> P s'.
  Proof.
    intros H. induction n as [|n IH]; intros s s' Ps E; cbn in E; [discriminate|].
    destruct (c s) as [[|]|]; [|injection E as <-; auto|discriminate]. destruct (g s) as [s1|] eqn:Eg; [|discriminate]. eauto.
  Qed.
  Lemma map_val vs : Forall is_value (map (@DV C V) vs).
  Proof. induction vs; cbn; constructor; auto. now exists a. Qed.
  Lemma run_val : forall fuel b outer (frame rs : list dv), no_const b = true -> Forall (Forall is_value) outer -> Forall is_value frame ->
    rb fuel outer frame b = Some rs -> Forall is_value rs.
  Proof.
    induction fuel as [|f IHf]; [discriminate|].
    induction b as [ls|p args n k IHk|pred args t IHt e IHe k IHk|init c IHc l IHl k IHk|args g IHg k IHk];
      intros outer frame rs Nc Ho Hf E; cbn [no_const] in Nc.
    - rewrite rb_ret in E. eapply dleaves_val; eauto.
    - rewrite rb_prim in E. destruct (dlooks outer frame args); [|discriminate]. cbv zeta in E. destruct (Nat.eqb _ n); [|discriminate].
      eapply IHk; [..|exact E]; auto. apply Forall_app. split; auto. apply map_val.
    - apply andb_prop in Nc as [Nc Nk]. apply andb_prop in Nc as [Nt Ne].
      rewrite rb_cond in E. destruct (dlook outer frame pred) as [[v|]|]; try discriminate. destruct (dlooks outer frame args) eqn:Ea; [|discriminate].
      destruct (rb f _ _ _) eqn:Er; [|discriminate]. eapply IHk; [..|exact E]; auto. apply Forall_app. split; auto.
      eapply IHf; [..|exact Er]; [now destruct (truth v)|apply Forall_app; split; auto|eapply dlooks_val; eauto].
    - apply andb_prop in Nc as [Nc Nk]. apply andb_prop in Nc as [Nt Ne].
      rewrite rb_while in E. destruct (dlooks outer frame init) eqn:Ea; [|discriminate].
      destruct (iterate _ _ _ _) eqn:Er; [|discriminate]. eapply IHk; [..|exact E]; auto. apply Forall_app. split; auto.
      eapply (iterate_inv (Forall is_value)); [|eapply dlooks_val; eauto|exact Er].
      intros s s' Ps Es. eapply IHf; [..|exact Es]; auto. apply Forall_app; split; auto.
    - apply andb_prop in Nc as [Ng Nk].
      rewrite rb_call in E. destruct (dlooks outer frame args) eqn:Ea; [|discriminate].
      destruct (rb f _ _ _) eqn:Er; [|discriminate]. eapply IHk; [..|exact E]; auto. apply Forall_app. split; auto.
      eapply IHf; [..|exact Er]; auto; [apply Forall_app; split; auto|eapply dlooks_val; eauto].
  Qed.

  Lemma swap_no_const : forall b : body C, no_const (swap_body b) = no_const b.
  Proof.
    induction b; cbn; try congruence.
    - induction outs as [|[r|c] outs IH]; cbn; auto.
  Qed.
  Lemma swap_nret : forall b : body C, nret (swap_body b) = nret b.
  Proof. induction b; cbn; auto. apply map_length. Qed.
  Lemma ret_all_no_const n : no_const (C := C) (ret_all n) = true.
  Proof. unfold ret_all. cbn. induction (seq 0 n); cbn; auto. Qed.
  Lemma ret_all_nret n : nret (C := C) (ret_all n) = n.
  Proof. unfold ret_all. cbn. now rewrite map_length, seq_length. Qed.

  (** traced branches return equally many objects *)
  Lemma cond_nret (w : list dv) pred args t e k tr : no_const t = true -> no_const e = true -> Forall is_value w ->
    trace_fn c_eqb false [map seen w] [] (BCond pred args t e k) = Some tr -> nret t = nret e.
  Proof.
    intros Nt Ne Dv E. assert (Ob := seen_obj w Dv).
    assert (Oo : forallb (forallb is_obj) [map seen w] = true) by (cbn [forallb]; now rewrite Ob).
    unfold trace_fn in E. cbn [trace_body] in E.
    destruct (lift _ (start []) pred) as [[s0 [pg|]]|] eqn:E0; try discriminate.
    destruct (lift_obj _ _ _ _ _ Oo (start_obj [] eq_refl) E0) as [_ F0].
    destruct (lift_all _ s0 args) as [[s1 ts]|] eqn:E1; [|discriminate].
    assert (A0 : forallb is_obj (t_frame s0) = true) by (rewrite F0; now apply (start_obj (C := C) [])).
    destruct (lift_all_obj _ Oo _ _ _ _ A0 E1) as [A1 F1].
    assert (O2 : forallb (forallb is_obj) ([map seen w] ++ [t_frame s1]) = true) by (apply outer_obj; auto; now rewrite F1).
    destruct (trace_body c_eqb false _ (start ts) t) as [[[st1 o1] r1]|] eqn:Et; [|discriminate].
    destruct (trace_body c_eqb false _ (start ts) e) as [[[st2 o2] r2]|] eqn:Ee; [|discriminate].
    destruct (negb _) eqn:En; [discriminate|]. apply negb_false_iff in En. apply Nat.eqb_eq in En. cbn [finish tf_graph g_outputs] in En.
    rewrite <- (trace_nret _ _ _ _ _ _ _ Et), <- (trace_nret _ _ _ _ _ _ _ Ee).
    destruct (objects_strict c_eqb t _ _ _ _ _ Nt O2 (start_obj ts A1) Et) as [_ B1].
    destruct (objects_strict c_eqb e _ _ _ _ _ Ne O2 (start_obj ts A1) Ee) as [_ B2].
    destruct (obj_morph _ B1) as [_ G1]. destruct (obj_morph _ B2) as [_ G2]. lia.
  Qed.
  Lemma lift_all_len outer : forall rs (s s' : tst C) ts, lift_all outer s rs = Some (s', ts) -> List.length ts = List.length rs.
  Proof.
    induction rs as [|r rs IH]; intros s s' ts E; cbn [lift_all] in E; [injection E as _ <-; reflexivity|].
    destruct (lift outer s r) as [[s1 t]|]; [|discriminate]. destruct (lift_all outer s1 rs) as [[s2 ts2]|] eqn:E2; [|discriminate].
    injection E as _ <-. cbn. f_equal. eauto.
  Qed.
  Lemma while_nret (w : list dv) init c l k tr : no_const l = true -> Forall is_value w ->
    trace_fn c_eqb false [map seen w] [] (BWhile init c l k) = Some tr -> nret l = List.length init.
  Proof.
    intros Nl Dv E. assert (Ob := seen_obj w Dv).
    assert (Oo : forallb (forallb is_obj) [map seen w] = true) by (cbn [forallb]; now rewrite Ob).
    unfold trace_fn in E. cbn [trace_body] in E.
    destruct (lift_all _ (start []) init) as [[s1 ts]|] eqn:E1; [|discriminate].
    destruct (lift_all_obj _ Oo _ _ _ _ (start_obj [] eq_refl) E1) as [A1 F1].
    assert (A0 : forallb is_obj (t_frame s1) = true) by (rewrite F1; now apply (start_obj (C := C) [])).
    assert (O2 : forallb (forallb is_obj) ([map seen w] ++ [t_frame s1]) = true) by (apply outer_obj; auto).
    destruct (_ || _); [discriminate|].
    destruct (trace_body c_eqb false _ (start ts) c) as [[[st1 o1] r1]|] eqn:Et; [|discriminate].
    destruct (trace_body c_eqb false _ (start ts) l) as [[[st2 o2] r2]|] eqn:Ee; [|discriminate].
    destruct (negb _); [discriminate|]. cbn [andb] in E. destruct (negb _); [discriminate|].
    destruct (negb _) eqn:En; [discriminate|]. apply negb_false_iff in En. apply Nat.eqb_eq in En. cbn [finish tf_graph g_outputs] in En.
    rewrite <- (trace_nret _ _ _ _ _ _ _ Ee).
    destruct (objects_strict c_eqb l _ _ _ _ _ Nl O2 (start_obj ts A1) Ee) as [_ B2].
    destruct (obj_morph _ B2) as [_ G2]. apply lift_all_len in E1. lia.
  Qed.

  Lemma bind_traces fuel (w : list dv) call rs : bind_eager c_eqb sem truth fuel w call = Some rs ->
    exists t, trace_fn c_eqb false [map seen w] [] call = Some t.
  Proof. unfold bind_eager. destruct (trace_fn _ _ _ _ _); [eauto|discriminate]. Qed.

  Theorem eager_sound f : forall b (w rs : list dv), no_const b = true -> Forall is_value w ->
    run_eager c_eqb sem truth (S f) w (swap_body b) = Some rs ->
    (all_return b = true -> rb (S f) [[]] w b = Some rs) /\ (forall rs', rb (S f) [[]] w b = Some rs' -> rs' = rs).
  Proof.
    (* a statement: [direct] is its direct result, k the continuation *)
    assert (Step : forall call direct (w rs : list dv) k,
      no_const call = true -> Forall is_value w ->
      rb (S f) [w] [] call = direct ->
      (forall w' rs', no_const k = true -> Forall is_value w' -> run_eager c_eqb sem truth (S f) w' (swap_body k) = Some rs' ->
         (all_return k = true -> rb (S f) [[]] w' k = Some rs') /\ (forall r, rb (S f) [[]] w' k = Some r -> r = rs')) ->
      no_const k = true ->
      match bind_eager c_eqb sem truth (S f) w call with Some r => run_eager c_eqb sem truth (S f) (w ++ r) (swap_body k) | None => None end = Some rs ->
      (nret call <> 0 -> all_return k = true -> match direct with Some r => rb (S f) [[]] (w ++ r) k | None => None end = Some rs) /\
      (forall rs', match direct with Some r => rb (S f) [[]] (w ++ r) k | None => None end = Some rs' -> rs' = rs)).
    { intros call direct w rs k Nc Dv Ed IHk Nk E. destruct (bind_eager c_eqb sem truth (S f) w call) as [r|] eqn:Eb; [|discriminate].
      destruct (bind_sound _ _ _ _ Nc Dv Eb) as [B1 B2].
      assert (Val : forall r', rb (S f) [w] [] call = Some r' -> Forall is_value (w ++ r')).
      { intros r' Er. apply Forall_app. split; auto. eapply run_val; [..|exact Er]; auto. }
      split.
      - intros Hn Ha. specialize (B1 Hn). rewrite <- Ed, B1. destruct (IHk (w ++ r) rs Nk (Val _ B1) E) as [H _]. auto.
      - intros rs' E'. destruct direct as [r'|]; [|discriminate]. specialize (B2 _ Ed). subst r'.
        destruct (IHk (w ++ r) rs Nk (Val _ Ed) E) as [_ H]. auto. }
    induction b as [ls|p args n k IHk|pred args t IHt e IHe k IHk|init c IHc l IHl k IHk|args g IHg k IHk];
      intros w rs Nc Dv E; cbn [swap_body run_eager no_const all_return] in *.
    - rewrite rb_ret. assert (X : dleaves [[]] w ls = dleaves [] w (map swap_leaf ls)).
      { clear. induction ls as [|[r|c] ls IH]; cbn [dleaves map swap_leaf]; auto; rewrite IH; auto.
        replace (dlook [] w (swap r)) with (dlook [[]] w r); auto.
        destruct r as [[|[|x]] i]; cbn; auto; now (destruct i || destruct x). }
      rewrite X, E. split; auto. congruence.
    - rewrite rb_prim, dlooks_top.
      assert (D : rb (S f) [w] [] (BPrim p (map swap args) n (ret_all n)) =
        match dlooks [w] [] (map swap args) with None => None | Some vs => if Nat.eqb (List.length (sem p (objs vs))) n then Some (map DV (sem p (objs vs))) else None end).
      { rewrite rb_prim. destruct (dlooks _ _ _); auto. cbv zeta. destruct (Nat.eqb_spec (List.length (sem p (objs l))) n) as [Hl|]; auto.
        cbn [app]. rewrite <- Hl. rewrite <- (map_length (@DV C V) (sem p (objs l))) at 1. apply ret_all_run. }
      specialize (Step (BPrim p (map swap args) n (ret_all n)) _ w rs k (ret_all_no_const n) Dv D IHk Nc E). cbn [nret] in Step. rewrite ret_all_nret in Step.
      destruct Step as [S1 S2]. split.
      + intros Ha. apply andb_prop in Ha as [Hn Ha]. apply negb_true_iff, Nat.eqb_neq in Hn. specialize (S1 Hn Ha).
        destruct (dlooks _ _ _); auto. cbv zeta. destruct (Nat.eqb _ n); auto.
      + intros rs' E'. apply S2. destruct (dlooks _ _ _); auto. cbv zeta in E'. destruct (Nat.eqb _ n); auto.
    - apply andb_prop in Nc as [Nc Nk]. apply andb_prop in Nc as [Nt Ne].
      rewrite rb_cond, dlook_top, dlooks_top. rewrite swap_nret in E.
      assert (Ex : exists tr, trace_fn c_eqb false [map seen w] [] (BCond (swap pred) (map swap args) (swap_body t) (swap_body e) (ret_all (nret t))) = Some tr).
      { destruct (bind_eager _ _ _ _ _ _) eqn:Eb in E; [|discriminate]. eapply bind_traces; eauto. }
      destruct Ex as [tr Etr]. assert (Nt' : no_const (swap_body t) = true) by now rewrite swap_no_const.
      assert (Ne' : no_const (swap_body e) = true) by now rewrite swap_no_const.
      assert (Lte := cond_nret w _ _ _ _ _ _ Nt' Ne' Dv Etr). rewrite !swap_nret in Lte.
      assert (D : rb (S f) [w] [] (BCond (swap pred) (map swap args) (swap_body t) (swap_body e) (ret_all (nret t))) =
        match dlook [w] [] (swap pred), dlooks [w] [] (map swap args) with
        | Some (DV c), Some vs => rb f ([[]] ++ [w]) vs (if truth c then t else e)
        | _, _ => None end).
      { rewrite rb_cond. destruct (dlook _ _ _) as [[v|]|]; auto. destruct (dlooks _ _ _) as [vs|]; auto. cbn [app].
        rewrite (run_swap f (if truth v then t else e) [] w [] vs).
        replace (if truth v then swap_body t else swap_body e) with (swap_body (if truth v then t else e)) by now destruct (truth v).
        destruct (rb f [w; []] vs (swap_body (if truth v then t else e))) as [r|] eqn:Er; auto.
        assert (Lr : List.length r = nret t). { apply run_nret in Er. rewrite swap_nret in Er. destruct (truth v); lia. }
        rewrite <- Lr. apply ret_all_run. }
      refine ((fun X => _) (fun N0 => Step _ _ w rs k N0 Dv D IHk Nk E)). clear Step. specialize (X ltac:(cbn [no_const]; now rewrite !swap_no_const, Nt, Ne, ret_all_no_const)). rename X into Step. cbn [nret] in Step. rewrite ret_all_nret in Step.
      destruct Step as [S1 S2]. split.
      + intros Ha. apply andb_prop in Ha as [Hn Ha]. apply negb_true_iff, Nat.eqb_neq in Hn. specialize (S1 Hn Ha).
        destruct (dlook _ _ _) as [[v|]|]; auto. destruct (dlooks _ _ _); auto.
      + intros rs' E'. apply S2. destruct (dlook _ _ _) as [[v|]|]; auto. destruct (dlooks _ _ _); auto.
    - apply andb_prop in Nc as [Nc Nk]. apply andb_prop in Nc as [Nt Ne].
      rewrite rb_while, dlooks_top. rewrite map_length in E.
      assert (Ex : exists tr, trace_fn c_eqb false [map seen w] [] (BWhile (map swap init) (swap_body c) (swap_body l) (ret_all (List.length init))) = Some tr).
      { destruct (bind_eager _ _ _ _ _ _) eqn:Eb in E; [|discriminate]. eapply bind_traces; eauto. }
      destruct Ex as [tr Etr]. assert (Ne' : no_const (swap_body l) = true) by now rewrite swap_no_const.
      assert (Ll := while_nret w _ _ _ _ _ Ne' Dv Etr). rewrite swap_nret, map_length in Ll.
      assert (Linit : List.length init <> 0).
      { unfold trace_fn in Etr. cbn [trace_body] in Etr. destruct (lift_all _ _ _) as [[? ?]|]; [|discriminate]. rewrite map_length in Etr.
        destruct (Nat.eqb_spec (List.length init) 0); [discriminate|assumption]. }
      assert (D : rb (S f) [w] [] (BWhile (map swap init) (swap_body c) (swap_body l) (ret_all (List.length init))) =
        match dlooks [w] [] (map swap init) with
        | Some vs => iterate f (fun st => match rb f ([[]] ++ [w]) st c with Some [d] => Some (dtruth truth ctruth d) | _ => None end) (fun st => rb f ([[]] ++ [w]) st l) vs
        | None => None end).
      { rewrite rb_while. destruct (dlooks _ _ _) as [vs|] eqn:Ev; auto. cbn [app].
        rewrite (iterate_ext f (fun st => match rb f [w; []] st (swap_body c) with Some [d] => Some (dtruth truth ctruth d) | _ => None end) (fun st => match rb f [[]; w] st c with Some [d] => Some (dtruth truth ctruth d) | _ => None end) _ (fun st => rb f [[]; w] st l)).
        - destruct (iterate _ _ _ _) as [r|] eqn:Er; auto.
          assert (Lr : List.length r = List.length init).
          { refine (iterate_inv (fun s => List.length s = List.length init) _ _ _ _ _ _ _ Er).
            - intros s s' _ Es. apply run_nret in Es. lia.
            - apply dlooks_len in Ev. now rewrite map_length in Ev. }
          rewrite <- Lr. apply ret_all_run.
        - intros st. now rewrite <- (run_swap f c [] w [] st).
        - intros st. now rewrite <- (run_swap f l [] w [] st). }
      refine ((fun X => _) (fun N0 => Step _ _ w rs k N0 Dv D IHk Nk E)). clear Step. specialize (X ltac:(cbn [no_const]; now rewrite !swap_no_const, Nt, Ne, ret_all_no_const)). rename X into Step. cbn [nret] in Step. rewrite ret_all_nret in Step.
      destruct Step as [S1 S2]. split.
      + intros Ha. specialize (S1 Linit Ha). destruct (dlooks _ _ _); auto.
      + intros rs' E'. apply S2. destruct (dlooks _ _ _); auto.
    - apply andb_prop in Nc as [Ng Nk]. rewrite rb_call, dlooks_top. rewrite swap_nret in E.
      assert (D : rb (S f) [w] [] (BCall (map swap args) (swap_body g) (ret_all (nret g))) =
        match dlooks [w] [] (map swap args) with Some vs => rb f ([[]] ++ [w]) vs g | None => None end).
      { rewrite rb_call. destruct (dlooks _ _ _) as [vs|]; auto. cbn [app]. rewrite (run_swap f g [] w [] vs).
        destruct (rb f _ _ _) as [r|] eqn:Er; auto.
        assert (Lr : List.length r = nret g). { apply run_nret in Er. now rewrite swap_nret in Er. }
        rewrite <- Lr. apply ret_all_run. }
      refine ((fun X => _) (fun N0 => Step _ _ w rs k N0 Dv D IHk Nk E)). clear Step. specialize (X ltac:(cbn [no_const]; now rewrite !swap_no_const, Ng, ret_all_no_const)). rename X into Step. cbn [nret] in Step. rewrite ret_all_nret in Step.
      destruct Step as [S1 S2]. split.
      + intros Ha. apply andb_prop in Ha as [Hn Ha]. apply negb_true_iff, Nat.eqb_neq in Hn. specialize (S1 Hn Ha). destruct (dlooks _ _ _); auto.
      + intros rs' E'. apply S2. destruct (dlooks _ _ _); auto.
  Qed.
End Eager.

(** ** the values of an evaluation *)
Section Values.
Context {V : Type} (sem : nat -> nat -> list V -> option (list V)) (run : nat).
Lemma lset_other : forall l vs (e e' : lenv V) x, lset e l vs = Some e' -> ~ In x l -> e' x = e x.
Proof.
  induction l as [|y l IH]; intros [|v vs] e e' x H N; cbn in H; try discriminate; [now injection H as <-|].
  rewrite (IH _ _ _ _ H) by (intro; apply N; right; auto). destruct (Nat.eqb_spec x y); [|reflexivity]. exfalso. apply N. left. auto.
Qed.
Lemma lset_new : forall l vs (e e' : lenv V), lset e l vs = Some e' -> NoDup l -> Forall2 (fun x v => e' x = Some v) l vs.
Proof.
  induction l as [|y l IH]; intros [|v vs] e e' H N; cbn in H; try discriminate; constructor; inversion N; subst.
  - rewrite (lset_other _ _ _ _ y H) by auto. now rewrite Nat.eqb_refl.
  - eapply IH; eauto.
Qed.
Lemma lget_get : forall l (e : lenv V) vs, lget e l = Some vs -> Forall2 (fun x v => e x = Some v) l vs.
Proof.
  induction l as [|y l IH]; intros e vs H; cbn in H; [injection H as <-; constructor|].
  destruct (e y) as [v|] eqn:E; [|discriminate]. destruct (lget e l) as [vs'|] eqn:E2; [|discriminate]. injection H as <-. constructor; auto.
Qed.
Lemma leval_keeps : forall ops k e env x, leval sem run k e ops = Some env -> ~ In x (flat_map l_outs ops) -> env x = e x.
Proof.
  induction ops as [|o ops IH]; intros k e env x H N; cbn in H; [now injection H as <-|].
  destruct (lget e (l_ins o)) as [vs|]; [|discriminate]. destruct (sem run k vs) as [rs|]; [|discriminate]. destruct (lset e (l_outs o) rs) as [e'|] eqn:E; [|discriminate].
  cbn in N. rewrite (IH _ _ _ _ H) by (intro; apply N, in_or_app; auto). eapply lset_other; eauto. intro; apply N, in_or_app; auto.
Qed.
Lemma same_on (e env : lenv V) : forall l vs, (forall x, In x l -> env x = e x) -> Forall2 (fun x v => e x = Some v) l vs -> Forall2 (fun x v => env x = Some v) l vs.
Proof. intros l vs H F. induction F; constructor; [rewrite H by (left; auto); auto|apply IHF; intros; apply H; right; auto]. Qed.
Lemma leval_values : forall ops k e env, leval sem run k e ops = Some env -> NoDup (flat_map l_outs ops) -> (forall x, In x (flat_map l_outs ops) -> e x = None) ->
  forall i o, nth_error ops i = Some o -> exists vs rs, Forall2 (fun x v => env x = Some v) (l_ins o) vs /\ sem run (k + i) vs = Some rs /\ Forall2 (fun x v => env x = Some v) (l_outs o) rs.
Proof.
  induction ops as [|o ops IH]; intros k e env H N U i q Hq; [destruct i; discriminate|]. cbn in H.
  destruct (lget e (l_ins o)) as [vs|] eqn:G; [|discriminate]. destruct (sem run k vs) as [rs|] eqn:S1; [|discriminate]. destruct (lset e (l_outs o) rs) as [e'|] eqn:E; [|discriminate].
  cbn in N, U. 
  assert (N2 : NoDup (flat_map l_outs ops)) by (clear -N; induction (l_outs o); [exact N|inversion N; auto]).
  assert (N1 : NoDup (l_outs o)) by (clear -N; induction (l_outs o); constructor; inversion N; subst; [intro; apply H1, in_or_app; auto|auto]).
  assert (D : forall x, In x (l_outs o) -> ~ In x (flat_map l_outs ops)).
  { clear -N. induction (l_outs o) as [|y l IH]; intros x []; inversion N; subst; [intro; apply H2; apply in_or_app; auto|apply IH; auto]. }
  assert (U' : forall x, In x (flat_map l_outs ops) -> e' x = None).
  { intros x Hx. rewrite (lset_other _ _ _ _ x E) by (intro C; exact (D x C Hx)). apply U, in_or_app; auto. }
  destruct i as [|i].
  - injection Hq as <-. exists vs, rs. rewrite Nat.add_0_r. split; [|split; [exact S1|]].
    + pose proof (lget_get _ _ _ G) as F. apply same_on with (e := e); [|exact F]. intros x Hx.
      assert (Ex : e x <> None) by (clear -F Hx; induction F; [destruct Hx|destruct Hx as [<-|Hx]; [congruence|auto]]).
      rewrite (leval_keeps _ _ _ _ x H) by (intro C; apply Ex, U, in_or_app; auto).
      apply (lset_other _ _ _ _ x E). intro C. apply Ex, U, in_or_app; auto.
    + apply same_on with (e := e'); [|eapply lset_new; eauto]. intros x Hx. apply (leval_keeps _ _ _ _ x H). now apply D.
  - replace (k + S i) with (S k + i) by lia. eapply IH; eauto.
Qed.
End Values.
