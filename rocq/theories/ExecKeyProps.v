(** C53: the execution key of a graph.  [alpha] (ExecKeySpec.v) is equality up to the names of
    values and operations; [fingerprint] is the canonical encoding that is hashed. *)
From Coq Require Import List ZArith String Ascii Bool Lia Permutation.
From Verif Require Import CtxModel SerdeModel SerdeSpec ExecKeyModel ExecKeySpec ExecKeyProofs.
Import ListNotations.
Local Open Scope string_scope.
Local Open Scope list_scope.

(** a graph with a region, and the same graph with other names and another attribute order *)
Definition tensor : ty := TTensor (TFloat 32) [2; 3]%Z.
Definition region (a b : string) : pv := PGraph [(a, tensor)] [GOp "neg" [a] [(b, tensor)] [] [] ""] [b].
Definition key_g : pv :=
  PGraph [("%a", tensor); ("%b", tensor)]
    [GOp "add" ["%a"; "%b"] [("%0", tensor)] [] [] "op0";
     GOp "pcall" ["%0"] [("%1", TMP tensor (Some [0; 1]%Z)); ("%2", TInt 64 true)] [("parties", PList [PInt 0; PInt 1]); ("note", PNone)] [region "%x" "%0"] "op1"]
    ["%2"; "%1"].
Definition key_h : pv :=
  PGraph [("x", tensor); ("y", tensor)]
    [GOp "add" ["x"; "y"] [("z", tensor)] [] [] "first";
     GOp "pcall" ["z"] [("u", TMP tensor (Some [0; 1]%Z)); ("v", TInt 64 true)] [("note", PNone); ("parties", PList [PInt 0; PInt 1])] [region "p" "q"] "second"]
    ["v"; "u"].
Definition key_ren (s : string) : string :=
  if String.eqb s "%a" then "x" else if String.eqb s "%b" then "y" else if String.eqb s "%0" then "z" else if String.eqb s "%1" then "u" else if String.eqb s "%2" then "v" else s.
Definition key_ren2 (s : string) : string := if String.eqb s "%x" then "p" else if String.eqb s "%0" then "q" else s.
Lemma key_inj_list (f : string -> string) l : NoDup (map f l) -> forall x y, In x l -> In y l -> f x = f y -> x = y.
Proof.
  induction l as [|a l IH]; intros ND x y Hx Hy E; [destruct Hx|]. cbn in ND. inversion ND as [|? ? N1 N2]; subst.
  destruct Hx as [->|Hx], Hy as [->|Hy]; auto; exfalso; apply N1; apply in_map_iff; eauto.
Qed.
Ltac nodup := repeat constructor; cbn; intros HH; repeat destruct HH as [HH|HH]; try discriminate HH; contradiction.
Example C53_alpha_ex : alpha key_g key_h.
Proof.
  apply (Alpha key_ren); try reflexivity.
  - intros x y Hx Hy. apply (key_inj_list key_ren ["%a"; "%b"; "%0"; "%1"; "%2"]); [vm_compute; nodup| |]; cbn in Hx, Hy |- *; tauto.
  - apply Forall2_cons; [|apply Forall2_cons; [|apply Forall2_nil]].
    + repeat (split; [reflexivity|]). split; [constructor|constructor].
    + repeat (split; [reflexivity|]). split; [apply perm_swap|]. split; [nodup|]. apply Forall2_cons; [|apply Forall2_nil].
      apply (Alpha key_ren2); try reflexivity.
      * intros x y Hx Hy. apply (key_inj_list key_ren2 ["%x"; "%0"]); [vm_compute; nodup| |]; cbn in Hx, Hy |- *; tauto.
      * apply Forall2_cons; [|apply Forall2_nil]. repeat (split; [reflexivity|]). split; constructor.
Qed.
Example C53_good_ex : good key_g /\ good key_h.
Proof. split; cbn; (split; [nodup|]; split; [intros x Hx; cbn in Hx |- *; tauto|]; repeat split; auto; nodup || (intros x Hx; cbn in Hx |- *; tauto)). Qed.

(** Graphs that differ only in names have the same key, whatever the hash functions are. *)
Theorem C53_name_independent : forall (sha : string -> string) (dump : json -> string) (ptrs : list pv -> string) (hash : json -> string) (g h : pv),
  alpha g h -> exec_key sha dump ptrs hash g = exec_key sha dump ptrs hash h.
Proof. intros sha dump ptrs hash g h H. unfold exec_key. f_equal. apply fingerprint_alpha, H. Qed.
Print Assumptions C53_name_independent.
(** The order in which the items of a dict attribute were inserted does not matter either
    ([dump]: distinct strings have distinct JSON texts). *)
Lemma all_some_perm {A : Type} : forall l l' : list (option A), Permutation l l' ->
  (all_some l = None /\ all_some l' = None) \/ exists a b, all_some l = Some a /\ all_some l' = Some b /\ Permutation a b.
Proof.
  induction 1 as [|x l l' P IH|x y l|l l1 l2 P1 IH1 P2 IH2].
  - right. exists [], []. auto.
  - cbn. destruct x as [x|]; [|auto]. destruct IH as [[-> ->]|(a & b & -> & -> & H)]; [left; auto|]. right. exists (x :: a), (x :: b). cbn. auto.
  - cbn. destruct x as [x|], y as [y|]; cbn; auto; try (destruct (all_some l); auto; fail). destruct (all_some l) as [a|]; cbn; [right; exists (y :: x :: a), (x :: y :: a); repeat split; constructor|auto].
  - destruct IH1 as [[Ha Hb]|(a & b & Ha & Hb & H)], IH2 as [[Hc Hd]|(a' & b' & Hc & Hd & H')]; try congruence; [left; auto|].
    right. exists a, b'. split; [auto|split; [auto|]]. rewrite Hb in Hc. injection Hc as ->. now transitivity a'.
Qed.
Lemma op_fp_attrs (sha : string -> string) (dump : json -> string) (ptrs : list pv -> string) (o o' : gop pv) (is : list nat) (rs : list json) :
  g_opcode o = g_opcode o' -> g_outs o = g_outs o' ->
  map (fun p => (fst p, stable sha dump ptrs (snd p))) (g_attrs o) = map (fun p => (fst p, stable sha dump ptrs (snd p))) (g_attrs o') ->
  op_fp sha dump ptrs o is rs = op_fp sha dump ptrs o' is rs.
Proof.
  intros E1 E2 E3. unfold op_fp. rewrite E1, E2.
  assert (K : forall l : list (string * pv), map (fun p => JStr (fst p)) (MorphModel.sort_keys l) = map (fun p => JStr (fst p)) (MorphModel.sort_keys (map (fun p => (fst p, stable sha dump ptrs (snd p))) l)))
    by (intros l; rewrite MorphProofs.sort_map, map_map; reflexivity).
  assert (S1 : forall l : list (string * pv), flat_map (fun p => match stable sha dump ptrs (snd p) with Some v => [JArr [JStr (fst p); v]] | None => [] end) (MorphModel.sort_keys l)
     = flat_map (fun p : string * option json => match snd p with Some v => [JArr [JStr (fst p); v]] | None => [] end) (MorphModel.sort_keys (map (fun p => (fst p, stable sha dump ptrs (snd p))) l)))
    by (intros l; rewrite MorphProofs.sort_map, (flat_map_concat_map _ (map _ _)), map_map, <- flat_map_concat_map; reflexivity).
  rewrite !K, !S1, E3. reflexivity.
Qed.
Lemma all_some_in {A : Type} : forall (l : list (option A)) a, all_some l = Some a -> l = map Some a.
Proof.
  induction l as [|[x|] l IH]; intros a H; cbn in H; try discriminate; [injection H as <-; reflexivity|]. destruct (all_some l) as [b|]; [|discriminate]. injection H as <-. cbn. f_equal. now apply IH.
Qed.
Theorem C53_dict_order : forall (sha : string -> string) (dump : json -> string) (ptrs : list pv -> string) (hash : json -> string) (items items' : list (string * pv)),
  (forall a b, dump (JStr a) = dump (JStr b) -> a = b) -> NoDup (map fst items) -> Permutation items items' ->
  forall gins ops1 opcode ins outs attrs1 name attrs2 regions opname ops2 gouts,
  let g its := PGraph gins (ops1 ++ GOp opcode ins outs (attrs1 ++ (name, PDict (map (fun p => (PStr (fst p), snd p)) its)) :: attrs2) regions opname :: ops2) gouts in
  exec_key sha dump ptrs hash (g items) = exec_key sha dump ptrs hash (g items').
Proof.
  intros sha dump ptrs hash items items' DI ND P gins ops1 opcode ins outs attrs1 name attrs2 regions opname ops2 gouts g.
  set (dict its := PDict (map (fun p => (PStr (fst p), snd p)) its)) in *.
  assert (E : stable sha dump ptrs (dict items) = stable sha dump ptrs (dict items')).
  { unfold dict. cbn [stable]. rewrite !map_map. cbn [fst snd].
    set (F := fun x : string * pv => match stable sha dump ptrs (PStr (fst x)), stable sha dump ptrs (snd x) with Some k, Some v => Some (k, v) | _, _ => None end).
    change (option_map (fun kvs => JObj [("_kind", JStr "dict"); ("items", JArr (map snd (MorphModel.sort_keys (map (fun kv => (dump (fst kv), JArr [fst kv; snd kv])) kvs))))]) (all_some (map F items))
          = option_map (fun kvs => JObj [("_kind", JStr "dict"); ("items", JArr (map snd (MorphModel.sort_keys (map (fun kv => (dump (fst kv), JArr [fst kv; snd kv])) kvs))))]) (all_some (map F items'))).
    destruct (all_some_perm _ _ (Permutation_map F P)) as [[-> ->]|(a & b & Ea & Eb & Pab)]; [reflexivity|]. rewrite Ea, Eb. cbn [option_map].
    rewrite (SortKeys.sort_unique (map (fun kv => (dump (fst kv), JArr [fst kv; snd kv])) a) (map (fun kv => (dump (fst kv), JArr [fst kv; snd kv])) b)); [reflexivity| |apply Permutation_map, Pab].
    rewrite map_map. cbn [fst]. apply all_some_in in Ea. clear -DI ND Ea. revert a Ea. induction items as [|[k v] items IH]; intros [|x a] Ea; try discriminate Ea; [constructor|].
    cbn in Ea. injection Ea as E1 E2. inversion ND as [|? ? N1 N2]; subst. cbn. constructor; [|now apply IH]. unfold F in E1. cbn in E1. destruct (stable sha dump ptrs v); [|discriminate]. injection E1 as <-. cbn [fst].
    rewrite in_map_iff. intros ((k' & v') & Ed & Hin). assert (exists q : string * pv, In (fst q) (map fst items) /\ k' = JStr (fst q)) as (q & Hq & Ek).
    { clear -E2 Hin. revert a E2 Hin. induction items as [|[k1 v1] items IH]; intros [|y a] E2 Hin; try discriminate E2; [destruct Hin|]. cbn in E2. injection E2 as E3 E4. destruct Hin as [->|Hin].
      - unfold F in E3. cbn in E3. destruct (stable sha dump ptrs v1); [|discriminate]. injection E3 as <- _. exists (k1, v1). cbn. auto.
      - destruct (IH _ E4 Hin) as (q & A & B). exists q. cbn. auto. }
    subst k'. cbn in Ed. apply DI in Ed. congruence. }
  unfold exec_key. f_equal. unfold g. unfold dict in E. clear g dict.
  revert E. generalize (PDict (map (fun p => (PStr (fst p), snd p)) items)) (PDict (map (fun p => (PStr (fst p), snd p)) items')). intros d d' E. cbn [fingerprint].
  assert (GE : forall its : pv, graph_env gins (ops1 ++ GOp opcode ins outs (attrs1 ++ (name, its) :: attrs2) regions opname :: ops2) = graph_env gins (ops1 ++ GOp opcode ins outs [] regions opname :: ops2))
    by (intros its; unfold graph_env; now rewrite !flat_map_app).
  assert (GI : forall its : pv, map g_ins (ops1 ++ GOp opcode ins outs (attrs1 ++ (name, its) :: attrs2) regions opname :: ops2) = map g_ins (ops1 ++ GOp opcode ins outs [] regions opname :: ops2))
    by (intros its; now rewrite !map_app).
  rewrite !GE, !GI. destruct (index_lists _ _) as [env is]. 
  rewrite !map_app. cbn [map g_regions].
  assert (Z : forall l1 is, zip3 (op_fp sha dump ptrs) (ops1 ++ GOp opcode ins outs (attrs1 ++ (name, d) :: attrs2) regions opname :: ops2) is l1
             = zip3 (op_fp sha dump ptrs) (ops1 ++ GOp opcode ins outs (attrs1 ++ (name, d') :: attrs2) regions opname :: ops2) is l1).
  { clear -E. induction ops1 as [|o ops1 IH]; intros [|r rs] [|i is]; cbn [app zip3]; try reflexivity; [|f_equal; apply IH].
    f_equal. apply op_fp_attrs; try reflexivity. cbn [g_attrs]. rewrite !map_app. cbn [map fst snd]. now rewrite E. }
  now rewrite Z.
Qed.
Print Assumptions C53_dict_order.
Example C53_dict_ex : NoDup (map fst [("b", PInt 1); ("a", PInt 2)]) /\ Permutation [("b", PInt 1); ("a", PInt 2)] [("a", PInt 2); ("b", PInt 1)] /\
  stable (fun s => s) (fun j => match j with JStr s => s | _ => "" end) (fun _ => "") (PDict [(PStr "b", PInt 1); (PStr "a", PInt 2)])
    = Some (JObj [("_kind", JStr "dict"); ("items", JArr [JArr [JStr "a"; JInt 2]; JArr [JStr "b"; JInt 1]])]).
Proof. split; [nodup|]. split; [apply perm_swap|reflexivity]. Qed.
(** Graphs with identifiable types and exactly encodable attributes have the same encoding only if
    they are the same up to names; sha (used for bytes and arrays) is taken to be collision free.
    Missing from the claim: graphs with other types or attributes, see the refutations. *)
Theorem C125_separates_partial : forall (sha : string -> string) (dump : json -> string) (ptrs : list pv -> string) (g h : pv),
  (forall a b, sha a = sha b -> a = b) -> good g -> good h -> (fingerprint sha dump ptrs g = fingerprint sha dump ptrs h <-> alpha g h).
Proof. intros sha dump ptrs g h Hs G H. split; [apply fingerprint_inj; assumption|apply fingerprint_alpha]. Qed.
Print Assumptions C125_separates_partial.
Example C53_separates_ex : (forall a b : string, (fun s : string => s) a = (fun s => s) b -> a = b) /\ good key_g /\ fingerprint (fun s => s) (fun _ => "") (fun _ => "") key_g <> fingerprint (fun s => s) (fun _ => "") (fun _ => "") (region "a" "b").
Proof. split; [auto|]. split; [apply C53_good_ex|]. vm_compute. discriminate. Qed.
(** the printed form of a type identifies it *)
Theorem C125_types_separate_partial : forall t u : ty, clear t -> clear u -> ty_str t = ty_str u -> t = u.
Proof. exact TyStrProofs.ty_str_clear. Qed.
Print Assumptions C125_types_separate_partial.
Example C53_types_separate_ex : clear (TMP (TTable [("a b", TInt 64 true); ("c", TVector (TFloat 32) 4)] 3) (Some [0%Z])) /\ ty_str (TMP (TTable [("a b", TInt 64 true); ("c", TVector (TFloat 32) 4)] 3) (Some [0%Z])) = "MP[Table[{'a b': i64, 'c': Vector[f32, 4]}, nrows=3], parties=(0,)]".
Proof. split; [cbn; auto|vm_compute; reflexivity]. Qed.

(** Secret-shared types that differ in their encryption schema are not told apart. *)
Theorem C125_ss_schema_refuted : forall (sha : string -> string) (dump : json -> string) (ptrs : list pv -> string) (hash : json -> string),
  let g (schema : string) := PGraph [("x", TSS tensor schema)] [] ["x"] in
  exec_key sha dump ptrs hash (g "ABY3") = exec_key sha dump ptrs hash (g "SEMI2K") /\ ~ alpha (g "ABY3") (g "SEMI2K").
Proof. intros sha dump ptrs hash g. split; [reflexivity|]. intros H. inversion H as [r ? ? ? ? ? ? ? E]. cbn in E. discriminate E. Qed.
Print Assumptions C125_ss_schema_refuted.
(** An attribute that is (or contains) something else than plain data is left out, even next to
    plain data: a list with a None in it, or a type. *)
Theorem C125_attributes_refuted : forall (sha : string -> string) (dump : json -> string) (ptrs : list pv -> string) (hash : json -> string),
  let g (v : pv) := PGraph [] [GOp "f" [] [("%0", tensor)] [("spec", v)] [] "op0"] ["%0"] in
  (exec_key sha dump ptrs hash (g (PList [PInt 1; PNone])) = exec_key sha dump ptrs hash (g (PList [PInt 2; PNone])) /\ ~ alpha (g (PList [PInt 1; PNone])) (g (PList [PInt 2; PNone])))
  /\ (exec_key sha dump ptrs hash (g (PType (TInt 64 true))) = exec_key sha dump ptrs hash (g (PType (TFloat 64))) /\ ~ alpha (g (PType (TInt 64 true))) (g (PType (TFloat 64))))
  /\ (exec_key sha dump ptrs hash (g (PList [PInt 1])) = exec_key sha dump ptrs hash (g (PTuple [PInt 1])) /\ ~ alpha (g (PList [PInt 1])) (g (PTuple [PInt 1]))).
Proof.
  intros sha dump ptrs hash g. assert (forall v w, alpha (g v) (g w) -> v = w) as A.
  { intros v w H. inversion H as [r ? ? ? ? ? ? ? ? F]. subst. inversion F as [|? ? ? ? Ho _]; subst. destruct Ho as (_ & _ & _ & P & _). cbn in P. apply Permutation_length_1 in P. congruence. }
  split; [|split]; (split; [reflexivity|]; intros H; apply A in H; discriminate H).
Qed.
Print Assumptions C125_attributes_refuted.
(** The key is cached on the graph object: a graph whose outputs are changed after its first
    execution (as the interpreter does when it lifts a traced value) keeps its old key. *)
Theorem C125_cached_key_refuted : forall (sha : string -> string) (dump : json -> string) (ptrs : list pv -> string) (hash : json -> string),
  exists (g : gobj) (outs : list string), o_key g = None /\
    let '(k1, g1) := key_of sha dump ptrs hash g in
    let '(k2, _) := key_of sha dump ptrs hash (set_outputs g1 outs) in
    k1 = k2 /\ fingerprint sha dump ptrs (o_graph (set_outputs g1 outs)) <> fingerprint sha dump ptrs (o_graph g).
Proof.
  intros. exists (GObj (PGraph [("x", tensor); ("y", tensor)] [] ["x"]) None), ["y"]. split; [reflexivity|]. cbn. split; [reflexivity|]. discriminate.
Qed.
Print Assumptions C125_cached_key_refuted.
