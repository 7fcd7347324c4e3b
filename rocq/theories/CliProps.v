(** C105: the driver finds the workers.  C106: the SPU addresses of the workers. *)
From Coq Require Import String Ascii.
From Coq Require Import List Arith Bool Lia DecimalString DecimalNat.
From Verif Require Import CliModel CliSpec.
Import ListNotations.
Local Open Scope string_scope.

(** ** Texts *)
Lemma dec_string : forall n, dec n = NilEmpty.string_of_uint (Nat.to_uint n).
Proof.
  intros n. unfold dec, NilZero.string_of_uint. destruct (Nat.to_uint n) eqn:E; try reflexivity.
  exfalso. pose proof (Unsigned.of_to n) as H. rewrite E in H. simpl in H. subst n. discriminate E.
Qed.
Lemma dec_not_nil : forall n, dec n <> "".
Proof.
  intros n H. unfold dec, NilZero.string_of_uint in H. destruct (Nat.to_uint n); simpl in H; discriminate.
Qed.
Lemma undec_dec : forall n, undec (dec n) = Some n.
Proof.
  intros n. pose proof (dec_not_nil n) as H. unfold undec. destruct (dec n) eqn:E; [congruence|].
  rewrite <- E, dec_string, NilEmpty.usu. simpl. rewrite Unsigned.of_to. reflexivity.
Qed.
Lemma dec_inj : forall a b, dec a = dec b -> a = b.
Proof. intros a b H. apply (f_equal undec) in H. rewrite !undec_dec in H. congruence. Qed.

Lemma split_none : forall c s, has c s = false -> split c s = [s].
Proof.
  induction s as [|a s IH]; simpl; intros H; [reflexivity|].
  apply orb_false_iff in H. destruct H as [H1 H2]. rewrite H1, (IH H2). reflexivity.
Qed.
Lemma uint_no_colon : forall d, has ":" (NilEmpty.string_of_uint d) = false.
Proof. induction d; simpl; auto. Qed.
Lemma dec_no_colon : forall n, has ":" (dec n) = false.
Proof. intros n. rewrite dec_string. apply uint_no_colon. Qed.
Lemma split_app : forall c s t, has c s = false -> split c (s ++ String c t) = s :: split c t.
Proof.
  induction s as [|a s IH]; simpl; intros t H.
  - rewrite Ascii.eqb_refl. reflexivity.
  - apply orb_false_iff in H. destruct H as [H1 H2]. rewrite H1, (IH t H2). reflexivity.
Qed.

Lemma mapM_nth : forall A B (f : A -> option B) l ys, mapM f l = Some ys ->
  List.length ys = List.length l /\
  forall i x, nth_error l i = Some x -> exists y, nth_error ys i = Some y /\ f x = Some y.
Proof.
  induction l as [|a l IH]; simpl; intros ys H.
  - injection H as <-. split; [reflexivity|]. intros [|i] x; discriminate.
  - destruct (f a) eqn:E; [|discriminate]. destruct (mapM f l) as [ys'|] eqn:E2; [|discriminate].
    injection H as <-. destruct (IH ys' eq_refl) as [IH1 IH2]. split; [simpl; congruence|].
    intros [|i] x Hx; simpl in *; [injection Hx as <-; eauto | auto].
Qed.

Lemma default_port : forall p, port_of ("http://127.0.0.1:" ++ dec p) = Some p.
Proof.
  intros p. unfold port_of.
  change ("http://127.0.0.1:" ++ dec p) with ("http" ++ String ":" ("//127.0.0.1" ++ String ":" (dec p))).
  rewrite split_app by reflexivity. rewrite split_app by reflexivity.
  rewrite split_none by apply dec_no_colon. simpl. apply undec_dec.
Qed.

(** the invariant of a successful [build_endpoints] *)
Lemma build_ports : forall a r, build_endpoints a = Some r ->
  world r = List.length (endpoints r) /\ List.length (ports r) = List.length (endpoints r) /\
  forall i u, nth_error (endpoints r) i = Some u -> exists p, nth_error (ports r) i = Some p /\ port_of u = Some p.
Proof.
  intros a r H. unfold build_endpoints in H.
  assert (B : forall r0, (match a_config a with Some c => from_config c (a_spu_base_port a) | None => Some (from_defaults a) end) = Some r0 ->
    world r0 = List.length (endpoints r0) /\ List.length (ports r0) = List.length (endpoints r0) /\
    forall i u, nth_error (endpoints r0) i = Some u -> exists p, nth_error (ports r0) i = Some p /\ port_of u = Some p).
  { intros r0 H0. destruct (a_config a) as [c|].
    - unfold from_config in H0. destruct (nodes c) as [|n ns] eqn:En; [discriminate|].
      destruct (mapM port_of (map (fun n0 => normalize_endpoint (snd n0)) (n :: ns))) as [ps|] eqn:Ep; [|discriminate].
      injection H0 as <-. cbn [world endpoints ports]. destruct (mapM_nth _ _ _ _ _ Ep) as [L N].
      split; [simpl; rewrite ?map_length; reflexivity|]. split; [exact L | exact N].
    - injection H0 as <-. unfold from_defaults; cbn [world endpoints ports].
      rewrite !map_length, seq_length. split; [reflexivity|]. split; [reflexivity|].
      intros i u Hu. rewrite nth_error_map in Hu.
      destruct (nth_error (map (fun i0 => _) (seq 0 (a_world_size a))) i) as [p|] eqn:E; [|discriminate].
      injection Hu as <-. exists p. split; [reflexivity | apply default_port]. }
  destruct (match a_config a with Some c => from_config c (a_spu_base_port a) | None => Some (from_defaults a) end) as [r0|]; [|discriminate].
  destruct (given (a_endpoints a)) as [t|].
  - destruct (mapM port_of (map (fun ep => normalize_endpoint (strip ep)) (split "," t))) as [ps|] eqn:Ep; [|discriminate].
    injection H as <-. cbn [world endpoints ports]. destruct (mapM_nth _ _ _ _ _ Ep) as [L N]. auto.
  - injection H as <-. apply B; reflexivity.
Qed.

(** ** C105 *)
Lemma normalize_driver : forall ep, clear_scheme ep -> driver_url ep = normalize_endpoint ep.
Proof.
  intros ep H. unfold clear_scheme, driver_url, normalize_endpoint in *.
  destruct (String.prefix "http" ep) eqn:E.
  - destruct (H eq_refl) as [-> | ->]; [reflexivity | rewrite orb_true_r; reflexivity].
  - assert (N : forall t, String.prefix "http" (t ++ "") = true -> True) by auto.
    assert (P : forall s, String.prefix ("http" ++ s) ep = false).
    { intros s. clear - E.
      destruct ep as [|c0 [|c1 [|c2 [|c3 e]]]]; cbn [String.append String.prefix] in *; try reflexivity;
        repeat match goal with |- context[ascii_dec ?x ?y] => destruct (ascii_dec x y); try reflexivity end.
      destruct e; cbn in E; discriminate E. }
    pose proof (P "://") as P1. pose proof (P "s://") as P2. simpl (_ ++ _) in P1, P2. rewrite P1, P2. reflexivity.
Qed.
Lemma prefix_self : forall s t, String.prefix s (s ++ t) = true.
Proof. induction s; intros; simpl; [destruct t; reflexivity|]. destruct (ascii_dec a a); [apply IHs | congruence]. Qed.
Lemma driver_normalized : forall ep, clear_scheme ep -> driver_url (normalize_endpoint ep) = normalize_endpoint ep.
Proof.
  intros ep H. unfold normalize_endpoint, driver_url. destruct (String.prefix "http" ep) eqn:E.
  - destruct (H E) as [-> | ->]; [reflexivity | rewrite orb_true_r; reflexivity].
  - rewrite (prefix_self "http://" ep). reflexivity.
Qed.

(** For the same command line, the URLs [run] uses are the URLs the workers use for each
    other, one per worker, and worker i listens on the port in URL i; unless --endpoints is
    combined with a configuration file, or a host name starts with http. *)
Theorem C105_meet : forall a r urls,
  build_endpoints a = Some r -> run_urls a = Some urls ->
  a_config a = None \/ given (a_endpoints a) = None ->
  (forall ep, In ep (written a) -> clear_scheme ep) ->
  List.length urls = world r /\
  forall i, i < world r -> exists u p,
    nth_error urls i = Some u /\ port_of u = Some p /\ worker a i = Some (p, urls, spu_endpoints r).
Proof.
  intros a r urls Hb Hu Hc Hw.
  assert (E : urls = endpoints r).
  { unfold run_urls in Hu. destruct (a_config a) as [c|] eqn:Ec.
    - destruct Hc as [Hc|Hg]; [discriminate|].
      destruct (distinct (map fst (nodes c))); [|discriminate]. injection Hu as <-.
      unfold build_endpoints in Hb. rewrite Ec, Hg in Hb. unfold from_config in Hb.
      destruct (nodes c) as [|n ns] eqn:En; [discriminate|].
      destruct (mapM port_of (map (fun n0 => normalize_endpoint (snd n0)) (n :: ns))); [|discriminate].
      injection Hb as <-. unfold endpoints. 
      change (map (fun n0 => driver_url (snd n0)) (n :: ns) = map (fun n0 => normalize_endpoint (snd n0)) (n :: ns)).
      apply map_ext_in. intros x Hx. apply normalize_driver. apply Hw.
      unfold written. rewrite Hg, Ec, En. apply in_map; assumption.
    - rewrite Hb in Hu. injection Hu as <-.
      rewrite <- (map_id (endpoints r)) at 2. apply map_ext_in. intros u Hin.
      unfold build_endpoints in Hb. rewrite Ec in Hb.
      destruct (given (a_endpoints a)) as [t|] eqn:Hg.
      + destruct (mapM port_of (map (fun ep => normalize_endpoint (strip ep)) (split "," t))); [|discriminate].
        injection Hb as <-. cbn [endpoints] in Hin. apply in_map_iff in Hin. destruct Hin as (x & <- & Hx).
        apply driver_normalized. apply Hw. unfold written. rewrite Hg. apply in_map; assumption.
      + injection Hb as <-. unfold from_defaults in Hin; cbn [endpoints] in Hin.
        apply in_map_iff in Hin. destruct Hin as (p & <- & _). unfold driver_url.
        change ("http://127.0.0.1:" ++ dec p) with ("http://" ++ ("127.0.0.1:" ++ dec p)).
        rewrite prefix_self. reflexivity. }
  destruct (build_ports a r Hb) as (W & _ & P). subst urls. split; [congruence|].
  intros i Hi. assert (exists u, nth_error (endpoints r) i = Some u) as [u Eu].
  { destruct (nth_error (endpoints r) i) eqn:E; [eauto|]. apply nth_error_None in E. lia. }
  destruct (P i u Eu) as (p & Ep & Eo). exists u, p. split; [assumption|]. split; [assumption|].
  unfold worker. rewrite Hb, Ep. apply Nat.ltb_lt in Hi. rewrite Hi. reflexivity.
Qed.
Print Assumptions C105_meet.

(** run finds workers for every configuration whose node names differ, and for no other. *)
Lemma distinct_NoDup : forall l, distinct l = true <-> NoDup l.
Proof.
  induction l as [|x l IH]; cbn; [split; auto using NoDup_nil|]. rewrite andb_true_iff, negb_true_iff, IH, NoDup_cons_iff. split; intros [A B]; split; auto.
  - intro C. assert (existsb (String.eqb x) l = true) by (apply existsb_exists; exists x; split; auto; apply String.eqb_refl). congruence.
  - destruct (existsb (String.eqb x) l) eqn:E; auto. apply existsb_exists in E. destruct E as (y & H & Hy). apply String.eqb_eq in Hy. now subst y.
Qed.
Theorem C105_run_accepts : forall a c, a_config a = Some c ->
  ((exists urls, run_urls a = Some urls) <-> NoDup (map fst (nodes c))).
Proof.
  intros a c H. unfold run_urls. rewrite H, <- distinct_NoDup. destruct (distinct (map fst (nodes c))); [split; eauto|split; [intros [u [=]]|discriminate]].
Qed.
Print Assumptions C105_run_accepts.

Definition conf1 : conf :=
  Conf [("alice", "10.0.0.1:8100"); ("bob", "https://bob.example:8200")] [("P0", "ppu"); ("S", "spu")].
Definition args1 : args := Args (Some conf1) None None None 3 (Some 8100).
Example C105_case :
  worker args1 1 = Some (8200, ["http://10.0.0.1:8100"; "https://bob.example:8200"],
                         Some [(0, "10.0.0.1:9100"); (1, "https:9101")]) /\
  run_urls args1 = Some ["http://10.0.0.1:8100"; "https://bob.example:8200"] /\
  (forall ep, In ep (written args1) -> clear_scheme ep).
Proof.
  split; [reflexivity|]. split; [reflexivity|].
  intros ep [<-|[<-|[]]]; unfold clear_scheme; simpl; auto; discriminate.
Qed.

(** With a file, run ignores --endpoints, the workers do not. *)
Theorem C143_override_refuted : forall c t spu w b r,
  given (Some t) = Some t -> NoDup (map fst (nodes c)) ->
  build_endpoints (Args (Some c) (Some t) None spu w b) = Some r ->
  endpoints r = map (fun ep => normalize_endpoint (strip ep)) (split "," t) /\
  run_urls (Args (Some c) (Some t) None spu w b) = Some (map (fun n => driver_url (snd n)) (nodes c)).
Proof.
  intros c t spu w b r Hg Hd H. apply distinct_NoDup in Hd. unfold build_endpoints in H. cbn [a_config a_endpoints a_spu_base_port] in H.
  destruct (from_config c spu); [|discriminate]. rewrite Hg in H.
  destruct (mapM port_of (map (fun ep => normalize_endpoint (strip ep)) (split "," t))); [|discriminate].
  injection H as <-. split; [reflexivity|]. unfold run_urls; cbn [a_config]. rewrite Hd. reflexivity.
Qed.
Print Assumptions C143_override_refuted.
Example C105_override_case :
  exists r, build_endpoints (Args (Some conf1) (Some "h1:9, h2:9") None None 3 None) = Some r /\
    endpoints r = ["http://h1:9"; "http://h2:9"] /\
    run_urls (Args (Some conf1) (Some "h1:9, h2:9") None None 3 None) = Some ["http://10.0.0.1:8100"; "https://bob.example:8200"].
Proof. eexists; split; [reflexivity | split; reflexivity]. Qed.

(** A host name that starts with http: the workers' address for it has no scheme. *)
Theorem C143_http_host_refuted : forall ep,
  String.prefix "http" ep = true -> String.prefix "http://" ep = false -> String.prefix "https://" ep = false ->
  normalize_endpoint ep = ep /\ driver_url ep = "http://" ++ ep.
Proof. intros ep H1 H2 H3. unfold normalize_endpoint, driver_url. rewrite H1, H2, H3. split; reflexivity. Qed.
Print Assumptions C143_http_host_refuted.
Example C105_http_host_case : String.prefix "http" "httpd1:8100" = true /\
  String.prefix "http://" "httpd1:8100" = false /\ String.prefix "https://" "httpd1:8100" = false.
Proof. repeat split; reflexivity. Qed.

(** [objects] without options asks other ports than those [up] without options uses
    (for fewer than 3101 workers: the two ranges are 5000.. and 8100..). *)
Theorem C143_objects_refuted : forall w u v, w <= 3100 ->
  In u (ports (from_defaults (Args None None None None w None))) ->
  In v (ports (from_defaults (Args None None None None w (Some 8100)))) -> u <> v.
Proof.
  intros w u v Hw H1 H2. unfold from_defaults in *; cbn [ports a_base_port a_world_size] in *.
  apply in_map_iff in H1, H2. destruct H1 as (i & <- & Hi). destruct H2 as (j & <- & Hj).
  apply in_seq in Hi, Hj.
  assert (E : 8100 = 5000 + 3100) by (vm_compute; reflexivity).
  rewrite E. remember 5000 as x. clear Heqx E. lia.
Qed.
Print Assumptions C143_objects_refuted.
Example C105_objects_case : ports (from_defaults (Args None None None None 2 None)) = [5000; 5001].
Proof. reflexivity. Qed.

(** ** C106 *)
Lemma some_inj : forall A (x y : A), Some x = Some y -> x = y.
Proof. congruence. Qed.

Lemma enum_map : forall A B (f : nat * A -> B) l s i x,
  nth_error l i = Some x -> nth_error (map f (enum_from s l)) i = Some (f (s + i, x)).
Proof.
  induction l as [|y l IH]; intros s i x H; [destruct i; discriminate|].
  destruct i as [|i]; simpl in *.
  - injection H as <-. rewrite Nat.add_0_r. reflexivity.
  - rewrite (IH (S s) i x H). f_equal. f_equal. f_equal. lia.
Qed.

(** With a file that has an SPU device and endpoints written host:port, worker i's SPU
    address is its own host with the base port plus i. *)
Theorem C106_spu_addresses : forall c base r spu i n host p,
  from_config c base = Some r -> spu_endpoints r = Some spu ->
  nth_error (nodes c) i = Some n -> plain_node n host p ->
  exists b, nth_error spu i = Some (i, host ++ ":" ++ dec (b + i)) /\
    (match base with Some (S k) => b = S k | _ => exists p0, nth_error (ports r) 0 = Some p0 /\ b = p0 + 1000 end).
Proof.
  intros c base r spu i n host p H Hs Hn [Hep Hh]. unfold from_config in H.
  destruct (nodes c) as [|n0 ns] eqn:En; [discriminate|].
  destruct (mapM port_of (map (fun n1 => normalize_endpoint (snd n1)) (n0 :: ns))) as [ps|] eqn:Ep; [|discriminate].
  apply some_inj in H; subst r; cbn [spu_endpoints ports] in *.
  destruct (existsb (fun d => String.eqb (upper (snd d)) "SPU") (devices c)); [|discriminate]. apply some_inj in Hs; subst spu.
  exists (port_or base (hd 0 ps + 1000)). split.
  - rewrite (enum_map _ _ _ _ 0 i n Hn). cbn [fst snd Nat.add].
    rewrite Hep. change (host ++ ":" ++ dec p) with (host ++ String ":" (dec p)).
    rewrite split_app by assumption. reflexivity.
  - destruct (mapM_nth _ _ _ _ _ Ep) as [L _]. destruct ps as [|p0 ps]; [discriminate L|].
    destruct base as [[|k]|]; simpl; try reflexivity; exists p0; split; reflexivity.
Qed.
Print Assumptions C106_spu_addresses.

(** So no two workers have the same SPU address. *)
Theorem C106_distinct : forall c base r spu i j ni nj hi hj pi pj ai aj,
  from_config c base = Some r -> spu_endpoints r = Some spu ->
  nth_error (nodes c) i = Some ni -> plain_node ni hi pi ->
  nth_error (nodes c) j = Some nj -> plain_node nj hj pj ->
  nth_error spu i = Some (i, ai) -> nth_error spu j = Some (j, aj) -> ai = aj -> i = j.
Proof.
  intros c base r spu i j ni nj hi hj pi pj ai aj H Hs Hi Pi Hj Pj Ai Aj E.
  destruct (C106_spu_addresses c base r spu i ni hi pi H Hs Hi Pi) as (bi & E1 & B1).
  destruct (C106_spu_addresses c base r spu j nj hj pj H Hs Hj Pj) as (bj & E2 & B2).
  assert (bi = bj).
  { destruct base as [[|k]|]; try congruence;
      destruct B1 as (x & X1 & X2); destruct B2 as (y & Y1 & Y2); congruence. }
  subst bj. rewrite E1 in Ai. rewrite E2 in Aj. injection Ai as <-. injection Aj as <-.
  change (hi ++ ":" ++ dec (bi + i)) with (hi ++ String ":" (dec (bi + i))) in E.
  change (hj ++ ":" ++ dec (bi + j)) with (hj ++ String ":" (dec (bi + j))) in E.
  destruct Pi as [_ Ni]. destruct Pj as [_ Nj].
  apply (f_equal (split ":")) in E. rewrite !split_app in E by assumption.
  rewrite !split_none in E by apply dec_no_colon.
  assert (D : dec (bi + i) = dec (bi + j)) by congruence. apply dec_inj in D. lia.
Qed.
Print Assumptions C106_distinct.

Definition conf2 : conf := Conf [("a", "127.0.0.1:8100"); ("b", "127.0.0.1:8101")] [("S", "Spu")].
Example C106_case :
  plain_node ("b", "127.0.0.1:8101") "127.0.0.1" 8101 /\
  option_map spu_endpoints (from_config conf2 None) = Some (Some [(0, "127.0.0.1:9100"); (1, "127.0.0.1:9101")]).
Proof. repeat split. Qed.

(** An endpoint written with its scheme: the SPU address does not name the host. *)
Theorem C144_scheme_refuted : forall c base r spu i name rest,
  from_config c base = Some r -> spu_endpoints r = Some spu ->
  nth_error (nodes c) i = Some (name, "http://" ++ rest) ->
  exists b, nth_error spu i = Some (i, "http:" ++ dec (b + i)).
Proof.
  intros c base r spu i name rest H Hs Hn. unfold from_config in H.
  destruct (nodes c) as [|n0 ns] eqn:En; [discriminate|].
  destruct (mapM port_of (map (fun n1 => normalize_endpoint (snd n1)) (n0 :: ns))) as [ps|] eqn:Ep; [|discriminate].
  apply some_inj in H; subst r; cbn [spu_endpoints ports] in *.
  destruct (existsb (fun d => String.eqb (upper (snd d)) "SPU") (devices c)); [|discriminate]. apply some_inj in Hs; subst spu.
  exists (port_or base (hd 0 ps + 1000)).
  rewrite (enum_map _ _ _ _ 0 i _ Hn). reflexivity.
Qed.
Print Assumptions C144_scheme_refuted.
Example C106_scheme_case :
  option_map spu_endpoints (from_config (Conf [("a", "http://10.0.0.1:80"); ("b", "http://10.0.0.2:80")] [("S", "SPU")]) None)
  = Some (Some [(0, "http:1080"); (1, "http:1081")]).
Proof. reflexivity. Qed.

(** --spu-endpoints has no effect; --endpoints leaves the SPU addresses of the file. *)
Theorem C144_options_refuted :
  (forall c e s s' b w p, build_endpoints (Args c e s b w p) = build_endpoints (Args c e s' b w p)) /\
  (forall c t s b w p r r0, build_endpoints (Args (Some c) (Some t) s b w p) = Some r ->
     from_config c b = Some r0 -> spu_endpoints r = spu_endpoints r0).
Proof.
  split; [reflexivity|]. intros c t s b w p r r0 H H0. unfold build_endpoints in H.
  cbn [a_config a_endpoints a_spu_base_port] in H. rewrite H0 in H.
  destruct (given (Some t)) as [t'|].
  - destruct (mapM port_of (map (fun ep => normalize_endpoint (strip ep)) (split "," t'))); [|discriminate].
    injection H as <-. reflexivity.
  - injection H as <-. reflexivity.
Qed.
Print Assumptions C144_options_refuted.

Lemma prefix_colon : forall w h t, has ":" w = false -> String.prefix w h = false ->
  String.prefix w (h ++ String ":" t) = false.
Proof.
  induction w as [|c w IH]; intros h t Hw Hp; [destruct h; discriminate Hp|].
  cbn [has] in Hw. apply orb_false_iff in Hw. destruct Hw as [Hc Hw].
  destruct h as [|d h]; cbn [String.append String.prefix] in *.
  - destruct (ascii_dec c ":") as [->|]; [discriminate Hc | reflexivity].
  - destruct (ascii_dec c d); [apply IH; assumption | reflexivity].
Qed.

(** The SPU port of a worker can be the HTTP port of another worker of the same host. *)
Theorem C144_port_clash_refuted : forall p host, has ":" host = false ->
  String.prefix "http" host = false ->
  exists r, from_config (Conf [("a", host ++ ":" ++ dec p); ("b", host ++ ":" ++ dec (p + 1000))] [("S", "SPU")]) None = Some r /\
    ports r = [p; p + 1000] /\
    exists spu, spu_endpoints r = Some spu /\ nth_error spu 0 = Some (0, host ++ ":" ++ dec (p + 1000)).
Proof.
  intros p host Hh Hp.
  assert (N : forall q, normalize_endpoint (host ++ ":" ++ dec q) = "http://" ++ host ++ ":" ++ dec q).
  { intros q. unfold normalize_endpoint.
    replace (String.prefix "http" (host ++ ":" ++ dec q)) with false; [reflexivity|].
    symmetry. apply (prefix_colon "http" host (dec q) eq_refl Hp). }
  assert (P : forall q, port_of (normalize_endpoint (host ++ ":" ++ dec q)) = Some q).
  { intros q. rewrite N. unfold port_of.
    change ("http://" ++ host ++ ":" ++ dec q) with ("http" ++ String ":" (("//" ++ host) ++ String ":" (dec q))).
    rewrite split_app by reflexivity. rewrite split_app by (simpl; assumption).
    rewrite split_none by apply dec_no_colon. simpl. apply undec_dec. }
  unfold from_config. cbn [nodes map snd]. cbn [mapM]. rewrite !P.
  eexists; split; [reflexivity|]. cbn [ports spu_endpoints devices existsb snd].
  split; [reflexivity|]. eexists; split; [reflexivity|]. cbn [enum_from map fst snd nth_error hd port_or].
  change (host ++ ":" ++ dec p) with (host ++ String ":" (dec p)). rewrite split_app by assumption. rewrite Nat.add_0_r.
  reflexivity.
Qed.
Print Assumptions C144_port_clash_refuted.
