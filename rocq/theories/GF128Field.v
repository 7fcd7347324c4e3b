(** The Python kernel computes in a field: associativity, inverses, no zero
    divisors; and the exact agreement domain of the native kernel. *)
From Coq Require Import NArith Lia Ring List.
From Verif Require Import GF128Spec GF128Model GF128Poly GF128Proofs.
Import ListNotations.
Local Open Scope N_scope.

(** field.mul on 128-bit integers (Python kernel) *)
Definition fmul (x y : N) : N := join (gf128_mul_single (split128 x) (split128 y)).
Definition small (x : N) : Prop := x < 2 ^ 128.

Definition cong (x y : N) : Prop := exists q, N.lxor x y = pmul q gf_poly.

Lemma cong_refl x : cong x x.
Proof. exists 0. rewrite N.lxor_nilpotent. reflexivity. Qed.
Lemma cong_sym x y : cong x y -> cong y x.
Proof. intros [q H]. exists q. rewrite N.lxor_comm. exact H. Qed.
Lemma cong_trans x y z : cong x y -> cong y z -> cong x z.
Proof.
  intros [q H] [r K]. exists (N.lxor q r). rewrite pmul_lxor_l, <- H, <- K. ring.
Qed.
Lemma cong_mul x x' y y' : cong x x' -> cong y y' -> cong (pmul x y) (pmul x' y').
Proof.
  intros [q H] [r K]. exists (N.lxor (pmul q y) (pmul r x')).
  apply lxor_move in H. apply lxor_move in K. subst x y. ring.
Qed.
Lemma cong_add x x' y y' : cong x x' -> cong y y' -> cong (N.lxor x y) (N.lxor x' y').
Proof.
  intros [q H] [r K]. exists (N.lxor q r). rewrite pmul_lxor_l, <- H, <- K. ring.
Qed.
Lemma cong_small x y : small x -> small y -> cong x y -> x = y.
Proof.
  intros Hx Hy [q H]. pose proof (lxor_lt_pow2 x y 128 Hx Hy) as L. rewrite H in L.
  apply multiple_small in L. subst q. apply N.lxor_eq. exact H.
Qed.

Lemma fmul_product x y : small x -> small y -> is_product x y (fmul x y).
Proof.
  intros Hx Hy.
  destruct (gf128_mul_single_correct (split128 x) (split128 y)) as [_ H];
    [apply split_word_pair; exact Hx|apply split_word_pair; exact Hy|].
  rewrite !join_split in H by assumption. exact H.
Qed.
Lemma fmul_small x y : small x -> small y -> small (fmul x y).
Proof. intros Hx Hy. apply (fmul_product x y Hx Hy). Qed.
Lemma fmul_cong x y : small x -> small y -> cong (fmul x y) (pmul x y).
Proof. intros Hx Hy. apply cong_sym. apply (fmul_product x y Hx Hy). Qed.
Lemma lxor_small x y : small x -> small y -> small (N.lxor x y).
Proof. apply lxor_lt_pow2. Qed.
Lemma small_0 : small 0. Proof. vm_compute. reflexivity. Qed.
Lemma small_1 : small 1. Proof. vm_compute. reflexivity. Qed.
Lemma small_2 : small 2. Proof. vm_compute. reflexivity. Qed.

Lemma fmul_comm x y : small x -> small y -> fmul x y = fmul y x.
Proof.
  intros Hx Hy. apply (is_product_unique x y); [apply fmul_product; assumption|].
  destruct (fmul_product y x Hy Hx) as [L [q E]]. split; [exact L|].
  exists q. rewrite (pmul_comm x y). exact E.
Qed.
Lemma fmul_assoc x y z : small x -> small y -> small z ->
  fmul x (fmul y z) = fmul (fmul x y) z.
Proof.
  intros Hx Hy Hz.
  apply cong_small; [apply fmul_small; [|apply fmul_small]; assumption
                    |apply fmul_small; [apply fmul_small|]; assumption|].
  eapply cong_trans; [apply fmul_cong; [assumption|apply fmul_small; assumption]|].
  eapply cong_trans; [apply cong_mul; [apply cong_refl|apply fmul_cong; assumption]|].
  apply cong_sym.
  eapply cong_trans; [apply fmul_cong; [apply fmul_small; assumption|assumption]|].
  eapply cong_trans; [apply cong_mul; [apply fmul_cong; assumption|apply cong_refl]|].
  rewrite pmul_assoc. apply cong_refl.
Qed.
Lemma fmul_lxor_r x y z : small x -> small y -> small z ->
  fmul x (N.lxor y z) = N.lxor (fmul x y) (fmul x z).
Proof.
  intros Hx Hy Hz.
  apply cong_small; [apply fmul_small; [|apply lxor_small]; assumption
                    |apply lxor_small; apply fmul_small; assumption|].
  eapply cong_trans; [apply fmul_cong; [assumption|apply lxor_small; assumption]|].
  rewrite pmul_lxor_r. apply cong_sym.
  apply cong_add; apply fmul_cong; assumption.
Qed.
Lemma fmul_lxor_l x y z : small x -> small y -> small z ->
  fmul (N.lxor x y) z = N.lxor (fmul x z) (fmul y z).
Proof.
  intros Hx Hy Hz. rewrite !(fmul_comm _ z) by (try apply lxor_small; assumption).
  apply fmul_lxor_r; assumption.
Qed.
Lemma fmul_1_l x : small x -> fmul 1 x = x.
Proof.
  intros Hx. apply cong_small; [apply fmul_small; [apply small_1|exact Hx]|exact Hx|].
  eapply cong_trans; [apply fmul_cong; [apply small_1|exact Hx]|].
  rewrite pmul_1_l. apply cong_refl.
Qed.
Lemma fmul_0_r x : small x -> fmul x 0 = 0.
Proof.
  intros Hx. apply cong_small; [apply fmul_small; [exact Hx|apply small_0]|apply small_0|].
  eapply cong_trans; [apply fmul_cong; [exact Hx|apply small_0]|].
  rewrite pmul_0_r. apply cong_refl.
Qed.
Lemma fmul_0_l x : small x -> fmul 0 x = 0.
Proof. intros Hx. rewrite fmul_comm by (try exact Hx; apply small_0). apply fmul_0_r, Hx. Qed.

(** additive maps agreeing on the basis agree everywhere *)
Lemma decompose_bit a n : a < 2 ^ N.succ n ->
  exists c a', a' < 2 ^ n /\ a = N.lxor (if c : bool then 2 ^ n else 0) a'.
Proof.
  intros H. exists (N.testbit a n), (N.land a (N.ones n)). split.
  - rewrite N.land_ones. apply N.mod_lt. apply N.pow_nonzero. lia.
  - apply N.bits_inj. intros m. rewrite N.lxor_spec, N.land_spec.
    destruct (N.ltb_spec m n) as [L|L].
    + rewrite N.ones_spec_low by exact L. rewrite Bool.andb_true_r.
      destruct (N.testbit a n); [rewrite N.pow2_bits_false by lia|rewrite N.bits_0]; rewrite Bool.xorb_false_l; reflexivity.
    + rewrite N.ones_spec_high by exact L. rewrite Bool.andb_false_r, Bool.xorb_false_r.
      destruct (N.eq_dec m n) as [->|Hne].
      * destruct (N.testbit a n); [rewrite N.pow2_bits_true|rewrite N.bits_0]; reflexivity.
      * assert (E : N.testbit a m = false).
        { destruct (N.eq_dec a 0) as [->|Ha]; [apply N.bits_0|].
          apply N.bits_above_log2. apply lt_pow2_log2 in H; [lia|exact Ha]. }
        rewrite E. destruct (N.testbit a n); [rewrite N.pow2_bits_false by lia|rewrite N.bits_0]; reflexivity.
Qed.

Lemma additive_ext (f g : N -> N) (k : nat) :
  (forall x y, x < 2 ^ N.of_nat k -> y < 2 ^ N.of_nat k -> f (N.lxor x y) = N.lxor (f x) (f y)) ->
  (forall x y, x < 2 ^ N.of_nat k -> y < 2 ^ N.of_nat k -> g (N.lxor x y) = N.lxor (g x) (g y)) ->
  (forall i, (i < k)%nat -> f (2 ^ N.of_nat i) = g (2 ^ N.of_nat i)) ->
  forall a, a < 2 ^ N.of_nat k -> f a = g a.
Proof.
  intros Hf Hg Hb.
  assert (P0 : 0 < 2 ^ N.of_nat k) by (apply N.neq_0_lt_0, N.pow_nonzero; lia).
  assert (F0 : f 0 = 0).
  { pose proof (Hf 0 0 P0 P0) as H. rewrite !N.lxor_nilpotent in H. exact H. }
  assert (G0 : g 0 = 0).
  { pose proof (Hg 0 0 P0 P0) as H. rewrite !N.lxor_nilpotent in H. exact H. }
  assert (K : forall n, (n <= k)%nat -> forall a, a < 2 ^ N.of_nat n -> f a = g a).
  { induction n as [|n IH]; intros Hn a Ha.
    - change (2 ^ N.of_nat 0) with 1 in Ha. replace a with 0 by lia. rewrite F0, G0. reflexivity.
    - rewrite Nat2N.inj_succ in Ha. destruct (decompose_bit a (N.of_nat n) Ha) as [c [a' [La ->]]].
      assert (La' : a' < 2 ^ N.of_nat k).
      { eapply N.lt_le_trans; [exact La|]. apply N.pow_le_mono_r; lia. }
      assert (Lp : (if c then 2 ^ N.of_nat n else 0) < 2 ^ N.of_nat k).
      { destruct c; [apply N.pow_lt_mono_r; lia|exact P0]. }
      rewrite Hf, Hg by assumption. f_equal.
      + destruct c; [apply Hb; lia|rewrite F0, G0; reflexivity].
      + apply IH; [lia|exact La]. }
  intros a Ha. apply (K k (le_n k) a Ha).
Qed.

(** ** Frobenius *)
Definition sq (x : N) : N := fmul x x.
Fixpoint frob (k : nat) (x : N) : N := match k with O => x | S k' => sq (frob k' x) end.

Lemma sq_small x : small x -> small (sq x).
Proof. intros H. apply fmul_small; exact H. Qed.
Lemma frob_small k x : small x -> small (frob k x).
Proof. intros H. induction k as [|k IH]; [exact H|]. apply sq_small, IH. Qed.
Lemma sq_lxor x y : small x -> small y -> sq (N.lxor x y) = N.lxor (sq x) (sq y).
Proof.
  intros Hx Hy. unfold sq.
  rewrite fmul_lxor_l, !fmul_lxor_r by (try apply lxor_small; assumption).
  rewrite (fmul_comm y x) by assumption.
  generalize (fmul x x) (fmul x y) (fmul y y). intros u v w. ring.
Qed.
Lemma sq_fmul x y : small x -> small y -> sq (fmul x y) = fmul (sq x) (sq y).
Proof.
  intros Hx Hy. unfold sq.
  rewrite <- (fmul_assoc x y (fmul x y)) by (try apply fmul_small; assumption).
  rewrite (fmul_assoc y x y) by assumption.
  rewrite (fmul_comm y x) by assumption.
  rewrite <- (fmul_assoc x y y) by assumption.
  rewrite (fmul_assoc x x (fmul y y)) by (try apply fmul_small; assumption).
  reflexivity.
Qed.
Lemma frob_lxor k x y : small x -> small y -> frob k (N.lxor x y) = N.lxor (frob k x) (frob k y).
Proof.
  intros Hx Hy. induction k as [|k IH]; [reflexivity|]. cbn [frob]. rewrite IH.
  apply sq_lxor; apply frob_small; assumption.
Qed.
Lemma frob_fmul k x y : small x -> small y -> frob k (fmul x y) = fmul (frob k x) (frob k y).
Proof.
  intros Hx Hy. induction k as [|k IH]; [reflexivity|]. cbn [frob]. rewrite IH.
  apply sq_fmul; apply frob_small; assumption.
Qed.

Lemma frob128_x : frob 128 2 = 2.
Proof. vm_compute. reflexivity. Qed.
Lemma frob128_1 : frob 128 1 = 1.
Proof. vm_compute. reflexivity. Qed.
Lemma frob128_0 : frob 128 0 = 0.
Proof. vm_compute. reflexivity. Qed.

Lemma fmul_2_double a : small (N.double a) -> fmul 2 a = N.double a.
Proof.
  intros H. assert (Ha : small a).
  { unfold small in *. rewrite N.double_spec in H. lia. }
  apply cong_small; [apply fmul_small; [apply small_2|exact Ha]|exact H|].
  eapply cong_trans; [apply fmul_cong; [apply small_2|exact Ha]|].
  change 2 with (N.double 1). rewrite pmul_double_l, pmul_1_l. apply cong_refl.
Qed.

Lemma frob128_id a : small a -> frob 128 a = a.
Proof.
  induction a as [|a IH|a IH] using bin_ind; intros H.
  - exact frob128_0.
  - assert (Ha : small a) by (unfold small in *; rewrite N.double_spec in H; lia).
    rewrite <- (fmul_2_double a H), frob_fmul, frob128_x, IH by (try apply small_2; exact Ha).
    reflexivity.
  - assert (H2 : small (N.double a)).
    { unfold small in *. rewrite N.double_spec. rewrite N.succ_double_spec in H. lia. }
    assert (Ha : small a) by (unfold small in *; rewrite N.double_spec in H2; lia).
    rewrite sdouble_lxor, frob_lxor, frob128_1 by (try apply small_1; exact H2).
    rewrite <- (fmul_2_double a H2), frob_fmul, frob128_x, IH by (try apply small_2; exact Ha).
    reflexivity.
Qed.

(** ** idempotents are 0 and 1 (Berlekamp kernel has dimension one) *)
Fixpoint lin_apply (rows : list N) (v : N) : N :=
  match rows with
  | [] => 0
  | r :: rows' => N.lxor (if N.odd v then r else 0) (lin_apply rows' (N.div2 v))
  end.

Lemma odd_lxor x y : N.odd (N.lxor x y) = xorb (N.odd x) (N.odd y).
Proof. rewrite <- !N.bit0_odd. apply N.lxor_spec. Qed.
Lemma div2_lxor x y : N.div2 (N.lxor x y) = N.lxor (N.div2 x) (N.div2 y).
Proof. rewrite !N.div2_spec. apply N.shiftr_lxor. Qed.

Lemma lin_apply_lxor rows x y :
  lin_apply rows (N.lxor x y) = N.lxor (lin_apply rows x) (lin_apply rows y).
Proof.
  revert x y. induction rows as [|r rows IH]; intros x y; [reflexivity|].
  cbn [lin_apply]. rewrite odd_lxor, div2_lxor, IH.
  destruct (N.odd x), (N.odd y); cbn [xorb]; ring.
Qed.
Lemma lin_apply_0 rows : lin_apply rows 0 = 0.
Proof. induction rows as [|r rows IH]; [reflexivity|]. cbn [lin_apply]. exact IH. Qed.

Definition berlekamp_inverse : list N :=
  [54969562866131847669016652494142573320;
   305526867633558886955404559995676324868;
   305526867633558886955404559995676324870;
   104469799312523126935073530960423461388;
   305526867633558886955404559995676324866;
   56734434906695435454005472259553578602;
   104469799312523126935073530960423461380;
   271830150077582418345900040240152313368;
   305526867633558886955404559995676324882;
   104470118804432205535668098632526617412;
   56734434906695435454005472259553578570;
   227145695117876428321601179286510436182;
   104469799312523126935073530960423461444;
   305967500991204419130524647600360013666;
   271830150077582418345900040240152313496;
   227728627380917811012951187023350445606;
   305526867633558886955404559995676325138;
   56815181714465587187729576693626853178;
   104470118804432205535668098632526616900;
   2537993204061707162883588357039153916;
   56734434906695435454005472259553577546;
   3012428575888700110705650160495551628;
   227145695117876428321601179286510434134;
   275671395948664093117384310641479295528;
   104469799312523126935073530960423465540;
   271915852323952067842399232303023203416;
   305967500991204419130524647600360005474;
   102998777379450204286412735627287799860;
   271830150077582418345900040240152297112;
   272209106874770544727132909282711537316;
   227728627380917811012951187023350412838;
   135325830696997074197434372310186257282;
   305526867633558886955404559995676390674;
   57232084741685004684866676497372669754;
   56815181714465587187729576693626984250;
   135411474552265958872087683058005180738;
   104470118804432205535668098632526879044;
   275757512462385460142162890854388625828;
   2537993204061707162883588357039678204;
   274842411402277094064293402576501149528;
   56734434906695435454005472259554626122;
   175382474467339210118195525752143821788;
   3012428575888700110705650160497648780;
   5261797816253387317062014170447638976;
   227145695117876428321601179286514628438;
   272210066766835802062006483639670336468;
   275671395948664093117384310641470906920;
   225136856268418471551472419225175749014;
   104469799312523126935073530960440242756;
   102164174349821125137969924442995585924;
   271915852323952067842399232302989648984;
   226936647763116174786496543602468507498;
   305967500991204419130524647600427114338;
   305532029585887981283514747020026657774;
   102998777379450204286412735627422017588;
   133211003395652039953403666705387164366;
   271830150077582418345900040239883861656;
   102148097239065330920971689869502701364;
   272209106874770544727132909283248408228;
   173139448164521758332819425568250980204;
   227728627380917811012951187022276671014;
   305961988162602755697098987302884752222;
   135325830696997074197434372312333740930;
   175397880387343143921058595535091746080;
   305526867633558886955404559991381423378;
   329634352286836299080082914081100;
   57232084741685004684866676505962604346;
   172705286512742171128536335012890908524;
   56815181714465587187729576710806853434;
   303614986222712004812458293485509624930;
   135411474552265958872087683023645442370;
   170536380025231687221712635462198253856;
   104470118804432205535668098701246355780;
   225051247907070202050589524227723711914;
   275757512462385460142162890991827579300;
   308170559265311564786252692292247708062;
   2537993204061707162883588082161771260;
   102169133813289299704984590013427707636;
   274842411402277094064293402026745335640;
   303326766809063102477989677003176958226;
   56734434906695435454005473359066253898;
   172841837191359616877872241477191677152;
   175382474467339210118195523553120566236;
   54888141419452711199816878900948880442;
   3012428575888700110705654558544159884;
   307799342647640341558117533281787318686;
   5261797816253387317062022966540661184;
   273119276677551945356669168913118222868;
   227145695117876428321601196878700672854;
   272311600527812781647585363233504111460;
   272210066766835802062006518824042425300;
   5181299727675599870287693023180209980;
   275671395948664093117384240272726729256;
   305525142620375929691910208574098026146;
   225136856268418471551472278487687393686;
   307772801086609188417528170053220769746;
   104469799312523126935073249485463532100;
   54596111748351997025280216654447342278;
   102164174349821125137970487392949007236;
   308164931596625094656266467235253809106;
   271915852323952067842398106403082806360;
   227647953955287367714133036452945544742;
   226936647763116174786494291802654822250;
   308170555145571807541189819739699809694;
   305967500991204419130520144000799743842;
   133105130754254600986622393405343152142;
   305532029585887981283523754219281398766;
   172410759080424577518324870893406614048;
   102998777379450204286394721228912535604;
   54969320214588899006126198736319185926;
   133211003395652039953439695502406128334;
   227375442280390979429973553919662004774;
   271830150077582418345827982645845933720;
   4955917326648230773508684280683823104;
   102148097239065330921115805057578557236;
   172885700256406002458384310923462859152;
   272209106874770544726844678907096696484;
   56538291399058816093646072645906817530;
   173139448164521758332242964815947556716;
   55418003596362017635628740176384579466;
   227728627380917811014104108526883517990;
   0;
   305961988162602755699404830312098446174;
   178356100567250831900639352525185366892;
   135325830696997074202046058330761128834;
   189481146061086134017106552491789565356;
   175397880387343143911835223498236970272;
   75361565302940573017734093940626417402].

Lemma berlekamp_basis :
  forallb (fun i => N.eqb (lin_apply berlekamp_inverse (N.lxor (sq (2 ^ N.of_nat i)) (2 ^ N.of_nat i)))
                          (N.lxor (2 ^ N.of_nat i) (if N.odd (2 ^ N.of_nat i) then 1 else 0)))
          (seq 0 128) = true.
Proof. vm_compute. reflexivity. Qed.

Lemma berlekamp_left_inverse a : small a ->
  lin_apply berlekamp_inverse (N.lxor (sq a) a) = N.lxor a (if N.odd a then 1 else 0).
Proof.
  intros Ha.
  apply (additive_ext
           (fun a => lin_apply berlekamp_inverse (N.lxor (sq a) a))
           (fun a => N.lxor a (if N.odd a then 1 else 0)) 128).
  - intros x y Hx Hy. cbv beta. rewrite sq_lxor by assumption.
    rewrite lxor4, lin_apply_lxor. reflexivity.
  - intros x y Hx Hy. cbv beta. rewrite odd_lxor.
    destruct (N.odd x), (N.odd y); cbn [xorb]; ring.
  - intros i Hi. pose proof berlekamp_basis as H. rewrite forallb_forall in H.
    apply N.eqb_eq, H. apply in_seq. lia.
  - exact Ha.
Qed.

Lemma idempotent_01 e : small e -> fmul e e = e -> e = 0 \/ e = 1.
Proof.
  intros He H. pose proof (berlekamp_left_inverse e He) as K. unfold sq in K.
  rewrite H, N.lxor_nilpotent, lin_apply_0 in K. symmetry in K. apply N.lxor_eq in K.
  rewrite K. destruct (N.odd e); [right|left]; reflexivity.
Qed.

(** ** inverses *)
(** [gpow k a] = a^(2^k - 1) *)
Fixpoint gpow (k : nat) (a : N) : N :=
  match k with O => 1 | S k' => fmul a (sq (gpow k' a)) end.
Definition finv (a : N) : N := sq (gpow 127 a).          (* a^(2^128-2) *)

Lemma gpow_small k a : small a -> small (gpow k a).
Proof.
  intros H. induction k as [|k IH]; [apply small_1|]. cbn [gpow].
  apply fmul_small; [exact H|apply sq_small, IH].
Qed.
Lemma gpow_frob k a : small a -> fmul a (gpow k a) = frob k a.
Proof.
  intros H. induction k as [|k IH].
  - cbn [gpow frob]. rewrite fmul_comm by (try apply small_1; exact H). apply fmul_1_l, H.
  - cbn [gpow frob]. rewrite <- IH, sq_fmul by (try apply gpow_small; exact H). unfold sq at 2.
    apply fmul_assoc; [exact H|exact H|apply sq_small, gpow_small, H].
Qed.

Lemma gpow_S k a : gpow (S k) a = fmul a (sq (gpow k a)).
Proof. reflexivity. Qed.
Lemma gpow128 a : gpow 128 a = fmul a (finv a).
Proof. unfold finv. apply gpow_S. Qed.

Lemma finv_r a : small a -> a <> 0 -> fmul a (finv a) = 1.
Proof.
  intros Ha H0.
  assert (He : small (gpow 128 a)) by (apply gpow_small; exact Ha).
  assert (Hf : small (finv a)) by (apply sq_small, gpow_small; exact Ha).
  assert (Hid : fmul a (gpow 128 a) = a) by (rewrite gpow_frob, frob128_id by exact Ha; reflexivity).
  assert (Hee : fmul (gpow 128 a) (gpow 128 a) = gpow 128 a).
  { rewrite gpow128 at 2. rewrite fmul_assoc by assumption.
    rewrite (fmul_comm (gpow 128 a) a) by assumption. rewrite Hid. symmetry. apply gpow128. }
  destruct (idempotent_01 _ He Hee) as [E|E].
  - exfalso. apply H0. rewrite <- Hid, E. apply fmul_0_r. exact Ha.
  - rewrite <- gpow128. exact E.
Qed.

Lemma finv_small a : small a -> small (finv a).
Proof. intros H. apply sq_small, gpow_small, H. Qed.

Lemma fmul_eq0 a b : small a -> small b -> fmul a b = 0 -> a = 0 \/ b = 0.
Proof.
  intros Ha Hb H. destruct (N.eq_dec a 0) as [|H0]; [left; assumption|right].
  pose proof (finv_r a Ha H0) as Hi. pose proof (finv_small a Ha) as Hf.
  rewrite <- (fmul_1_l b Hb), <- Hi. rewrite (fmul_comm a (finv a)) by assumption.
  rewrite <- fmul_assoc by assumption. rewrite H. apply fmul_0_r, Hf.
Qed.

(** ** the native kernel *)
Lemma hi64_mm_set : forall lo, lo < 2 ^ 64 -> mm_set_epi64x 0 lo = lo.
Proof. intros lo _. unfold mm_set_epi64x. rewrite N.shiftl_0_l. apply N.lor_0_l. Qed.

Lemma lo_hi x : x = N.lxor (lo64 x) (pmul (2 ^ 64) (hi64 x)).
Proof. unfold lo64, hi64. rewrite <- shiftl_pmul. symmetry. apply lo_hi_lxor. Qed.

Lemma lo64_lt x : lo64 x < 2 ^ 64. Proof. apply land_mask64_lt. Qed.

Lemma pmul_lt64 a b : a < 2 ^ 64 -> b < 2 ^ 64 -> pmul a b < 2 ^ 127.
Proof.
  intros Ha Hb. destruct (N.eq_dec a 0) as [->|Ha0]; [vm_compute; reflexivity|].
  destruct (N.eq_dec b 0) as [->|Hb0]; [rewrite pmul_0_r; vm_compute; reflexivity|].
  destruct (pmul_deg a b Ha0 Hb0) as [H1 H2]. apply lt_pow2_log2; [exact H1|].
  apply lt_pow2_log2 in Ha; [|exact Ha0]. apply lt_pow2_log2 in Hb; [|exact Hb0]. lia.
Qed.
Lemma lt127_128 x : x < 2 ^ 127 -> small x.
Proof. intros H. eapply N.lt_trans; [exact H|]. vm_compute. reflexivity. Qed.

Lemma slli8_spec x : mm_slli8 x = pmul (2 ^ 64) (lo64 x).
Proof.
  unfold mm_slli8, lo64, mask64. rewrite <- shiftl_pmul.
  apply N.bits_inj. intros n. rewrite N.land_spec.
  destruct (N.ltb_spec n 64) as [H|H].
  - rewrite !N.shiftl_spec_low by exact H. reflexivity.
  - rewrite !N.shiftl_spec_high' by exact H. rewrite N.land_spec.
    destruct (N.ltb_spec n 128) as [K|K].
    + rewrite !N.ones_spec_low by lia. reflexivity.
    + rewrite !N.ones_spec_high by lia. reflexivity.
Qed.

(** 256-bit product held in (r0, r1) by the native kernel *)
Definition cpp_r0 (a b : N) : N :=
  N.lxor (pmul (lo64 a) (lo64 b))
         (pmul (2 ^ 64) (lo64 (N.lxor (pmul (hi64 a) (lo64 b)) (pmul (lo64 a) (hi64 b))))).
Definition cpp_r1 (a b : N) : N :=
  N.lxor (pmul (hi64 a) (hi64 b))
         (hi64 (N.lxor (pmul (hi64 a) (lo64 b)) (pmul (lo64 a) (hi64 b)))).

Lemma cpp_product a b : pmul a b = N.lxor (cpp_r0 a b) (pmul (pmul (2 ^ 64) (2 ^ 64)) (cpp_r1 a b)).
Proof.
  rewrite (lo_hi a) at 1. rewrite (lo_hi b) at 1. unfold cpp_r0, cpp_r1.
  set (mid := N.lxor (pmul (hi64 a) (lo64 b)) (pmul (lo64 a) (hi64 b))).
  assert (E : lo64 mid = N.lxor mid (pmul (2 ^ 64) (hi64 mid))).
  { rewrite (lo_hi mid) at 2. rewrite N.lxor_assoc, N.lxor_nilpotent, N.lxor_0_r. reflexivity. }
  rewrite E. unfold mid at 1. generalize (2 ^ 64). intros X. ring.
Qed.

Lemma cpp_value a b :
  cpp_gf128_mul a b = N.lxor (cpp_r0 a b) (pmul (lo64 (cpp_r1 a b)) GF128_POLYNOMIAL).
Proof.
  unfold cpp_gf128_mul, mm_clmulepi64.
  change (N.testbit 0 0) with false. change (N.testbit 0 4) with false.
  change (N.testbit 17 0) with true. change (N.testbit 17 4) with true.
  change (N.testbit 1 0) with true. change (N.testbit 1 4) with false.
  change (N.testbit 16 0) with false. change (N.testbit 16 4) with true.
  cbv iota zeta. rewrite hi64_mm_set by (vm_compute; reflexivity).
  change (hi64 135) with 0. change (lo64 135) with GF128_POLYNOMIAL.
  rewrite pmul_0_r. change (mm_slli8 0) with 0. change (mm_srli8 0) with 0.
  change (lo64 0) with 0. rewrite pmul_0_l, !N.lxor_0_r, !slli8_spec.
  unfold mm_srli8. fold (hi64 (N.lxor (pmul (hi64 a) (lo64 b)) (pmul (lo64 a) (hi64 b)))).
  fold (cpp_r0 a b). fold (cpp_r1 a b). reflexivity.
Qed.

Lemma hi64_lt a : small a -> hi64 a < 2 ^ 64.
Proof. apply shiftr64_lt. Qed.

Lemma cpp_r1_small a b : small a -> small b -> small (cpp_r1 a b).
Proof.
  intros Ha Hb. apply lxor_small.
  - apply lt127_128, pmul_lt64; apply hi64_lt; assumption.
  - apply lt64_128, hi64_lt. apply lxor_small; apply lt127_128, pmul_lt64;
      try apply hi64_lt; try apply lo64_lt; assumption.
Qed.
Lemma cpp_r0_small a b : small a -> small b -> small (cpp_r0 a b).
Proof.
  intros Ha Hb. apply lxor_small.
  - apply lt127_128, pmul_lt64; apply lo64_lt.
  - rewrite <- shiftl_pmul. apply shiftl64_lt, lo64_lt.
Qed.
Lemma cpp_small a b : small a -> small b -> small (cpp_gf128_mul a b).
Proof.
  intros Ha Hb. rewrite cpp_value. apply lxor_small; [apply cpp_r0_small; assumption|].
  apply lt127_128, pmul_lt64; [apply lo64_lt|vm_compute; reflexivity].
Qed.

(** what the native kernel forgets: the top 64 bits of the 256-bit product *)
Lemma cpp_top a b : small a -> small b -> hi64 (cpp_r1 a b) = N.shiftr (pmul a b) 192.
Proof.
  intros Ha Hb. rewrite (cpp_product a b). rewrite N.shiftr_lxor.
  assert (E : N.shiftr (cpp_r0 a b) 192 = 0).
  { rewrite N.shiftr_div_pow2. apply N.div_small. eapply N.lt_trans; [apply cpp_r0_small; assumption|].
    vm_compute. reflexivity. }
  rewrite E, N.lxor_0_l. rewrite <- pmul_assoc, <- !shiftl_pmul, N.shiftl_shiftl.
  rewrite N.shiftr_shiftl_r by (vm_compute; discriminate). reflexivity.
Qed.

Definition X192 : N := fmul (fmul (2 ^ 64) (2 ^ 64)) (2 ^ 64).
Lemma X192_small : small X192. Proof. vm_compute. reflexivity. Qed.
Lemma X192_neq0 : X192 <> 0. Proof. vm_compute. discriminate. Qed.
Lemma small_2_64 : small (2 ^ 64). Proof. vm_compute. reflexivity. Qed.

Lemma fmul_minus_cpp a b : small a -> small b ->
  fmul a b = N.lxor (cpp_gf128_mul a b) (fmul X192 (N.shiftr (pmul a b) 192)).
Proof.
  intros Ha Hb.
  assert (Ht : small (N.shiftr (pmul a b) 192)).
  { rewrite <- cpp_top by assumption. apply lt64_128, hi64_lt, cpp_r1_small; assumption. }
  apply cong_small.
  - apply fmul_small; assumption.
  - apply lxor_small; [apply cpp_small; assumption|apply fmul_small; [apply X192_small|exact Ht]].
  - eapply cong_trans; [apply fmul_cong; assumption|].
    apply cong_sym.
    eapply cong_trans.
    { apply cong_add; [apply cong_refl|].
      eapply cong_trans; [apply fmul_cong; [apply X192_small|exact Ht]|].
      apply cong_mul; [|apply cong_refl].
      unfold X192. eapply cong_trans; [apply fmul_cong; [apply fmul_small; apply small_2_64|apply small_2_64]|].
      apply cong_mul; [apply fmul_cong; apply small_2_64|apply cong_refl]. }
    rewrite <- cpp_top by assumption. rewrite cpp_value, (cpp_product a b).
    exists (lo64 (cpp_r1 a b)). rewrite gf_poly_split.
    assert (E : cpp_r1 a b = N.lxor (lo64 (cpp_r1 a b)) (pmul (2 ^ 64) (hi64 (cpp_r1 a b)))) by apply lo_hi.
    revert E. generalize (hi64 (cpp_r1 a b)). generalize (lo64 (cpp_r1 a b)).
    generalize (cpp_r1 a b) (cpp_r0 a b) (2 ^ 64).
    intros r1 r0 X l h ->. ring.
Qed.

Lemma kernels_agree_iff a b : small a -> small b ->
  (cpp_gf128_mul a b = fmul a b <-> pmul a b < 2 ^ 192).
Proof.
  intros Ha Hb.
  assert (Ht : small (N.shiftr (pmul a b) 192)).
  { rewrite <- cpp_top by assumption. apply lt64_128, hi64_lt, cpp_r1_small; assumption. }
  rewrite (fmul_minus_cpp a b Ha Hb). split; intros H.
  - assert (E : fmul X192 (N.shiftr (pmul a b) 192) = 0).
    { revert H. generalize (cpp_gf128_mul a b) (fmul X192 (N.shiftr (pmul a b) 192)). intros u v H.
      assert (K : N.lxor u u = N.lxor u (N.lxor u v)) by (rewrite <- H; reflexivity).
      rewrite N.lxor_nilpotent, <- N.lxor_assoc, N.lxor_nilpotent, N.lxor_0_l in K. symmetry. exact K. }
    apply fmul_eq0 in E; [|apply X192_small|exact Ht].
    destruct E as [E|E]; [destruct (X192_neq0 E)|].
    rewrite N.shiftr_div_pow2 in E. apply N.div_small_iff in E; [exact E|].
    vm_compute. discriminate.
  - rewrite (N.shiftr_div_pow2 (pmul a b)), N.div_small by exact H.
    rewrite fmul_0_r by apply X192_small. rewrite N.lxor_0_r. reflexivity.
Qed.

(** the native kernel is still commutative and bilinear *)
Lemma lo64_lxor x y : lo64 (N.lxor x y) = N.lxor (lo64 x) (lo64 y).
Proof.
  unfold lo64, mask64. apply N.bits_inj. intros n.
  rewrite N.land_spec, !N.lxor_spec, !N.land_spec.
  destruct (N.testbit x n), (N.testbit y n), (N.testbit (N.ones 64) n); reflexivity.
Qed.
Lemma hi64_lxor x y : hi64 (N.lxor x y) = N.lxor (hi64 x) (hi64 y).
Proof. apply N.shiftr_lxor. Qed.

Lemma cpp_comm a b : cpp_gf128_mul a b = cpp_gf128_mul b a.
Proof.
  rewrite !cpp_value. unfold cpp_r0, cpp_r1.
  rewrite (pmul_comm (lo64 b) (lo64 a)), (pmul_comm (hi64 b) (hi64 a)).
  rewrite (pmul_comm (hi64 b) (lo64 a)), (pmul_comm (lo64 b) (hi64 a)).
  rewrite (N.lxor_comm (pmul (lo64 a) (hi64 b))). reflexivity.
Qed.
Lemma cpp_lxor_r a b c :
  cpp_gf128_mul a (N.lxor b c) = N.lxor (cpp_gf128_mul a b) (cpp_gf128_mul a c).
Proof.
  rewrite !cpp_value. unfold cpp_r0, cpp_r1.
  rewrite !hi64_lxor, !lo64_lxor, !pmul_lxor_r, !lo64_lxor, !hi64_lxor, !lo64_lxor.
  generalize (2 ^ 64) GF128_POLYNOMIAL. intros X Q.
  repeat match goal with |- context[lo64 (pmul ?x ?y)] => generalize (lo64 (pmul x y)); intros end.
  repeat match goal with |- context[lo64 (hi64 ?x)] => generalize (lo64 (hi64 x)); intros end.
  repeat match goal with |- context[pmul (lo64 ?x) (lo64 ?y)] => generalize (pmul (lo64 x) (lo64 y)); intros end.
  ring.
Qed.

(** ** packaging for GF128Props *)
Lemma mul_single_unique a b r : word_pair a -> word_pair b ->
  is_product (join a) (join b) r -> r = join (gf128_mul_single a b).
Proof.
  intros Ha Hb H. apply (is_product_unique (join a) (join b)); [exact H|].
  apply gf128_mul_single_correct; assumption.
Qed.

Lemma mul_single_fmul a b : word_pair a -> word_pair b ->
  join (gf128_mul_single a b) = fmul (join a) (join b).
Proof. intros Ha Hb. unfold fmul. rewrite !split_join by assumption. reflexivity. Qed.

Lemma join_inj a b : word_pair a -> word_pair b -> join a = join b -> a = b.
Proof. intros Ha Hb H. rewrite <- (split_join a Ha), H. apply split_join, Hb. Qed.

Lemma xor_pair_wp a b : word_pair a -> word_pair b -> word_pair (xor_pair a b).
Proof. intros [H1 H2] [H3 H4]. split; apply lxor_lt_pow2; assumption. Qed.
Lemma join_xor_pair a b : word_pair a -> word_pair b ->
  join (xor_pair a b) = N.lxor (join a) (join b).
Proof.
  intros Ha Hb. rewrite !join_lxor by (try apply xor_pair_wp; assumption).
  cbn [xor_pair fst snd]. rewrite N.shiftl_lxor. apply lxor4.
Qed.

Lemma mul_single_wp a b : word_pair a -> word_pair b -> word_pair (gf128_mul_single a b).
Proof. intros Ha Hb. apply gf128_mul_single_correct; assumption. Qed.

Lemma mul_single_ring :
  (forall a b, word_pair a -> word_pair b -> gf128_mul_single a b = gf128_mul_single b a) /\
  (forall a b c, word_pair a -> word_pair b -> word_pair c ->
     gf128_mul_single a (gf128_mul_single b c) = gf128_mul_single (gf128_mul_single a b) c) /\
  (forall a b c, word_pair a -> word_pair b -> word_pair c ->
     gf128_mul_single a (xor_pair b c) = xor_pair (gf128_mul_single a b) (gf128_mul_single a c)) /\
  (forall a, word_pair a -> gf128_mul_single (1, 0) a = a) /\
  (forall a, word_pair a -> a <> (0, 0) ->
     exists b, word_pair b /\ gf128_mul_single a b = (1, 0)).
Proof.
  assert (W1 : word_pair (1, 0)) by (split; vm_compute; reflexivity).
  split; [|split; [|split; [|split]]].
  - intros a b Ha Hb. apply join_inj; [apply mul_single_wp; assumption..|].
    rewrite !mul_single_fmul by assumption. apply fmul_comm; apply join_lt; assumption.
  - intros a b c Ha Hb Hc. pose proof (mul_single_wp a b Ha Hb) as Wab.
    pose proof (mul_single_wp b c Hb Hc) as Wbc.
    apply join_inj; [apply mul_single_wp; assumption..|].
    rewrite !mul_single_fmul by assumption. apply fmul_assoc; apply join_lt; assumption.
  - intros a b c Ha Hb Hc. pose proof (mul_single_wp a b Ha Hb) as Wab.
    pose proof (mul_single_wp a c Ha Hc) as Wac. pose proof (xor_pair_wp b c Hb Hc) as Wx.
    apply join_inj; [apply mul_single_wp; assumption|apply xor_pair_wp; assumption|].
    rewrite join_xor_pair, !mul_single_fmul, join_xor_pair by assumption.
    apply fmul_lxor_r; apply join_lt; assumption.
  - intros a Ha. apply join_inj; [apply mul_single_wp; assumption|exact Ha|].
    rewrite mul_single_fmul by assumption. change (join (1, 0)) with 1.
    apply fmul_1_l, join_lt, Ha.
  - intros a Ha H0. pose proof (join_lt a Ha) as Sa.
    exists (split128 (finv (join a))).
    pose proof (finv_small _ Sa) as Sf. pose proof (split_word_pair _ Sf) as Wf.
    split; [exact Wf|]. apply join_inj; [apply mul_single_wp; assumption|exact W1|].
    rewrite mul_single_fmul, join_split by assumption. change (join (1, 0)) with 1.
    apply finv_r; [exact Sa|]. intros E. apply H0. rewrite <- (split_join a Ha), E. reflexivity.
Qed.

Lemma mul_batch_pointwise a : forall b, length a = length b ->
  exists r, gf128_mul_batch a b = Some r /\ length r = length a /\
    forall i d, (i < length a)%nat ->
      nth i r d = gf128_mul_single (nth i a d) (nth i b d).
Proof.
  induction a as [|x a IH]; intros [|y b] H; try discriminate H.
  - exists []. repeat split. intros i d Hi. cbn in Hi. lia.
  - injection H as H. destruct (IH b H) as [r [E [L P]]].
    exists (gf128_mul_single x y :: r). cbn [gf128_mul_batch]. rewrite E.
    split; [reflexivity|]. split; [cbn; lia|].
    intros [|i] d Hi; [reflexivity|]. cbn [nth]. apply P. cbn in Hi. lia.
Qed.

Lemma impl_agree_iff a b : word_pair a -> word_pair b ->
  (field_mul_impl true a b = field_mul_impl false a b <-> pmul (join a) (join b) < 2 ^ 192).
Proof.
  intros Ha Hb. unfold field_mul_impl.
  pose proof (join_lt a Ha) as Sa. pose proof (join_lt b Hb) as Sb.
  rewrite <- (kernels_agree_iff _ _ Sa Sb). rewrite <- mul_single_fmul by assumption. split; intros H.
  - rewrite <- (join_split (cpp_gf128_mul (join a) (join b))) by (apply cpp_small; assumption).
    rewrite H. reflexivity.
  - rewrite H. apply split_join, mul_single_wp; assumption.
Qed.

Lemma native_bilinear a b c : word_pair a -> word_pair b -> word_pair c ->
  field_mul_impl true a b = field_mul_impl true b a /\
  field_mul_impl true a (xor_pair b c)
  = xor_pair (field_mul_impl true a b) (field_mul_impl true a c).
Proof.
  intros Ha Hb Hc. unfold field_mul_impl. split; [rewrite cpp_comm; reflexivity|].
  rewrite join_xor_pair, cpp_lxor_r by assumption. unfold split128, xor_pair. cbn [fst snd].
  f_equal; [apply lo64_lxor|apply N.shiftr_lxor].
Qed.
