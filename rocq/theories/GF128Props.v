(** Property theorems about field.mul (C01, C02). *)
From Coq Require Import NArith List.
From Verif Require Import GF128Spec GF128Model GF128Field GF128Proofs.
Local Open Scope N_scope.

(** C01: for all 64-bit word pairs a, b the Python kernel returns 64-bit words
    representing the unique polynomial of degree < 128 congruent to a*b modulo
    x^128+x^7+x^2+x+1. *)
Theorem C01_mul_is_product_mod_poly :
  forall a b, word_pair a -> word_pair b ->
    word_pair (gf128_mul_single a b) /\
    is_product (join a) (join b) (join (gf128_mul_single a b)) /\
    (forall r, is_product (join a) (join b) r -> r = join (gf128_mul_single a b)).
Proof.
  exact (fun a b Ha Hb =>
    conj (proj1 (gf128_mul_single_correct a b Ha Hb))
   (conj (proj2 (gf128_mul_single_correct a b Ha Hb))
         (fun r => mul_single_unique a b r Ha Hb))).
Qed.
Print Assumptions C01_mul_is_product_mod_poly.

(** C01: with xor as addition it is a field: commutative, associative,
    distributive, unit 1, and every nonzero element is invertible. *)
Theorem C01_field_laws :
  (forall a b, word_pair a -> word_pair b -> gf128_mul_single a b = gf128_mul_single b a) /\
  (forall a b c, word_pair a -> word_pair b -> word_pair c ->
     gf128_mul_single a (gf128_mul_single b c) = gf128_mul_single (gf128_mul_single a b) c) /\
  (forall a b c, word_pair a -> word_pair b -> word_pair c ->
     gf128_mul_single a (xor_pair b c) = xor_pair (gf128_mul_single a b) (gf128_mul_single a c)) /\
  (forall a, word_pair a -> gf128_mul_single (1, 0) a = a) /\
  (forall a, word_pair a -> a <> (0, 0) ->
     exists b, word_pair b /\ gf128_mul_single a b = (1, 0)).
Proof. exact mul_single_ring. Qed.
Print Assumptions C01_field_laws.

(** C01: the batch entry point multiplies element by element. *)
Theorem C01_batch_pointwise :
  forall a b, length a = length b ->
  exists r, gf128_mul_batch a b = Some r /\ length r = length a /\
    forall i d, (i < length a)%nat ->
      nth i r d = gf128_mul_single (nth i a d) (nth i b d).
Proof. exact mul_batch_pointwise. Qed.
Print Assumptions C01_batch_pointwise.

(** Non-vacuity: x^127 and x^127 + 1 are word pairs; their product is nontrivial. *)
Example C01_example :
  word_pair (0, 2 ^ 63) /\ word_pair (1, 2 ^ 63) /\
  join (gf128_mul_single (0, 2 ^ 63) (1, 2 ^ 63)) = 85070591730234615865843651857942057063.
Proof. repeat split; vm_compute; reflexivity. Qed.

(** C145 (refuted): the native kernel does not agree with the Python kernel; it maps
    x^127 * x^127 to 0, so it is not a field multiplication at all. *)
Theorem C145_native_kernel_agrees_refuted :
  exists a b, word_pair a /\ word_pair b /\ a <> (0, 0) /\ b <> (0, 0) /\
    field_mul_impl true a b = (0, 0) /\
    field_mul_impl true a b <> field_mul_impl false a b /\
    ~ is_product (join a) (join b) (join (field_mul_impl true a b)).
Proof.
  exists (0, 2 ^ 63), (0, 2 ^ 63).
  split; [split; vm_compute; reflexivity|]. split; [split; vm_compute; reflexivity|].
  split; [discriminate|]. split; [discriminate|].
  split; [vm_compute; reflexivity|]. split; [vm_compute; discriminate|].
  intros H. apply mul_single_unique in H; [|split; vm_compute; reflexivity|split; vm_compute; reflexivity].
  revert H. vm_compute. discriminate.
Qed.
Print Assumptions C145_native_kernel_agrees_refuted.

(** C02: exact domain of agreement: the two kernels agree on (a,b) iff the
    unreduced product has degree < 192. *)
Theorem C02_kernels_agree_exactly_below_192 :
  forall a b, word_pair a -> word_pair b ->
  (field_mul_impl true a b = field_mul_impl false a b <-> pmul (join a) (join b) < 2 ^ 192).
Proof. exact impl_agree_iff. Qed.
Print Assumptions C02_kernels_agree_exactly_below_192.

(** C02: the native kernel is nevertheless commutative and bilinear, which is all
    that the VOLE identities (C09, C10) use. *)
Theorem C02_native_kernel_bilinear :
  forall a b c, word_pair a -> word_pair b -> word_pair c ->
  field_mul_impl true a b = field_mul_impl true b a /\
  field_mul_impl true a (xor_pair b c)
  = xor_pair (field_mul_impl true a b) (field_mul_impl true a c).
Proof. exact native_bilinear. Qed.
Print Assumptions C02_native_kernel_bilinear.

Example C02_example_agree :
  word_pair (5, 7) /\ word_pair (9, 0) /\
  field_mul_impl true (5, 7) (9, 0) = field_mul_impl false (5, 7) (9, 0).
Proof. repeat split; vm_compute; reflexivity. Qed.
