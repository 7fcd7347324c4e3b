(** Independent specification of arithmetic in GF(2)[x] and of the quotient
    GF(2)[x] / (x^128 + x^7 + x^2 + x + 1).

    A polynomial over GF(2) is a natural number whose bit [i] is the coefficient
    of x^i.  Addition is [N.lxor].  Nothing here mentions the code under study. *)
From Coq Require Import NArith.
Local Open Scope N_scope.

(** Schoolbook product: a*b where a is read bit by bit from the least
    significant one:  (2a')*b = 2(a'*b)  and  (2a'+1)*b = b + 2(a'*b). *)
Fixpoint pmul_pos (p : positive) (b : N) : N :=
  match p with
  | xH => b
  | xO p' => N.double (pmul_pos p' b)
  | xI p' => N.lxor b (N.double (pmul_pos p' b))
  end.
Definition pmul (a b : N) : N :=
  match a with N0 => 0 | Npos p => pmul_pos p b end.

(** The field polynomial x^128 + x^7 + x^2 + x + 1. *)
Definition gf_poly : N := 2 ^ 128 + 2 ^ 7 + 2 ^ 2 + 2 ^ 1 + 1.

(** [is_product a b r]: r has degree < 128 and is congruent to a*b modulo
    [gf_poly]. *)
Definition is_product (a b r : N) : Prop :=
  r < 2 ^ 128 /\ exists q, N.lxor (pmul a b) r = pmul q gf_poly.
