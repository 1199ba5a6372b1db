(** Polynomials with floating-point coefficients (polynomial.hpp): the generic code of Polynomial.v with every operation rounded.
    Finite numbers only: overflow is not modelled here. *)
From Coq Require Import List Arith ZArith Reals Bool.
From Verif Require Import Base Functional Numeric Convolve Polynomial FloatArith.
Import ListNotations.
Open Scope nat_scope.

Section Rounded.
Variable rnd : R -> R.
(** polynomial.hpp:62-99; std::plus *)
Definition r_polyadd (P Q : list R) : outcome (list R) := polyadd 0%R (fl_add rnd) P Q.
(** polynomial.hpp:107-148; std::minus and std::negate (exact) *)
Definition r_polysub (P Q : list R) : outcome (list R) := polysub 0%R (fl_sub rnd) Ropp P Q.
(** polynomial.hpp:154-163 *)
Definition r_polymul (P Q : list R) : outcome (list R) := polymul 0%R (fl_add rnd) (fl_mul rnd) P Q.
(** polynomial.hpp:293-320 (vectors) *)
Definition r_polypow (P : list R) (n : nat) : outcome (list R) := polypow 0%R 1%R (fl_add rnd) (fl_mul rnd) P n.
(** polynomial.hpp:275-291 (std::array) *)
Definition r_polypow_array (P : list R) (n : nat) : outcome (list R) := polypow_array 0%R 1%R (fl_add rnd) (fl_mul rnd) n n P.
(** polynomial.hpp:328-391; T(N - 1 - i) converts the integer *)
Definition r_polyder (P : list R) (m : Z) : outcome (list R) := polyder (fl_mul rnd) (fl_nat rnd) P m.
(** polynomial.hpp:399-458 *)
Definition r_polyint (P : list R) (m : Z) : outcome (list R) := polyint 0%R (fl_quot rnd) (fl_nat rnd) P m.
(** polynomial.hpp:705-721 *)
Definition r_polyfromroots (roots : list R) : outcome (list R) := polyfromroots 0%R 1%R (fl_sub rnd) (fl_mul rnd) Ropp roots.
End Rounded.
