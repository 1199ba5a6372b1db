(** Variance and standard deviation with every operation rounded (exact model: Stats.v), for data without NaN: stats.hpp:376-452, 474-522. *)
From Coq Require Import List Arith ZArith Reals Bool.
From Flocq Require Import Core.
From Verif Require Import Base Functional Numeric Stats FloatArith.
Import ListNotations.
Open Scope nat_scope.
Set Implicit Arguments.

Section Rounded.
Variable rnd : R -> R.
(** the values returned for an empty range (NaN) and when there are no degrees of freedom left (infinity) *)
Variables nan inf : R.
(** raw_t(int(c) - ddof) *)
Definition fl_int (z : Z) : R := rnd (IZR z).
(** stats.hpp:376-468 *)
Definition r_covariance (ddof : Z) (a b : list R) : outcome R :=
  covariance 0%R 1%R nan inf (fl_add rnd) (fl_sub rnd) (fl_mul rnd) (fl_quot rnd) (fun x => x) (fl_nat rnd) fl_int false ddof a b.
(** stats.hpp:474-503 *)
Definition r_var (ddof : Z) (a : list R) : outcome R :=
  var 0%R 1%R nan inf (fl_add rnd) (fl_sub rnd) (fl_mul rnd) (fl_quot rnd) (fun x => x) (fl_nat rnd) fl_int false (fun x => x) ddof a.
(** stats.hpp:656-678: the 2 x 2 matrix (var a, c; c, var b), c = covariance(a, b) *)
Definition r_cov (ddof : Z) (a b : list R) : outcome (R * R * R * R) :=
  cov 0%R 1%R nan inf (fl_add rnd) (fl_sub rnd) (fl_mul rnd) (fl_quot rnd) (fun x => x) (fl_nat rnd) fl_int false (fun x => x) ddof a b f_all.
(** stats.hpp:514-527 *)
Definition r_std (ddof : Z) (a : list R) : outcome R := omap (fun v => rnd (sqrt v)) (r_var ddof a).
End Rounded.
