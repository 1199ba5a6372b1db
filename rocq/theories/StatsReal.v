(** Standard deviation, standard error, skewness, kurtosis and geometric mean (scicpp/core/stats.hpp), over the real numbers:
    the generic model of Stats.v instantiated with exact real arithmetic and the real sqrt, exp and log.
    The values the code represents by NaN and +inf are parameters [nan] and [inf] (arbitrary reals): theorems never depend on them.
    Because NaN does not propagate through real arithmetic, only the unfiltered overloads (filter = filters::all) are claimed;
    the filtered variances and moments are treated with NaN in Stats.v. *)
From Coq Require Import ZArith Reals Lra Field.
From Verif Require Import Base Functional FunctionalProofs Spec Numeric BaseFl Maths Stats StatsMoments.
Open Scope nat_scope.
Set Implicit Arguments.

Section RealStats.
Variables (nan inf : R).
Let rid := fun x : R => x.

(** stats.hpp:308-331 *)
Definition rmean_filter := mean_filter 0%R nan Rplus Rdiv INR false.
(** stats.hpp:474-503 *)
Definition rvar_filter (ddof : Z) := var_filter 0%R 1%R nan inf Rplus Rminus Rmult Rdiv rid INR IZR false rid ddof.
Definition rvar (ddof : Z) := var 0%R 1%R nan inf Rplus Rminus Rmult Rdiv rid INR IZR false rid ddof.
(** stats.hpp:570-590 *)
Definition rmoment := moment 0%R 1%R nan inf Rplus Rminus Rmult Rdiv rid INR IZR false rid.

(** stats.hpp:517-520 *)
Definition std (ddof : Z) (a : list R) : outcome R := omap sqrt (rvar ddof a).
(** stats.hpp:546-552 *)
Definition sem (ddof : Z) (a : list R) : outcome R := do v <- rvar ddof a; Ok (sqrt (v / INR (length a))).
(** stats.hpp:608-621 *)
Definition rkurtosis (fisher : bool) (f : list R) (p : R -> bool) : outcome R :=
  kurtosis 0%R 1%R nan inf Rplus Rminus Rmult Rdiv rid INR IZR false 3%R fisher f p.
(** stats.hpp:637-641 *)
Definition skew (f : list R) (p : R -> bool) : outcome R :=
  do m2 <- rmoment 2 f p;
  do m3 <- rmoment 3 f p;
  Ok (m3 / sqrt (m2 * m2 * m2))%R.

(** stats.hpp:346-360 (the branch for plain numbers): returned value and argument after the call.  [log] is a vectorized
    function, i.e. functional.hpp's map over the forwarded array. *)
Definition gmean (c : container) (vc : valcat) (f : list R) : R * list R :=
  match f with
  | [] => (nan, f)
  | _ => let '(l, f') := map1_same c vc ln f in (exp (rmean_filter l f_all), f')
  end.
(** stats.hpp:362-365: a named vector is copied by filter, a temporary is filtered in place; either way gmean gets a temporary. *)
Definition gmean_filter (f : list R) (p : R -> bool) : R := fst (gmean Vector Rvalue (filter_scicpp f p)).
End RealStats.
