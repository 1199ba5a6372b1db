(** Automatic histogram binning: detail::bin_width, detail::outer_edges and histogram_bin_edges<method>
    (scicpp/core/histogram.hpp 30-120), over exact real arithmetic with the real sqrt, cbrt, log2.
    Simplification: no rounding; the data are finite numbers (no NaN or infinity). *)
From Coq Require Import ZArith Reals List.
From Verif Require Import Base Functional Numeric RangeManips Stats Histogram StatsReal.
From Coq Require Import Lra.
Open Scope nat_scope.
Set Implicit Arguments.

(** histogram.hpp:30 *)
Inductive BinEdgesMethod := SCOTT | SQRT | RICE | STURGES | FD | DOANE | AUTO.

(** std::cbrt and std::log2 *)
Definition cbrt (x : R) : R :=
  if Rlt_dec 0 x then exp (ln x / 3) else if Rlt_dec x 0 then (- exp (ln (- x) / 3))%R else 0%R.
Definition log2 (x : R) : R := (ln x / ln 2)%R.
(** operator< on numbers *)
Definition rlt (a b : R) : bool := if Rlt_dec a b then true else false.
(** fpclassify(x) == FP_ZERO *)
Definition rzero (a : R) : bool := if Req_EM_T a 0 then true else false.
(** size_t(std::ceil(r)) before the range check *)
Definition rceil (r : R) : Z := (- Int_part (- r))%Z.
(** std::max *)
Definition rmax2 (a b : R) : R := if Rlt_dec a b then b else a.

(** equal.hpp:29-51 for finite double arguments and rel_tol = 1: tol = eps/2 = 2^-53 *)
Definition rtol : R := (/ 2 ^ 53)%R.
Definition raeq (a b : R) : bool :=
  let max_val := rmax2 (Rabs a) (Rabs b) in
  if rzero a || rzero b || rlt max_val rtol
  then negb (rlt rtol (Rabs (a - b)))
  else negb (rlt (rtol * max_val) (Rabs (a - b))).

Section Binning.
(** [nan] and [inf] are the values standing for NaN and +inf in the models of amin, amax, ptp and std (not produced here);
    [iqr] is stats.hpp's interquartile range of a const array (its own model, Stats.iqr_const, is over the rationals). *)
Variables (nan inf : R) (iqr : list R -> R).

(** stats.hpp:637-641; the quotient is NaN when the variance is zero (0/0): None. *)
Definition skew_nan (x : list R) : outcome (option R) :=
  do m2 <- rmoment nan inf 2 x f_all;
  do g <- skew nan inf x f_all;
  Ok (if rzero m2 then None else Some g).

(** histogram.hpp:34-78.  [ptp] is stats.hpp:66-73. *)
Definition bin_width_simple (m : BinEdgesMethod) (x : list R) : outcome R :=
  let n := INR (length x) in
  match m with
  | SQRT => Ok (ptp nan rlt Rminus x / sqrt n)%R
  | SCOTT => do s <- std nan inf 0 x; Ok (cbrt (24 * sqrt PI / n) * s)%R
  | RICE => Ok (1 / 2 * ptp nan rlt Rminus x / cbrt n)%R
  | STURGES => Ok (ptp nan rlt Rminus x / (log2 n + 1))%R
  | FD => Ok (2 * iqr x / cbrt n)%R
  | DOANE =>
      if length x <=? 2 then Ok 0%R
      else let sg1 := sqrt (6 * INR (length x - 2) / INR ((length x + 1) * (length x + 3))) in
           do g1 <- skew_nan x;
           match g1 with
           | None => Ok 0%R
           | Some g => Ok (ptp nan rlt Rminus x / (1 + log2 n + log2 (1 + Rabs g / sg1)))%R
           end
  | AUTO => UB (* not reached: see bin_width *)
  end.
Definition bin_width (m : BinEdgesMethod) (x : list R) : outcome R :=
  require (negb (length x =? 0))
  (match m with
   | AUTO =>
       do fd_bw <- bin_width_simple FD x;
       do sturges_bw <- bin_width_simple STURGES x;
       if rzero fd_bw then Ok sturges_bw else Ok (Rmin fd_bw sturges_bw)
   | _ => bin_width_simple m x
   end).

(** linspace(first, last, n) allocates a std::vector<double> of n elements: more than max_size() = 2^60 - 1 throws
    std::length_error (and any size beyond the memory throws std::bad_alloc: not modelled). *)
Definition vec_linspace (a b : R) (n : Z) : outcome (list R) :=
  if (n <=? 2 ^ 60 - 1)%Z then Ok (linspace Rplus Rminus Rmult Rdiv INR a b (Z.to_nat n)) else Throw.

(** histogram.hpp:81-98 *)
Definition edges_of (x : list R) : R * R := outer_edges 0%R Rplus Rminus rlt raeq nan (1 / 2)%R 1%R x.

(** histogram.hpp:102-120.  The conversion of a number outside [0, 2^64) to std::size_t is undefined;
    n_equal_bins + 1 wraps modulo 2^64. *)
Definition histogram_bin_edges_auto (m : BinEdgesMethod) (x : list R) : outcome (list R) :=
  match x with
  | [] => vec_linspace 0 1 2
  | _ =>
      let '(first_edge, last_edge) := edges_of x in
      do width <- bin_width m x;
      if rzero width then vec_linspace first_edge last_edge 2
      else let c := rceil ((last_edge - first_edge) / width) in
           if ((0 <=? c) && (c <? 2 ^ 64))%Z then vec_linspace first_edge last_edge ((c + 1) mod 2 ^ 64)
           else UB
  end.
End Binning.
