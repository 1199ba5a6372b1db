(** Model of polyfit, polyroots (scicpp/polynomials/polynomial.hpp), lstsq (scicpp/linalg/solve.hpp) and interp1d
    (scicpp/core/interpolate.hpp), over the real numbers.  The Eigen algorithms they call are parameters: the least squares solver, the
    eigenvalues and the spline fit; what the theorems assume of them is stated there. *)
From Coq Require Import ZArith Reals List.
From Verif Require Import Base Spec Polynomial CplxR.
Open Scope nat_scope.
Set Implicit Arguments.

Section Fit.
(** A.fullPivHouseholderQr().solve(b): the matrix is given by its columns *)
Variable solve : list (list R) -> list R -> list R.
(** solve.hpp:14-21; Eigen asserts that b has as many rows as A ([rows] of them) *)
Definition lstsq (rows : nat) (A : list (list R)) (b : list R) : outcome (list R) :=
  require (rows =? length b) (Ok (solve A b)).
(** polynomial.hpp:533-541 *)
Definition polyfit (x y : list R) (deg : Z) : outcome (list R) :=
  do A <- polyvander 1%R Rmult x deg;
  lstsq (length x) A y.
End Fit.

Section Roots.
(** the eigenvalues of a matrix (list of rows), M.eigenvalues() *)
Variable eigenvalues : list (list cx) -> list cx.
(** complex division *)
Definition xdiv (a b : cx) : cx := xmul a (xmul (xconj b) (xre (/ xnorm2 b))).
(** polynomial.hpp:488-491, complex coefficients *)
Definition polyroots (P : list cx) : outcome (list cx) :=
  do M <- polycompanion x0 x1 xdiv xopp P;
  Ok (eigenvalues M).
(** the same for real coefficients: the companion matrix is real, its eigenvalues complex *)
Definition polyroots_real (P : list R) : outcome (list cx) :=
  do M <- polycompanion 0%R 1%R Rdiv Ropp P;
  Ok (eigenvalues (map (map xre) M)).
End Roots.

(** ** interp1d *)
(** interpolate.hpp:23: SLINEAR = 1, QUADRATIC = 2, CUBIC = 3 *)
Inductive interp_kind := SLINEAR | QUADRATIC | CUBIC.
Definition kind_degree (k : interp_kind) : nat := match k with SLINEAR => 1 | QUADRATIC => 2 | CUBIC => 3 end.
Section Interp.
(** Eigen::SplineFitting<...>::Interpolate(y, degree, parameters): the fitted function *)
Variable spline : list R -> nat -> list R -> R -> R.
(** Eigen minCoeff / maxCoeff of a non-empty array *)
Fixpoint coeff (op : R -> R -> R) (x : R) (r : list R) : R := match r with [] => x | y :: r => op x (coeff op y r) end.
(** interpolate.hpp:49-52 *)
Definition scaled_value (mn mx x : R) : R := ((x - mn) / (mx - mn))%R.
(** interpolate.hpp:32-42, 66-71.  The checks come after the fit: with x and y of different lengths the fit reads outside the shorter one;
    min and max of an empty array are undefined. *)
Definition interp1d (k : interp_kind) (x y : list R) : outcome (R -> R) :=
  match x with
  | [] => UB
  | x0 :: r =>
    let mn := coeff Rmin x0 r in
    let mx := coeff Rmax x0 r in
    if negb (length x =? length y) then UB
    else
      let s := spline y (Nat.min (length x - 1) (kind_degree k)) (map (scaled_value mn mx) x) in
      require (if Rlt_dec mn mx then true else false) (Ok (fun t => s (scaled_value mn mx t)))
  end.
(** conversion of a floating point value to int: truncation *)
Definition rtrunc (r : R) : Z := if Rle_dec 0 r then Int_part r else (- Int_part (- r))%Z.
(** interpolate.hpp:49-52 instantiated with T = int: x - T(x_min) and T(x_max) - T(x_min) are ints, and so is the quotient *)
Definition scaled_value_int (mn mx : R) (t : Z) : outcome Z :=
  let d := (rtrunc mx - rtrunc mn)%Z in if (d =? 0)%Z then UB else Ok (Z.quot (t - rtrunc mn) d).
(** interpolate.hpp:32-42, 73-80: the value of the interpolation function at an argument of type int *)
Definition interp1d_at_int (k : interp_kind) (x y : list R) (t : Z) : outcome R :=
  match x with
  | [] => UB
  | x0 :: r =>
    let mn := coeff Rmin x0 r in
    let mx := coeff Rmax x0 r in
    if negb (length x =? length y) then UB
    else
      let s := spline y (Nat.min (length x - 1) (kind_degree k)) (map (scaled_value mn mx) x) in
      require (if Rlt_dec mn mx then true else false) (do u <- scaled_value_int mn mx t; Ok (s (IZR u)))
  end.
(** interpolate.hpp:73-80 on an array *)
Definition interp1d_array (f : R -> R) (t : list R) : list R := map f t.
End Interp.
