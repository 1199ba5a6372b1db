(** Variance, standard deviation and standard error computed in floating point: the code of stats.hpp:376-452, 474-566 (model: Stats.v) run with
    rounded operations. A value is a finite number or not ([None]: NaN or an infinity; the code only adds, subtracts and multiplies data and
    divides by counts, so an operand that is not finite gives a result that is not finite). *)
From Coq Require Import List Arith ZArith Reals Bool.
From Verif Require Import Base Functional Numeric Stats.
Import ListNotations.
Open Scope nat_scope.
Set Implicit Arguments.

Section Float.
(** rounding of an exact result, and whether it overflows *)
Variable rnd : R -> R.
Variable overflows : R -> bool.
Notation fl_num := (option R).
Definition fl_val (x : R) : fl_num := if overflows (rnd x) then None else Some (rnd x).
Definition fl_op (f : R -> R -> R) (x y : fl_num) : fl_num := match x, y with Some a, Some b => fl_val (f a b) | _, _ => None end.
Definition fl_div (x y : fl_num) : fl_num := match x, y with Some a, Some b => if Req_EM_T b 0 then None else fl_val (a / b) | _, _ => None end.
(** raw_t(n): conversion of an integer *)
Definition fl_ofn (n : nat) : fl_num := fl_val (INR n).
Definition fl_ofz (z : Z) : fl_num := fl_val (IZR z).
(** std::sqrt: not a number for a negative argument *)
Definition fl_sqrt (x : fl_num) : fl_num := match x with Some a => if Rlt_dec a 0 then None else fl_val (sqrt a) | None => None end.

(** stats.hpp:474-490 *)
Definition fl_var_n (ddof : Z) (a : list fl_num) (p : fl_num -> bool) : outcome (fl_num * nat) :=
  var_filter (Some 0%R) (Some 1%R) None None (fl_op Rplus) (fl_op Rminus) (fl_op Rmult) fl_div (fun x => x) fl_ofn fl_ofz false (fun x => x) ddof a p.
(** stats.hpp:485-496 *)
Definition fl_var (ddof : Z) (a : list fl_num) (p : fl_num -> bool) : outcome fl_num := omap fst (fl_var_n ddof a p).
(** stats.hpp:514-522 *)
Definition fl_std (ddof : Z) (a : list fl_num) (p : fl_num -> bool) : outcome fl_num := omap fl_sqrt (fl_var ddof a p).
(** stats.hpp:540-546 *)
Definition fl_sem (ddof : Z) (a : list fl_num) (p : fl_num -> bool) : outcome fl_num :=
  do (v, n) <- fl_var_n ddof a p; Ok (fl_sqrt (fl_div v (fl_ofn n))).
End Float.
