(** Arithmetic functions computed in a binary floating-point format: the generic code of numeric.hpp, stats.hpp, polynomial.hpp and range.hpp
    (models: Numeric.v, Stats.v, Polynomial.v, RangeManips.v) run with every operation rounded. Finite numbers only: overflow is not modelled here. *)
From Coq Require Import List Arith ZArith Reals Bool.
From Flocq Require Import Core.
From Verif Require Import Base Functional Numeric Stats.
Import ListNotations.
Open Scope nat_scope.
Set Implicit Arguments.

Section Rounded.
Variable rnd : R -> R.
Definition fl_add (x y : R) : R := rnd (x + y).
Definition fl_sub (x y : R) : R := rnd (x - y).
Definition fl_mul (x y : R) : R := rnd (x * y).
Definition fl_quot (x y : R) : R := rnd (x / y).
(** std::fma: one rounding *)
Definition fl_fma (x y z : R) : R := rnd (x * y + z).
(** raw_t(n): conversion of an integer *)
Definition fl_nat (n : nat) : R := rnd (INR n).

(** numeric.hpp:29-49 *)
Definition r_sum (a : list R) : R := sum 0%R fl_add false a.
(** numeric.hpp:58-78 *)
Definition r_prod (a : list R) : R := prod 1%R fl_mul false a.
(** numeric.hpp:89-99 *)
Definition r_cumsum (a : list R) : list R := cumsum fl_add a.
(** numeric.hpp:213-252 *)
Definition r_inner (a b : list R) : outcome R := inner 0%R fl_add fl_mul a b.
(** numeric.hpp:129-143 *)
Definition r_trapz (f : list R) (dx : R) : outcome R := trapz 0%R fl_add fl_mul false (/ 2)%R 2%R f dx.
(** stats.hpp:308-331; the value for an empty range (NaN) is not a number of the format, [nan] stands for it *)
Definition r_mean (nan : R) (a : list R) : R := mean 0%R nan fl_add fl_quot fl_nat false a.
(** polynomial.hpp:36-54: res = std::fma(res, x, c) from the highest coefficient *)
Definition r_polyval (x : R) (coeffs : list R) : R := fold_left (fun res c => fl_fma res x c) (rev coeffs) 0%R.

(** std::iota(first, last, T{0}): value is assigned and then incremented *)
Fixpoint r_iota_from (value : R) (n : nat) : list R :=
  match n with O => [] | S m => value :: r_iota_from (fl_add value 1%R) m end.
Definition r_iota (n : nat) : list R := r_iota_from 0%R n.
(** range.hpp:101-118: iota, step = (stop - start) / raw_t(size - 1), start + a * step *)
Definition r_linspace (start stop : R) (num : nat) : list R :=
  match num with
  | O => []
  | 1 => [start]
  | _ => let step := fl_quot (fl_sub stop start) (fl_nat (num - 1)) in
         transform1 (fun v => fl_add start v) (transform1 (fun v => fl_mul step v) (r_iota num))
  end.
(** range.hpp:187-205: the number of elements is the truncated quotient; a zero step gives an infinite or undefined quotient, whose conversion to
    std::size_t is undefined *)
Definition r_arange (start stop step : R) : outcome (list R) :=
  let num :=
    if (if Rlt_dec start stop then if Rlt_dec step 0 then true else false else false) ||
       (if Rlt_dec stop start then if Rlt_dec 0 step then true else false else false)
    then Some 0%nat
    else if Req_EM_T step 0 then None
    else Some (Z.to_nat (Ztrunc (Rabs (fl_quot (fl_sub stop start) step)))) in
  match num with
  | None => UB
  | Some n => Ok (transform1 (fun x => fl_fma x step start) (r_iota n))
  end.
End Rounded.
