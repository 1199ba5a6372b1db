(** Quantities whose representation is a binary floating-point type: the generic code of units/quantity.hpp (model: Quantity.v) with every
    operation rounded by [rnd].  Finite numbers only. *)
From Coq Require Import ZArith Reals Bool.
From Verif Require Import Base Arith Quantity QuantityFacts FloatArith.
Open Scope nat_scope.
Set Implicit Arguments.

Section Rounded.
Variable rnd : R -> R.
Variable nan : R.                (* a quiet NaN stands outside the format; only reached for a negative ratio *)
Variable fuel : nat.
(** T(intmax_t): conversion of an integer constant *)
Definition fl_Z (z : Z) : R := rnd (IZR z).
(** arithmetic.hpp:158-161  eval<T>(root_ratio): ct_root<Root>(T(num) / T(den)) *)
Definition fl_eval (x : rr) : option R :=
  ct_root 0%R 1%R (fl_add rnd) (fl_mul rnd) (fl_quot rnd) ReqbR RltbR fl_Z nan fuel (rr_root x) (fl_quot rnd (fl_Z (rr_num x)) (fl_Z (rr_den x))).
(** quantity.hpp:132-154  quantity_cast *)
Definition fl_cast : uty -> uty -> R -> option R :=
  quantity_cast (fl_add rnd) (fl_mul rnd) (fl_quot rnd) fl_Z fl_eval (fun x => x) (fun x => x) fuel.
(** quantity.hpp:211-265  the comparisons *)
Definition fl_eq := q_eq (fl_add rnd) (fl_mul rnd) fl_Z ReqbR.
Definition fl_ne := q_ne (fl_add rnd) (fl_mul rnd) fl_Z ReqbR.
Definition fl_lt := q_lt (fl_add rnd) (fl_mul rnd) fl_Z RltbR.
Definition fl_le := q_le (fl_add rnd) (fl_mul rnd) fl_Z RltbR.
Definition fl_gt := q_gt (fl_add rnd) (fl_mul rnd) fl_Z RltbR.
Definition fl_ge := q_ge (fl_add rnd) (fl_mul rnd) fl_Z RltbR.
(** quantity.hpp:306-320  operator+, operator- *)
Definition fl_qadd := q_add (fl_add rnd) (fl_mul rnd) (fl_quot rnd) fl_Z fl_eval fuel true.
Definition fl_qsub := q_sub (fl_add rnd) (fl_sub rnd) (fl_mul rnd) (fl_quot rnd) fl_Z fl_eval fuel true.
(** quantity.hpp:269-277  operator+=, operator-= *)
Definition fl_qiadd := q_iadd (fl_add rnd) (fl_mul rnd) (fl_quot rnd) fl_Z fl_eval fuel true.
Definition fl_qisub := q_isub (fl_add rnd) (fl_sub rnd) (fl_mul rnd) (fl_quot rnd) fl_Z fl_eval fuel true.
(** quantity.hpp:344-349  eval() *)
Definition fl_qeval := q_eval (fl_add rnd) (fl_mul rnd) (fl_quot rnd) fl_Z fl_eval.
(** quantity.hpp:355-401  factor * qty, qty / factor, factor and representation being of the same type *)
Definition fl_qmul (x k : R) : R := q_muls (fun t : R => t) (fun t : R => t) (fl_mul rnd) x k.
Definition fl_qdiv (x k : R) : R := q_divs 1%R (fl_quot rnd) (fun t : R => t) (fun t : R => t) (fl_mul rnd) x k.
(** quantity.hpp:284-287  operator/=: m_value /= rhs *)
Definition fl_qidiv (x k : R) : R := fl_quot rnd x k.
(** quantity.hpp:279-282  operator*= *)
Definition fl_qimul (x k : R) : R := fl_mul rnd x k.
End Rounded.
