(** Model of the operators on std::complex<quantity> (scicpp/core/units/quantity.hpp 540-763) and of norm, arg, polar of complex
    quantities (scicpp/core/units/maths.hpp 335-373), over exact complex numbers [cx] = pairs of reals.
    [None] = no overload matches (or the unit arithmetic does not compile). *)
From Verif Require Import Base Arith Quantity QuantityMaths CplxR.
From Coq Require Import ZArith Reals.
Open Scope nat_scope.
Set Implicit Arguments.

(** The operands: a number, a complex number, a quantity, a complex quantity (of type complex<quantity<.., u>>, holding its numbers). *)
Inductive operand := Num (x : R) | CNum (z : cx) | Qty (u : uty) (x : R) | CQty (u : uty) (z : cx).

(** std::complex division, exact *)
Definition xdiv (a b : cx) : cx := xmul a (fst b / xnorm2 b, - snd b / xnorm2 b)%R.

Definition same_type (a b : uty) : bool := rr_eqb (u_dim a) (u_dim b) && rr_eqb (u_scale a) (u_scale b) && ratio_eqb (u_off a) (u_off b).

Section Ops.
Variable fuel : nat.
Definition typed (t : option uty) (z : cx) : option operand := match t with Some c => Some (CQty c z) | None => None end.

(** operator*.  The values are always value(factor) * value(rhs) (the product is commutative).
    quantity.hpp:545-557, 559-575: complex<Q1> * complex<Q2>;  577-602: number * complex<Q>, complex<Q> * number (the type of
    complex<Q> is kept);  604-633: Q2 * complex<Q1> and complex<Q1> * Q2 both have type quantity_multiply<Q2, Q1>;
    635-659: the same with Q1 = Q2.  A complex number times a quantity has no overload (354-378 exclude complex). *)
Definition c_mul (p q : operand) : option operand :=
  match p, q with
  | CQty a z, CQty b w => typed (ty_mul fuel a b) (xmul w z)
  | Num x, CQty b w => Some (CQty b (xmul w (xre x)))
  | CNum z, CQty b w => Some (CQty b (xmul w z))
  | CQty a z, Num y => Some (CQty a (xmul z (xre y)))
  | CQty a z, CNum w => Some (CQty a (xmul z w))
  | Qty a x, CQty b w => typed (ty_mul fuel a b) (xmul w (xre x))
  | CQty a z, Qty b y => typed (ty_mul fuel b a) (xmul (xre y) z)
  | _, _ => None
  end.

(** operator/.  quantity.hpp:663-675: complex<Q> / number;  677-689: number / complex<Q> : complex<quantity_invert<Q>>;
    691-702, 717-730: Q1 / complex<Q2>;  704-715: complex<Q> / Q;  732-763: complex<Q1> / complex<Q2>;
    complex<Q1> / Q2 for another quantity type matches the general scalar overload 380-388: factor * rhs.inv(). *)
Definition c_div (p q : operand) : option operand :=
  match p, q with
  | CQty a z, Num y => Some (CQty a (xdiv z (xre y)))
  | CQty a z, CNum w => Some (CQty a (xdiv z w))
  | Num x, CQty b w => typed (ty_inv fuel b) (xdiv (xre x) w)
  | CNum z, CQty b w => typed (ty_inv fuel b) (xdiv z w)
  | Qty a x, CQty b w => typed (ty_div fuel a b) (xdiv (xre x) w)
  | CQty a z, CQty b w => typed (ty_div fuel a b) (xdiv z w)
  | CQty a z, Qty b y =>
      if same_type a b then typed (ty_div fuel a b) (xdiv z (xre y))
      else match ty_inv fuel b with Some c => c_mul (CQty a z) (Qty c (1 / y)%R) | None => None end
  | _, _ => None
  end.

(** units/maths.hpp:337-356: norm of a complex quantity (std::norm is the squared magnitude) *)
Definition c_norm (u : uty) (z : cx) : option (uty * R) :=
  match ty_mul fuel u u with Some c => Some (c, xnorm2 z) | None => None end.
(** units/maths.hpp:358-367: arg, in radians; [argT] is std::arg *)
Definition c_arg (argT : cx -> R) (u : uty) (z : cx) : option (uty * R) :=
  match radian fuel with Some r => Some (r, argT z) | None => None end.
End Ops.
