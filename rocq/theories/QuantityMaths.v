(** Model of the value-level functions of scicpp/core/units/maths.hpp (the power functions and fma are in Quantity.v).

    [f], [g] stand for the function of <cmath> that is called; [None] = the program does not compile. *)
From Verif Require Import Base Arith Quantity.
From Coq Require Import ZArith.
Open Scope nat_scope.
Set Implicit Arguments.

Section Maths.
  Variable T : Type.
  Variables (tadd tmul tdiv : T -> T -> T) (ofZ : Z -> T).
  Variable ev : rr -> option T.
  Variable fuel : nat.

  (** units/maths.hpp:57-70, 236-265  fabs, abs, floor, ceil, trunc, round, nearbyint, rint of a quantity: T(f(value(x))),
      in the type of x. *)
  Definition qm_same1 (f : T -> T) (a : uty) (x : T) : uty * T := (a, f x).
  (** units/maths.hpp:72-85, 144-147, 269-277  fmax, fmin, fdim, hypot, nextafter, copysign of two quantities of the same
      type *)
  Definition qm_same2 (f : T -> T -> T) (a : uty) (x y : T) : uty * T := (a, f x y).
  (** units/maths.hpp:149-152  hypot of three quantities of the same type *)
  Definition qm_same3 (f : T -> T -> T -> T) (a : uty) (x y z : T) : uty * T := (a, f x y z).

  (** units/maths.hpp:158-160  is_dimensionless_like, units.hpp:114-134  is_dimensionless: only the dimension is looked at. *)
  Definition is_dimensionless (a : uty) : bool := rr_eqb (u_dim a) one_rr.

  (** units/maths.hpp:286-333, 219-232  exp, expm1, exp2, log, log2, log10, log1p, sinc: a plain number f(value(x)) *)
  Definition qm_plain (f : T -> T) (a : uty) (x : T) : option T :=
    if is_dimensionless a then Some (f x) else None.

  (** units.hpp planar_angle: the eighth base dimension (prime_list<11>, element 8); radian has scale 1. *)
  Definition radian : option uty := base_quantity fuel 11 8 one_rr zero_ratio.

  (** units/maths.hpp:192-211  asin, acos, atan: f(value(x)) radians *)
  Definition qm_inverse_trig (f : T -> T) (a : uty) (x : T) : option (uty * T) :=
    if is_dimensionless a then match radian with Some r => Some (r, f x) | None => None end else None.

  (** units/maths.hpp:162-190  to_radian and sin, cos, tan: f(quantity_cast<radian>(x).value()) *)
  Definition to_radian (a : uty) (x : T) : option T :=
    match radian with
    | Some r => if rr_eqb (u_dim a) (u_dim r)
                then quantity_cast tadd tmul tdiv ofZ ev (fun v => v) (fun v => v) fuel a r x else None
    | None => None
    end.
  Definition qm_trig (f : T -> T) (a : uty) (x : T) : option T :=
    match to_radian a x with Some v => Some (f v) | None => None end.

  (** units/maths.hpp:337-356  norm of a real quantity: quantity_multiply<T, T>(std::norm(value(z))) *)
  Definition qm_norm (a : uty) (x : T) : option (uty * T) :=
    match ty_mul fuel a a with Some c => Some (c, tmul x x) | None => None end.

  (** units/maths.hpp:369-373  polar(r, theta): std::polar(rho, theta) is (rho cos theta, rho sin theta) *)
  Definition qm_polar (cosT sinT : T -> T) (a b : uty) (r theta : T) : option (uty * (T * T)) :=
    match to_radian b theta with
    | Some t => Some (a, (tmul r (cosT t), tmul r (sinT t)))
    | None => None
    end.
End Maths.
