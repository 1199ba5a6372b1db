(** Model of the mutating members of quantity (quantity.hpp:269-303) as operations on a quantity variable, and of almost_equal on
    quantities (equal.hpp:75-85). Exact arithmetic of the representation, as in Quantity.v. *)
From Coq Require Import ZArith Reals List.
From Verif Require Import Base Arith Quantity.
Import ListNotations.
Open Scope nat_scope.
Set Implicit Arguments.

Section State.
Variable T : Type.
Variables (one : T) (tadd tsub tmul tdiv : T -> T -> T) (topp : T -> T) (ofZ : Z -> T) (ev : rr -> option T).
Variable fuel : nat.
(** std::is_floating_point_v<T> *)
Variable fp : bool.

(** One statement on a variable q: q += y (y a quantity of type b), q -= y, q *= s, q /= s, ++q, --q, q++, q-- *)
Inductive stmt := AddAssign (b : uty) (y : T) | SubAssign (b : uty) (y : T) | MulAssign (s : T) | DivAssign (s : T)
  | PreInc | PreDec | PostInc | PostDec.

(** New m_value of q and the value of the expression (all of q's own type).
    quantity.hpp:269-277 (+=, -=), 279-287 ( *=, /=), 292-303 (increments; postfix returns quantity(m_value++), the old value). *)
Definition step (a : uty) (x : T) (s : stmt) : option (T * T) :=
  match s with
  | AddAssign b y => match q_iadd tadd tmul tdiv ofZ ev fuel fp a b x y with Some z => Some (z, z) | None => None end
  | SubAssign b y => match q_isub tadd tsub tmul tdiv ofZ ev fuel fp a b x y with Some z => Some (z, z) | None => None end
  | MulAssign k => let z := tmul x k in Some (z, z)
  | DivAssign k => let z := tdiv x k in Some (z, z)
  | PreInc => let z := tadd x one in Some (z, z)
  | PreDec => let z := tsub x one in Some (z, z)
  | PostInc => Some (tadd x one, x)
  | PostDec => Some (tsub x one, x)
  end.
(** A sequence of such statements: final m_value and the values of the expressions *)
Fixpoint run (a : uty) (x : T) (p : list stmt) : option (T * list T) :=
  match p with
  | [] => Some (x, [])
  | s :: r => match step a x s with
              | Some (x', v) => match run a x' r with Some (y, vs) => Some (y, v :: vs) | None => None end
              | None => None
              end
  end.
(** quantity.hpp:289  unary + *)
Definition q_pos (x : T) : T := x.
End State.
Arguments PreInc {T}. Arguments PreDec {T}. Arguments PostInc {T}. Arguments PostDec {T}.

(** equal.hpp:28-51 on finite real numbers: [tol] = rel_tol * eps / 2 *)
Definition Rltb (x y : R) : bool := if Rlt_dec x y then true else false.
Definition Rleb (x y : R) : bool := if Rle_dec x y then true else false.
Definition Rzero (x : R) : bool := if Req_EM_T x 0 then true else false.
Definition fp_equal_R (tol a b : R) : bool :=
  let max_val := Rmax (Rabs a) (Rabs b) in
  if Rzero a || Rzero b || Rltb max_val tol then Rleb (Rabs (a - b)) tol
  else Rleb (Rabs (a - b)) (tol * max_val).
(** equal.hpp:75-85: almost_equal(q1.eval(), q2.eval()); the two types must have the same Dim (template deduction) *)
Definition q_almost_equal (ev : rr -> option R) (tol : R) (a b : uty) (x y : R) : option bool :=
  if rr_eqb (u_dim a) (u_dim b) then
    match q_eval Rplus Rmult Rdiv IZR ev a x, q_eval Rplus Rmult Rdiv IZR ev b y with
    | Some p, Some r => Some (fp_equal_R tol p r)
    | _, _ => None
    end
  else None.
