(** Models of scicpp/core/equal.hpp and of lerp in scicpp/core/maths.hpp. *)
From Verif Require Import Base Functional BaseFl.
Open Scope nat_scope.

(** std::max(a, b): (a < b) ? b : a *)
Definition std_max (a b : fl) : fl := if flt a b then b else a.
(** std::fpclassify(a) == FP_ZERO *)
Definition is_zero (a : fl) : bool := feq a f0.
Definition fisinf (a : fl) : bool := match a with PInf | NInf => true | _ => false end.
(** std::signbit; only used on infinities below *)
Definition fsignbit (a : fl) : bool := flt a f0.

(** equal.hpp:29-51. [tol] is the constant rel_tol * eps / 2. *)
Definition fp_equal_predicate (tol : Qc) (a b : fl) : bool :=
  if fisnan a && fisnan b then true
  else if fisinf a && fisinf b then Bool.eqb (fsignbit a) (fsignbit b)
  else let max_val := std_max (fabs_fl a) (fabs_fl b) in
       if is_zero a || is_zero b || flt max_val (Fin tol)
       then fle (fabs_fl (fsub a b)) (Fin tol)
       else fle (fabs_fl (fsub a b)) (fmul (Fin tol) max_val).

(** std::numeric_limits<double>::epsilon() = 2^-52, so tol = rel_tol * 2^-53 (equal.hpp:32-33) *)
Definition tol64 (rel_tol : nat) : Qc := (qn rel_tol * Q2Qc (1 # (2 ^ 53)))%Qc.

(** equal.hpp:59-72: scalars and complex numbers *)
Definition almost_equal (rel_tol : nat) (a b : fl) : bool := fp_equal_predicate (tol64 rel_tol) a b.
Definition almost_equal_cplx (rel_tol : nat) (a b : fl * fl) : bool :=
  almost_equal rel_tol (fst a) (fst b) && almost_equal rel_tol (snd a) (snd b).

(** std::equal with four iterators *)
Fixpoint std_equal {T} (eqv : T -> T -> bool) (a b : list T) : bool :=
  match a, b with
  | [], [] => true
  | x :: r, y :: s => eqv x y && std_equal eqv r s
  | _, _ => false
  end.
(** equal.hpp:87-93 and 95-98 *)
Definition almost_equal_array (rel_tol : nat) (a b : list fl) : bool := std_equal (almost_equal rel_tol) a b.
Definition array_equal (a b : list fl) : bool := std_equal feq a b.

(** maths.hpp:177-199 over an arbitrary scalar type with comparisons. *)
Section Lerp.
Context {T : Type}.
Variables (zero one : T) (add sub mul : T -> T -> T) (leb ltb eqb : T -> T -> bool).
Definition lerp (a b t : T) : T :=
  if (leb a zero && leb zero b) || (leb zero a && leb b zero) then add (mul t b) (mul (sub one t) a)
  else if eqb t one then b
  else let x := add a (mul t (sub b a)) in
       if Bool.eqb (ltb one t) (ltb a b)
       then (if ltb b x then x else b)
       else (if ltb x b then x else b).
(** maths.hpp:201-206 *)
Definition lerp_array (a b : list T) (t : T) : outcome (list T) := map2 (fun x y => lerp x y t) a b.
End Lerp.
