(** Model of programs that use objects of class Polynomial (polynomial.hpp:559-699): several named objects, assignment operators whose
    right-hand side may be the object itself.  An object is its coefficient vector m_coef; the store maps names to objects, and the loops of
    operator+= and operator-= read the right-hand side from the store at every step, so that an aliased operand is seen as it is at that time.
    Elements: any type with exact operations (parameters). *)
From Coq Require Import List Arith.
From Verif Require Import Base Functional Numeric Convolve Polynomial.
Import ListNotations.
Open Scope nat_scope.
Set Implicit Arguments.

Section Objects.
Context {T : Type}.
Variables (zero : T) (add sub mul : T -> T -> T) (opp : T -> T) (eqb : T -> T -> bool).

Definition store := nat -> list T.
Definition put (st : store) (x : nat) (l : list T) : store := fun v => if v =? x then l else st v.

(** for (i = pos; i < pos + cnt; ++i) x[i] = f(x[i], y[i]): std::transform of polynomial.hpp:599-603, 608-612 (std::plus<T>(rhs[i], m_coef[i])), the
    loops of 623-625 and 631-633 *)
Fixpoint update_range (f : T -> T -> T) (st : store) (x y pos cnt : nat) : outcome store :=
  match cnt with
  | O => Ok st
  | S k => do a <- at_ub (st x) pos; do b <- at_ub (st y) pos; do l <- set_ub (st x) pos (f a b);
           update_range f (put st x l) x y (S pos) k
  end.
(** the same writing f(y[i]): std::copy of 604-606, the loop of 627-629 *)
Fixpoint fill_range (f : T -> T) (st : store) (x y pos cnt : nat) : outcome store :=
  match cnt with
  | O => Ok st
  | S k => do b <- at_ub (st y) pos; do l <- set_ub (st x) pos (f b); fill_range f (put st x l) x y (S pos) k
  end.
(** polynomial.hpp:595-616 and 618-637 *)
Definition assign_op (f : T -> T -> T) (g : T -> T) (st : store) (x y : nat) : outcome store :=
  if degree_gtb (st y) (st x) then
    let old_size := length (st x) in
    let st1 := put st x (class_resize zero (st x) (length (st y))) in
    do st2 <- update_range f st1 x y 0 old_size;
    fill_range g st2 x y old_size (length (st2 x) - old_size)
  else update_range f st x y 0 (length (st y)).
Definition plus_assign := assign_op (fun a b => add b a) (fun b => b).
Definition minus_assign := assign_op sub opp.

Inductive stmt :=
| NewDegree (x deg : nat)              (* Polynomial x(deg), polynomial.hpp:568 *)
| NewCoefs (x : nat) (l : list T)      (* Polynomial x(coef), from a vector, an array, iterators or {..}: 570-581 *)
| Copy (x y : nat)                     (* x = y *)
| AddAssign (x y : nat) | SubAssign (x y : nat) | MulAssign (x y : nat)   (* x += y, x -= y, x *= y: 595-650 *)
| ScaleAssign (x : nat) (s : T)        (* x *= s: 639-645 *)
| Mulx (x : nat)                       (* x.mulx(): 587 *)
| Plus (z x y : nat) | Minus (z x y : nat) | Times (z x y : nat)          (* z = x + y, z = x - y, z = x * y: 652-668 *)
| Scale (z x : nat) (s : T).           (* z = x * s, z = s * x: 688-699 *)

(** the binary operators copy the left operand into tmp, which is not an alias of the right one *)
Definition exec (s : stmt) (st : store) : outcome store :=
  match s with
  | NewDegree x deg => Ok (put st x (repeat zero (deg + 1)))
  | NewCoefs x l => Ok (put st x l)
  | Copy x y => Ok (put st x (st y))
  | AddAssign x y => plus_assign st x y
  | SubAssign x y => minus_assign st x y
  | MulAssign x y => do l <- polymul zero add mul (st x) (st y); Ok (put st x l)
  | ScaleAssign x c => Ok (put st x (poly_scale_assign mul (st x) c))
  | Mulx x => Ok (put st x (polymulx_rvalue zero (st x)))
  | Plus z x y => do l <- poly_plus_assign zero add (st x) (st y); Ok (put st z l)
  | Minus z x y => do l <- poly_minus_assign zero sub opp (st x) (st y); Ok (put st z l)
  | Times z x y => do l <- polymul zero add mul (st x) (st y); Ok (put st z l)
  | Scale z x c => Ok (put st z (poly_scale_assign mul (st x) c))
  end.
Fixpoint run (p : list stmt) (st : store) : outcome store :=
  match p with [] => Ok st | s :: r => do st' <- exec s st; run r st' end.

(** polynomial.hpp:583 degree() (for a non-empty coefficient vector; it wraps around for an empty one), 670-672 operator== *)
Definition degree (P : list T) : nat := length P - 1.
Fixpoint same_coefs (P Q : list T) : bool :=
  match P, Q with [], [] => true | a :: p, b :: q => eqb a b && same_coefs p q | _, _ => false end.
End Objects.
Arguments NewDegree {T}. Arguments Copy {T}. Arguments AddAssign {T}. Arguments SubAssign {T}. Arguments MulAssign {T}. Arguments Mulx {T}.
Arguments Plus {T}. Arguments Minus {T}. Arguments Times {T}.
