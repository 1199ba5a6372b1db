(** Small independent specifications, written without reference to the model. *)
From Coq Require Import ZArith.
From Verif Require Import Base.
Set Implicit Arguments.

(** Iterated operation [op x0 (op x1 (... e))]. *)
Fixpoint bigop {T} (op : T -> T -> T) (e : T) (l : list T) : T :=
  match l with [] => e | x :: r => op x (bigop op e r) end.

(** x^n in a multiplicative monoid *)
Fixpoint rpow {T} (one : T) (mul : T -> T -> T) (x : T) (n : nat) : T :=
  match n with O => one | S m => mul x (rpow one mul x m) end.

(** n copies added *)
Fixpoint nmul {T} (zero : T) (add : T -> T -> T) (n : nat) (x : T) : T :=
  match n with O => zero | S m => add x (nmul zero add m x) end.

(** [i] is the smallest index of an element that is maximal for [lt] among the elements satisfying [valid]. *)
Definition first_extremum {T} (valid : T -> Prop) (lt : T -> T -> Prop) (a : list T) (i : nat) : Prop :=
  exists m, nth_error a i = Some m /\ valid m /\
    (forall j x, nth_error a j = Some x -> valid x -> ~ lt m x) /\
    (forall j x, j < i -> nth_error a j = Some x -> valid x -> lt x m).

(** Strict weak order on a domain [D], given by a boolean "less than" (doubles: D = "not NaN"). *)
Record strict_weak_order_on {T} (D : T -> Prop) (ltb : T -> T -> bool) : Prop := {
  swo_irrefl : forall x, D x -> ltb x x = false;
  swo_trans : forall x y z, D x -> D y -> D z -> ltb x y = true -> ltb y z = true -> ltb x z = true;
  swo_negtrans : forall x y z, D x -> D y -> D z -> ltb x y = false -> ltb y z = false -> ltb x z = false }.

(** f 0 + f 1 + ... + f (n-1) *)
Fixpoint nsum {T} (zero : T) (add : T -> T -> T) (f : nat -> T) (n : nat) : T :=
  match n with O => zero | S m => add (nsum zero add f m) (f m) end.
