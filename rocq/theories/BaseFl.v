(** Idealised floating-point numbers: exact rationals plus the IEEE special values.
    Simplifications: no rounding, no overflow, no signed zero (0 behaves as +0). *)
From Verif Require Import Base.
From Verif Require Export BaseQc.
Open Scope Qc_scope.

Inductive fl := Fin (x : Qc) | PInf | NInf | NaN.

Definition fneg (a : fl) : fl :=
  match a with Fin x => Fin (- x) | PInf => NInf | NInf => PInf | NaN => NaN end.
Definition fadd (a b : fl) : fl :=
  match a, b with
  | NaN, _ | _, NaN => NaN
  | Fin x, Fin y => Fin (x + y)
  | PInf, NInf | NInf, PInf => NaN
  | PInf, _ | _, PInf => PInf
  | NInf, _ | _, NInf => NInf
  end.
Definition fsub (a b : fl) : fl := fadd a (fneg b).
(** infinity times a finite number *)
Definition inf_times (pos : bool) (y : Qc) : fl :=
  match (y ?= 0) with
  | Eq => NaN | Gt => if pos then PInf else NInf | Lt => if pos then NInf else PInf
  end.
Definition fmul (a b : fl) : fl :=
  match a, b with
  | NaN, _ | _, NaN => NaN
  | Fin x, Fin y => Fin (x * y)
  | PInf, Fin y | Fin y, PInf => inf_times true y
  | NInf, Fin y | Fin y, NInf => inf_times false y
  | PInf, PInf | NInf, NInf => PInf
  | PInf, NInf | NInf, PInf => NInf
  end.
Definition fdiv (a b : fl) : fl :=
  match a, b with
  | NaN, _ | _, NaN => NaN
  | Fin x, Fin y =>
      if qeqb y 0 then (match x ?= 0 with Eq => NaN | Gt => PInf | Lt => NInf end) else Fin (x / y)
  | Fin _, PInf | Fin _, NInf => Fin 0
  | PInf, Fin y => if qltb y 0 then NInf else PInf
  | NInf, Fin y => if qltb y 0 then PInf else NInf
  | _, _ => NaN
  end.
(** a < b, a <= b, a == b: false as soon as one operand is NaN. *)
Definition flt (a b : fl) : bool :=
  match a, b with
  | NaN, _ | _, NaN => false
  | Fin x, Fin y => qltb x y
  | NInf, NInf => false | NInf, _ => true
  | _, NInf => false
  | PInf, _ => false
  | Fin _, PInf => true
  end.
Definition feq (a b : fl) : bool :=
  match a, b with
  | Fin x, Fin y => qeqb x y | PInf, PInf | NInf, NInf => true | _, _ => false
  end.
Definition fle (a b : fl) : bool := flt a b || feq a b.
Definition fisnan (a : fl) : bool := match a with NaN => true | _ => false end.
Definition fabs_fl (a : fl) : fl :=
  match a with Fin x => Fin (if qltb x 0 then - x else x) | PInf | NInf => PInf | NaN => NaN end.
(** scicpp/core/functional.hpp:175 *)
Definition not_nan (a : fl) : bool := negb (fisnan a).
Definition f0 : fl := Fin 0.
Definition f1 : fl := Fin 1.

Lemma fadd_assoc_fin a b c : fadd (fadd (Fin a) (Fin b)) (Fin c) = fadd (Fin a) (fadd (Fin b) (Fin c)).
Proof. simpl. f_equal. ring. Qed.
Lemma fadd_comm a b : fadd a b = fadd b a.
Proof. destruct a, b; simpl; try reflexivity. f_equal; ring. Qed.
Lemma fadd_assoc a b c : fadd a (fadd b c) = fadd (fadd a b) c.
Proof. destruct a, b, c; simpl; try reflexivity. f_equal; ring. Qed.
Lemma fadd_0_l a : fadd f0 a = a.
Proof. destruct a; simpl; try reflexivity. f_equal; ring. Qed.
Lemma fadd_0_r a : fadd a f0 = a.
Proof. rewrite fadd_comm. apply fadd_0_l. Qed.
