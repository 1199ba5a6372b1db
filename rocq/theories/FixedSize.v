(** Model of the compile-time-size (std::array) overloads: polynomial.hpp:87-92, 197-215, 246-251, 275-291, 328-339, 354-371,
    398-438; numeric.hpp:156-190; manips.hpp:27-45; range.hpp:35-40; convolve.hpp:55-67.
    A std::array<T, N> is the list of its N elements; [res{}] is N value-initialised elements; every write is bounds checked.
    Template parameters are the lengths of the lists. A failed static_assert is [RequireFail] (the call does not compile). *)
From Coq Require Import ZArith List.
From Verif Require Import Base Functional Numeric Convolve Polynomial.
Import ListNotations.
Open Scope nat_scope.

Section Fixed.
Context {T : Type}.
Variables (zero one : T) (add sub mul div : T -> T -> T) (opp : T -> T) (ofnat : nat -> T).

(** std::array<T, N> res{} *)
Definition zero_array (n : nat) : list T := repeat zero n.

(** polynomial.hpp:87-92 / 136-141: std::array<T, (M > N ? M : N)> P{} *)
Definition polyadd_fixed (P1 P2 : list T) : outcome (list T) :=
  add_arrays add P1 P2 (zero_array (if length P2 <? length P1 then length P1 else length P2)).
Definition polysub_fixed (P1 P2 : list T) : outcome (list T) :=
  sub_arrays sub opp P1 P2 (zero_array (if length P2 <? length P1 then length P1 else length P2)).

(** convolve.hpp:55-67: res has N + M - 1 elements; for N = M = 0 that is SIZE_MAX and the type is ill-formed *)
Definition convolve_fixed (a v : list T) : outcome (list T) :=
  if length a + length v =? 0 then RequireFail
  else let n := length a + length v - 1 in
       if length v <=? length a then direct_convolve_impl zero add mul n a v
       else direct_convolve_impl zero add mul n v a.

(** polynomial.hpp:197-215: static_assert(M > 0, N > 0); three branches; [tmp] is split by two std::move *)
Definition polydiv_fixed (u v : list T) : outcome (list T * list T) :=
  let M := length u in
  let N := length v in
  if (M =? 0) || (N =? 0) then RequireFail
  else if N =? 1 then do v0 <- at_ub v 0; Ok (transform1 (fun x => div x v0) u, zero_array 1)
  else if M <? N then Ok (zero_array 1, u)
  else do tmp <- polydiv_impl one sub mul div u v;
       let q := zero_array (M - N + 1) in
       let r := zero_array (N - 1) in
       do r' <- copy_at r 0 (firstn (length r) tmp);
       do q' <- copy_at q 0 (skipn (length r) tmp);
       Ok (q', r').

(** polynomial.hpp:246-251 *)
Definition polymulx_fixed (P : list T) : outcome (list T) := copy_at (zero_array (length P + 1)) 1 P.

(** polynomial.hpp:275-291, template recursion on [pow] ([fuel] >= pow) with the array overload of polymul *)
Fixpoint polypow_fixed (fuel pow : nat) (P : list T) : outcome (list T) :=
  match fuel with
  | O => Ok [one]
  | S f =>
      if pow =? 0 then Ok [one]
      else if pow =? 1 then Ok P
      else do PP <- convolve_fixed P P;
           if pow mod 2 =? 0 then polypow_fixed f (pow / 2) PP
           else do R <- polypow_fixed f ((pow - 1) / 2) PP; convolve_fixed P R
  end.

(** polynomial.hpp:333-335: for (i = 0; i < res.size(); ++i) res[i] = T(N - 1 - i) * P[i]; [cnt] iterations left *)
Fixpoint der_fill (P : list T) (i cnt : nat) (res : list T) : outcome (list T) :=
  match cnt with
  | O => Ok res
  | S c => do x <- at_ub P i;
           do res' <- set_ub res i (mul (ofnat (length P - 1 - i)) x);
           der_fill P (S i) c res'
  end.
(** polynomial.hpp:328-339 *)
Definition polyder_once_fixed (P : list T) : outcome (list T) :=
  if length P =? 0 then RequireFail
  else der_fill P 0 (length P - 1) (zero_array (length P - 1)).
(** polynomial.hpp:354-365: recursion on the template parameter m *)
Fixpoint polyder_fixed (m : nat) (P : list T) : outcome (list T) :=
  match m with
  | O => Ok P
  | S k => if length P <=? m then Ok []
           else do P' <- polyder_once_fixed P; polyder_fixed k P'
  end.

(** polynomial.hpp:403-405: for (i = 0; i < N; ++i) res[i + 1] = P[i] / T(i + 1) *)
Fixpoint int_fill (P : list T) (i cnt : nat) (res : list T) : outcome (list T) :=
  match cnt with
  | O => Ok res
  | S c => do x <- at_ub P i;
           do res' <- set_ub res (i + 1) (div x (ofnat (i + 1)));
           int_fill P (S i) c res'
  end.
(** polynomial.hpp:399-408 *)
Definition polyint_once_fixed (P : list T) : outcome (list T) := int_fill P 0 (length P) (zero_array (length P + 1)).
(** polynomial.hpp:424-434: static_assert(N > 0) *)
Fixpoint polyint_fixed (m : nat) (P : list T) : outcome (list T) :=
  if length P =? 0 then RequireFail
  else match m with O => Ok P | S k => do P' <- polyint_once_fixed P; polyint_fixed k P' end.

(** numeric.hpp:156-167: adjacent_difference(a + 1, end, res), then res[0] = a[1] - a[0] *)
Definition diff_once_fixed (a : list T) : outcome (list T) :=
  if length a <=? 1 then Ok []
  else do res <- copy_at (zero_array (length a - 1)) 0 (adjacent_difference sub (skipn 1 a));
       do a1 <- at_ub a 1; do a0 <- at_ub a 0;
       set_ub res 0 (sub a1 a0).
(** numeric.hpp:177-190 *)
Fixpoint diff_fixed (n : nat) (a : list T) : outcome (list T) :=
  match n with O => Ok a | S m => do b <- diff_once_fixed a; diff_fixed m b end.

(** range.hpp:35-40: value-initialise then fill *)
Definition full_fixed (n : nat) (x : T) : list T := transform1 (fun _ => x) (zero_array n).
End Fixed.

(** manips.hpp:27-45, non-quantity branch: [c1], [c2] are the conversions to std::common_type_t<T1, T2>; in the quantity
    branch T1 is the result type, c1 the identity and c2 is quantity_cast<T1>. *)
Definition concatenate_fixed {A B C} (zero : C) (c1 : A -> C) (c2 : B -> C) (a1 : list A) (a2 : list B) : outcome (list C) :=
  do res <- copy_at (repeat zero (length a1 + length a2)) 0 (map c1 a1);
  copy_at res (length a1) (map c2 a2).
(** manips.hpp:47-72 (two const references, std::vector result): construct from a1, resize, copy/transform a2 behind it *)
Definition concatenate_dyn {A B C} (zero : C) (c1 : A -> C) (c2 : B -> C) (a1 : list A) (a2 : list B) : outcome (list C) :=
  copy_at (map c1 a1 ++ repeat zero (length a2)) (length a1) (map c2 a2).
