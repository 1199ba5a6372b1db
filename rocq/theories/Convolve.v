(** Model of scicpp/signal/convolve.hpp (direct method). *)
From Coq Require Import ZArith.
From Verif Require Import Base Functional.
Open Scope nat_scope.

Section Convolve.
Context {T : Type}.
Variables (zero : T) (add mul : T -> T -> T).

(** convolve.hpp:47-53: the inner loop  for (j = jmn; j <= jmx; ++j) res[i] += a[j] * v[i - j];
    [cnt] is the number of iterations left. *)
Fixpoint conv_inner (a v : list T) (i j : Z) (cnt : nat) (acc : T) : outcome T :=
  match cnt with
  | O => Ok acc
  | S k => do x <- at_ub a (Z.to_nat j);
           do y <- at_ub v (Z.to_nat (i - j));
           conv_inner a v i (j + 1)%Z k (add acc (mul x y))
  end.
(** one outer iteration, convolve.hpp:48-53 *)
Definition conv_elem (a v : list T) (i : Z) : outcome T :=
  let n := Z.of_nat (length a) in
  let m := Z.of_nat (length v) in
  let jmn := if (m - 1 <=? i)%Z then (i - (m - 1))%Z else 0%Z in
  let jmx := if (i <? n - 1)%Z then i else (n - 1)%Z in
  conv_inner a v i jmn (Z.to_nat (jmx - jmn + 1)) zero.
Fixpoint conv_outer (a v : list T) (i : Z) (cnt : nat) : outcome (list T) :=
  match cnt with
  | O => Ok []
  | S k => do x <- conv_elem a v i; do r <- conv_outer a v (i + 1)%Z k; Ok (x :: r)
  end.
(** convolve.hpp:34-55 *)
Definition direct_convolve_impl (res_size : nat) (a v : list T) : outcome (list T) :=
  let n := Z.of_nat (length a) in
  let m := Z.of_nat (length v) in
  require (Z.of_nat res_size =? n + m - 1)%Z (conv_outer a v 0 res_size).
(** convolve.hpp:57-69 (std::array) and 71-83 (std::vector); the vector constructor with size
    a.size() + v.size() - 1 = SIZE_MAX throws std::length_error when both are empty. *)
Definition direct_convolve (a v : list T) : outcome (list T) :=
  if length a + length v =? 0 then Throw
  else let res_size := length a + length v - 1 in
       if length v <=? length a then direct_convolve_impl res_size a v
       else direct_convolve_impl res_size v a.
(** convolve.hpp:113-128 with method == DIRECT *)
Definition convolve (a v : list T) : outcome (list T) := direct_convolve a v.
(** convolve.hpp:134-149; [conj] is the identity for real element types *)
Definition correlate (conj : T -> T) (a v : list T) : outcome (list T) := convolve a (transform1 conj (rev v)).
End Convolve.
