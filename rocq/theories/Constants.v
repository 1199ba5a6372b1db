(** Model of scicpp/core/constants.hpp.

    A value of the floating-point type T is a real number; [rnd] rounds a real to T (for each result of an operation); overflow is
    not modelled (no intermediate value of the formulas below leaves [1e-60, 1e20]).  A decimal literal without suffix is a double:
    T(literal) rounds twice.  Types are those of Quantity.v and UnitsTable.v. *)
From Coq Require Import ZArith Reals.
From Flocq Require Import Core.
From Verif Require Import Base Arith Quantity UnitsTable.
Open Scope nat_scope.
Set Implicit Arguments.

(** Round to nearest, ties to even, for float, double and long double (x87): precision p, smallest exponent emin. *)
Definition rnd_ieee (emin prec : Z) (x : R) : R := round radix2 (FLT_exp emin prec) ZnearestE x.
Definition rnd32 : R -> R := rnd_ieee (-149) 24.
Definition rnd64 : R -> R := rnd_ieee (-1074) 53.
Definition rnd80 : R -> R := rnd_ieee (-16445) 64.

(** The decimal number n * 10^-k. *)
Definition dec (n : Z) (k : nat) : R := (IZR n / 10 ^ k)%R.

Section Constants.
Variable rnd : R -> R.

(** T(x), x a literal of type double *)
Definition lit (x : R) : R := rnd (rnd64 x).

(** constants.hpp:16-17 *)
Definition cst_pi : R := lit (dec 31415926535897932384626433832795029 34).
(** constants.hpp:19-20 *)
Definition cst_e : R := lit (dec 27182818284590452353602874713526625 34).
(** constants.hpp:22-23 *)
Definition cst_euler_gamma : R := lit (dec 5772156649015328606065120900824024310421 40).
(** constants.hpp:25-27 *)
Definition cst_apery : R := lit (dec 120205690315959428539 20).

(** A constant of a quantity type and its value; None: does not compile. *)
Definition cst := option (uty * R).
Definition rmul (x y : R) : R := rnd (x * y)%R.
Definition rdiv (x y : R) : R := rnd (x / y)%R.
Definition of_type (t : option uty) (v : R) : cst := match t with Some u => Some (u, v) | None => None end.
Definition q_times (a b : cst) : cst :=
  match a, b with Some (u, x), Some (v, y) => q_mul rmul ufuel u v x y | _, _ => None end.
Definition q_over (a b : cst) : cst :=
  match a, b with Some (u, x), Some (v, y) => q_div rdiv ufuel u v x y | _, _ => None end.
(** number * quantity, quantity / number, number / quantity: quantity.hpp:355-401 (see Quantity.v), all of type T *)
Definition n_times (k : R) (b : cst) : cst :=
  match b with Some (v, y) => Some (v, q_smul (fun t => t) (fun t => t) rmul k y) | None => None end.
Definition q_over_n (a : cst) (k : R) : cst :=
  match a with Some (u, x) => Some (u, q_divs 1%R rdiv (fun t => t) (fun t => t) rmul x k) | None => None end.
Definition n_over (k : R) (b : cst) : cst :=
  match b with Some (v, y) => q_sdiv (fun t => t) (fun t => t) rmul 1%R rdiv ufuel v k y | None => None end.

Local Notation one := one_rr.
(** constants.hpp:40 *)
Definition pc_c : cst := of_type (speed one) (rnd 299792458).
(** constants.hpp:43-48 *)
Definition pc_G : cst := of_type (qdiv (volume one) (qmul (mass one) (qmul (time one) (time one)))) (lit (dec 667430 16)).
(** constants.hpp:51-53 *)
Definition pc_h : cst := of_type (qmul (energy one) (time one)) (lit (dec 662607015 42)).
(** constants.hpp:54  h / (T{2} * pi<T>) *)
Definition pc_hbar : cst := q_over_n pc_h (rmul 2 cst_pi).
(** constants.hpp:57 *)
Definition pc_e : cst := of_type (electric_charge one) (lit (dec 1602176634 28)).
(** constants.hpp:60 *)
Definition pc_m_e : cst := of_type (mass one) (lit (dec 91093837015 41)).
(** constants.hpp:63 *)
Definition pc_m_p : cst := of_type (mass one) (lit (dec 167262192369 38)).
(** constants.hpp:66 *)
Definition alpha : R := lit (dec 72973525693 13).
(** constants.hpp:69  T{2} * alpha * h / (e * e * c) *)
Definition pc_mu0 : cst := q_over (n_times (rmul 2 alpha) pc_h) (q_times (q_times pc_e pc_e) pc_c).
(** constants.hpp:72  T{1} / (mu0 * c * c) *)
Definition pc_epsilon0 : cst := n_over 1 (q_times (q_times pc_mu0 pc_c) pc_c).
(** constants.hpp:75  T{2} * e / h *)
Definition pc_K_J : cst := q_over (n_times 2 pc_e) pc_h.
(** constants.hpp:78  h / (e * e) *)
Definition pc_R_K : cst := q_over pc_h (q_times pc_e pc_e).
(** constants.hpp:81  T{1} / K_J *)
Definition pc_Phi0 : cst := n_over 1 pc_K_J.
(** constants.hpp:84  T{0.5} * e * hbar / m_e *)
Definition pc_muB : cst := q_over (q_times (n_times (1 / 2) pc_e) pc_hbar) pc_m_e.
(** constants.hpp:87  T{0.5} * e * hbar / m_p *)
Definition pc_muN : cst := q_over (q_times (n_times (1 / 2) pc_e) pc_hbar) pc_m_p.
(** constants.hpp:90  T{0.5} * alpha * alpha * m_e * c / h *)
Definition pc_Rinf : cst := q_over (q_times (n_times (rmul (rmul (1 / 2) alpha) alpha) pc_m_e) pc_c) pc_h.
(** constants.hpp:93  hbar / (alpha * m_e * c) *)
Definition pc_a0 : cst := q_over pc_hbar (q_times (n_times alpha pc_m_e) pc_c).
(** constants.hpp:96-98 *)
Definition pc_k : cst := of_type (qdiv (energy one) (temperature one zero_ratio)) (lit (dec 1380649 29)).
End Constants.
(** constants.hpp:101-103: phys_cst_f, phys_cst and phys_cst_l are the instances rnd32, rnd64 and rnd80. *)
