(** Model of scicpp/core/units/arithmetic.hpp.

    intmax_t values are unbounded integers, except that the two loops whose comparison operand can leave
    the intmax_t range at run time (prime_factors, is_prime) compute it with [imul], which is UB outside
    of the range.  Every other computation happens during template instantiation, where an overflow is a
    compilation error and no program exists; those are modelled on Z.
    Loops and unbounded recursions take fuel: [None] means the fuel ran out. *)
From Verif Require Import Base.
From Coq Require Import ZArith.
Open Scope nat_scope.
Set Implicit Arguments.

Definition imax : Z := (2 ^ 63 - 1)%Z.

(** Signed multiplication: overflow is undefined behaviour ([expr.pre]/4). *)
Definition imul (a b : Z) : outcome Z :=
  if ((- imax - 1 <=? a * b) && (a * b <=? imax))%Z then Ok (a * b)%Z else UB.

(** arithmetic.hpp:26-28  ct_log2.  [num < 2] returns 1 (negative and zero included); otherwise the
    argument is shifted right, so the recursion is on the binary digits. *)
Fixpoint ct_log2_pos (p : positive) : nat :=
  match p with
  | xH => 1
  | xO q => 1 + ct_log2_pos q
  | xI q => 1 + ct_log2_pos q
  end.
Definition ct_log2 (num : Z) : nat :=
  match num with Zpos p => ct_log2_pos p | _ => 1 end.

Section Power.
  Variable T : Type.
  Variables (tone : T) (tmul : T -> T -> T).

  (** arithmetic.hpp:35-43  power(a, n).  n / 2 truncates towards zero, and n % 2 == 0 only tests the parity, so
      the recursion visits the binary digits of |n| whatever the sign of n. *)
  Fixpoint ct_power_pos (a : T) (n : positive) : T :=
    match n with
    | xH => let p := tone in tmul (tmul p p) a            (* power(a, 1 / 2 = 0) = T{1} *)
    | xO q => let p := ct_power_pos a q in tmul (tmul p p) tone
    | xI q => let p := ct_power_pos a q in tmul (tmul p p) a
    end.
  Definition ct_power (a : T) (n : Z) : T :=
    match n with
    | Z0 => tone
    | Zpos p => ct_power_pos a p
    | Zneg p => ct_power_pos a p
    end.
End Power.

(** [power] on intmax_t. *)
Definition ipower (a n : Z) : Z := ct_power 1%Z Z.mul a n.

Section Newton.
  Variable T : Type.
  Variables (tzero tone : T) (tadd tmul tdiv : T -> T -> T) (teq tlt : T -> T -> bool).
  Variable ofZ : Z -> T.       (* T{N}: an integer constant converted to T *)
  Variable nan : T.            (* std::numeric_limits<T>::quiet_NaN() *)

  (** arithmetic.hpp:62-63: one Newton-Raphson step. *)
  Definition newton_step (N : Z) (x curr : T) : T :=
    tdiv (tadd (tmul (ofZ (N - 1)) curr) (tdiv x (ct_power tone tmul curr (N - 1)))) (ofZ N).

  (** arithmetic.hpp:53-64  root_newton_raphson<N>(x, curr, prev) *)
  Fixpoint root_newton_raphson (fuel : nat) (N : Z) (x curr prev : T) : option T :=
    match fuel with
    | O => None
    | S f => if teq curr prev then Some curr
             else root_newton_raphson f N x (newton_step N x curr) curr
    end.

  (** arithmetic.hpp:68-79  ct_root<N>(x) *)
  Definition ct_root (fuel : nat) (N : Z) (x : T) : option T :=
    if tlt x tzero then Some nan
    else if (N =? 1)%Z then Some x
    else root_newton_raphson fuel N x x tzero.
End Newton.

(** arithmetic.hpp:112-129  prime_factors::append.  [factors[i]] for i = factors.size() is outside the
    array. *)
Fixpoint pf_append (factors : list (Z * Z)) (prime : Z) : outcome (list (Z * Z)) :=
  match factors with
  | [] => UB
  | (p, k) :: r =>
      if (p =? 0)%Z then Ok ((prime, 1%Z) :: r)
      else if (p =? prime)%Z then Ok ((p, (k + 1)%Z) :: r)
      else do r' <- pf_append r prime; Ok ((p, k) :: r')
  end.

(** arithmetic.hpp:91-107: the loop of the constructor and the final append. *)
Fixpoint pf_loop (fuel : nat) (z num : Z) (factors : list (Z * Z)) : option (outcome (list (Z * Z))) :=
  match fuel with
  | O => None
  | S f =>
      match imul z z with
      | Ok zz =>
          if (zz <=? num)%Z then
            if (Z.rem num z =? 0)%Z then
              match pf_append factors z with
              | Ok t => pf_loop f z (Z.quot num z) t
              | e => Some e
              end
            else pf_loop f (z + 1)%Z num factors
          else Some (if (1 <? num)%Z then pf_append factors num else Ok factors)
      | _ => Some UB
      end
  end.

(** arithmetic.hpp:85-133  prime_factors<n>().values() *)
Definition prime_factors (fuel : nat) (n : Z) : option (outcome (list (Z * Z))) :=
  pf_loop fuel 2 n (repeat (0%Z, 0%Z) (ct_log2 n)).

(** arithmetic.hpp:165-174  is_exact_root.  [root] is positive in every call. *)
Definition is_exact_root (factors : list (Z * Z)) (root : Z) : bool :=
  forallb (fun f => (Z.rem (snd f) root =? 0)%Z) factors.

(** arithmetic.hpp:176-185  compute_root *)
Definition compute_root (factors : list (Z * Z)) (root : Z) : Z :=
  fold_left (fun res f => (res * ipower (fst f) (Z.quot (snd f) root))%Z) factors 1%Z.

(** std::ratio<a, b> with positive arguments: numerator and denominator divided by their gcd. *)
Record rr := RR { rr_num : Z; rr_den : Z; rr_root : Z }.

(** arithmetic.hpp:144-156  root_ratio<std::ratio<a, b>, Root>.  The static_asserts require a positive
    numerator, denominator and root ([std::ratio] makes the denominator positive). *)
Definition mk_rr (a b root : Z) : rr :=
  let s := (Z.sgn a * Z.sgn b)%Z in
  let g := Z.gcd a b in
  RR (s * (Z.abs a / g))%Z (Z.abs b / g)%Z root.

(** The static_asserts of arithmetic.hpp:146-149 together with the normal form of std::ratio. *)
Definition rr_wf (x : rr) : Prop :=
  (0 < rr_num x /\ 0 < rr_den x /\ 0 < rr_root x /\ Z.gcd (rr_num x) (rr_den x) = 1)%Z.

(** arithmetic.hpp:187-207  root_ratio_root_impl<RR, Root>.  The two factorisations run to the end
    (C62), which [None] below stands for the negation of. *)
Definition rr_root_impl (fuel : nat) (x : rr) (Root : Z) : option rr :=
  let Q := rr_num x in
  let P := rr_den x in
  let R := (rr_root x * Root)%Z in
  match prime_factors fuel Q, prime_factors fuel P with
  | Some (Ok qf), Some (Ok pf) =>
      Some (if is_exact_root qf R && is_exact_root pf R
            then mk_rr (compute_root qf R) (compute_root pf R) 1
            else mk_rr Q P R)
  | _, _ => None
  end.

(** arithmetic.hpp:209-244  root_ratio_multiply_impl<RR1, RR2> *)
Definition rr_multiply (fuel : nat) (x y : rr) : option rr :=
  let R1 := rr_root x in
  let R2 := rr_root y in
  if ((R1 =? 1) && (R2 =? 1))%Z then
    Some (mk_rr (rr_num x * rr_num y) (rr_den x * rr_den y) 1)
  else
    let G := Z.gcd R1 R2 in
    let r1 := Z.quot R1 G in
    let r2 := Z.quot R2 G in
    let Q := (ipower (rr_num x) r2 * ipower (rr_num y) r1)%Z in
    let P := (ipower (rr_den x) r2 * ipower (rr_den y) r1)%Z in
    let R := (G * r1 * r2)%Z in
    rr_root_impl fuel (mk_rr Q P R) 1.

(** arithmetic.hpp:246-250  root_ratio_divide_impl<RR1, RR2> *)
Definition rr_divide (fuel : nat) (x y : rr) : option rr :=
  rr_multiply fuel x (mk_rr (rr_den y) (rr_num y) (rr_root y)).

(** arithmetic.hpp:252-261  root_ratio_power_impl<RR, N>.  A negative N recurses without end at compile
    time (no program), so N is a natural number. *)
Fixpoint rr_power (fuel : nat) (x : rr) (N : nat) : option rr :=
  match N with
  | O => Some (mk_rr 1 1 1)
  | S n => match rr_power fuel x n with
           | Some y => rr_multiply fuel x y
           | None => None
           end
  end.

(** arithmetic.hpp:278-293  common_root_ratio<RR1, RR2> *)
Definition rr_common (fuel : nat) (x y : rr) : option rr :=
  let Q1_R2 := ipower (rr_num x) (rr_root y) in
  let Q2_R1 := ipower (rr_num y) (rr_root x) in
  let P1_R2 := ipower (rr_den x) (rr_root y) in
  let P2_R1 := ipower (rr_den y) (rr_root x) in
  let R := (rr_root x * rr_root y)%Z in
  let G_Q := Z.gcd Q1_R2 Q2_R1 in
  let G_P := Z.gcd P1_R2 P2_R1 in
  let Q := G_Q in
  let P := (Z.quot P1_R2 G_P * P2_R1)%Z in
  rr_root_impl fuel (mk_rr Q P R) 1.

(** arithmetic.hpp:312-320: the loop of is_prime. *)
Fixpoint is_prime_loop (fuel : nat) (number divisor : Z) : option (outcome bool) :=
  match fuel with
  | O => None
  | S f =>
      match imul divisor divisor with
      | Ok dd =>
          if (dd - 2 * divisor + 1 <=? number)%Z then
            if ((Z.rem number (divisor - 1) =? 0) || (Z.rem number (divisor + 1) =? 0))%Z
            then Some (Ok false)
            else is_prime_loop f number (divisor + 6)%Z
          else Some (Ok true)
      | _ => Some UB
      end
  end.

(** arithmetic.hpp:303-323  is_prime *)
Definition is_prime (fuel : nat) (number : Z) : option (outcome bool) :=
  if ((number =? 2) || (number =? 3))%Z then Some (Ok true)
  else if ((Z.rem number 2 =? 0) || (Z.rem number 3 =? 0))%Z then Some (Ok false)
  else is_prime_loop fuel number 6.

(** arithmetic.hpp:325-329  next_prime.  The same fuel bounds the number of candidates and each test. *)
Fixpoint next_prime_loop (fuel fuel0 : nat) (a : Z) : option (outcome Z) :=
  match fuel with
  | O => None
  | S f =>
      match is_prime fuel0 (a + 1)%Z with
      | Some (Ok true) => Some (Ok (a + 1)%Z)
      | Some (Ok false) => next_prime_loop f fuel0 (a + 1)%Z
      | Some _ => Some UB
      | None => None
      end
  end.
Definition next_prime (fuel : nat) (a : Z) : option (outcome Z) := next_prime_loop fuel fuel a.

(** arithmetic.hpp:331-344  prime_list<N, First>().values(): ids[0] = First, then each next_prime. *)
Fixpoint prime_list_from (fuel : nat) (k : nat) (last : Z) : option (outcome (list Z)) :=
  match k with
  | O => Some (Ok [])
  | S j =>
      match next_prime fuel last with
      | Some (Ok p) =>
          match prime_list_from fuel j p with
          | Some (Ok l) => Some (Ok (p :: l))
          | e => e
          end
      | Some _ => Some UB
      | None => None
      end
  end.
(** N = 0 would write ids[0] of an empty array. *)
Definition prime_list (fuel : nat) (N : nat) (First : Z) : option (outcome (list Z)) :=
  match N with
  | O => Some UB
  | S k => match prime_list_from fuel k First with
           | Some (Ok l) => Some (Ok (First :: l))
           | e => e
           end
  end.
