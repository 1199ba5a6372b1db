(** Properties C34, C35, C70 (scicpp/core/equal.hpp, lerp of maths.hpp). *)
From Coq Require Import Reals ZArith.
From Verif Require Import Base Functional BaseFl FlFacts Equal EqualFacts.
Open Scope nat_scope.

(** C34: every tolerance; doubles with infinities and NaN (NaN is "almost equal" to NaN by design). *)
Theorem C34_almost_equal_refl_sym : forall (k : nat) (a b : fl),
  almost_equal k a a = true /\ almost_equal k a b = almost_equal k b a.
Proof. exact almost_equal_refl_sym. Qed.
Print Assumptions C34_almost_equal_refl_sym.

Theorem C34_almost_equal_array : forall (k : nat) (a b : list fl),
  (almost_equal_array k a b = true <->
   length a = length b /\ forall i x y, nth_error a i = Some x -> nth_error b i = Some y -> almost_equal k x y = true) /\
  almost_equal_array k a a = true /\ almost_equal_array k a b = almost_equal_array k b a.
Proof. exact almost_equal_array_spec. Qed.
Print Assumptions C34_almost_equal_array.

(** Two finite numbers, neither zero nor both below the tolerance, are almost equal exactly when they differ by at most
    rel_tol * 2^-53 times the magnitude of one of them. *)
Theorem C34_almost_equal_finite : forall (k : nat) (x y : Qc),
  almost_equal k (Fin x) (Fin y) = true <->
  (if qeqb x 0 || qeqb y 0 || (qltb (qabsv x) (tol64 k) && qltb (qabsv y) (tol64 k))
   then (qabsv (x - y) <= tol64 k)%Qc
   else (qabsv (x - y) <= tol64 k * qabsv x)%Qc \/ (qabsv (x - y) <= tol64 k * qabsv y)%Qc).
Proof. intros. apply fp_equal_finite, tol64_nonneg. Qed.
Print Assumptions C34_almost_equal_finite.

Example C34_nonvacuous :
  almost_equal 1 (Fin (qz 1)) (Fin (Q2Qc (1 + (1 # (2 ^ 53))))) = true /\
  almost_equal 1 (Fin (qz 1)) (Fin (Q2Qc (1 + (1 # (2 ^ 51))))) = false /\
  almost_equal 4 PInf NInf = false /\ almost_equal 4 NaN (Fin 0) = false.
Proof. repeat split; vm_compute; reflexivity. Qed.

(** C70: an infinity is almost equal to every finite non-zero number as soon as rel_tol >= 1. *)
Theorem C70_infinity_vs_finite_refuted : forall (k : nat) (x : Qc), 1 <= k -> x <> Q2Qc 0 ->
  almost_equal k PInf (Fin x) = true /\ almost_equal k (Fin x) NInf = true.
Proof. exact almost_equal_inf_any. Qed.
Print Assumptions C70_infinity_vs_finite_refuted.

(** what does hold: infinities of opposite sign differ, and an infinity differs from zero and from NaN *)
Theorem C70_infinity_partial : forall k,
  almost_equal k PInf NInf = false /\ almost_equal k PInf (Fin (Q2Qc 0)) = false /\ almost_equal k PInf NaN = false.
Proof. intros k. repeat split. Qed.
Print Assumptions C70_infinity_partial.

Open Scope R_scope.
(** C35: for every monotone rounding of +, -, * onto a set F of numbers containing 0 and 1 (exact arithmetic: rnd = id,
    F = everything; no overflow). *)
Theorem C35_lerp_any_monotone_rounding : forall (F : R -> Prop) (rnd : R -> R),
  F 0 -> F 1 -> (forall x, F x -> rnd x = x) -> (forall x y, x <= y -> rnd x <= rnd y) ->
  forall a b, F a -> F b ->
  lerp_rounded rnd a b 0 = a /\ lerp_rounded rnd a b 1 = b /\
  (forall t, 0 <= t <= 1 -> Rmin a b <= lerp_rounded rnd a b t <= Rmax a b) /\
  (forall t, 0 <= t <= 1 -> lerp_rounded rnd a a t = a) /\
  (forall t u, 0 <= t -> t <= u -> u <= 1 ->
     (a <= b -> lerp_rounded rnd a b t <= lerp_rounded rnd a b u) /\
     (b <= a -> lerp_rounded rnd a b u <= lerp_rounded rnd a b t)).
Proof.
  intros F rnd F0 F1 HF Hm a b Fa Fb.
  destruct (lerp_ends F rnd F0 F1 HF a b Fa Fb) as [E1 E2].
  split; [exact E1|]. split; [exact E2|].
  split; [intros; now apply (lerp_between F rnd)|]. split; [intros; now apply (lerp_same F rnd)|].
  intros; now apply (lerp_mono F rnd).
Qed.
Print Assumptions C35_lerp_any_monotone_rounding.

(** IEEE binary64, round to nearest even, in the absence of overflow *)
Theorem C35_lerp_binary64 : forall a b, b64_format a -> b64_format b ->
  lerp_b64 a b 0 = a /\ lerp_b64 a b 1 = b /\
  (forall t, 0 <= t <= 1 -> Rmin a b <= lerp_b64 a b t <= Rmax a b) /\
  (forall t, 0 <= t <= 1 -> lerp_b64 a a t = a) /\
  (forall t u, 0 <= t -> t <= u -> u <= 1 ->
     (a <= b -> lerp_b64 a b t <= lerp_b64 a b u) /\ (b <= a -> lerp_b64 a b u <= lerp_b64 a b t)).
Proof. exact lerp_b64_spec. Qed.
Print Assumptions C35_lerp_binary64.

(** In exact arithmetic lerp is the affine interpolation for every t (inside and outside [0,1]). *)
Theorem C35_lerp_affine : forall a b t : Qc, qlerp a b t = (a + t * (b - a))%Qc.
Proof. exact qlerp_affine. Qed.
Print Assumptions C35_lerp_affine.

Example C35_nonvacuous : b64_format 1 /\ b64_format 0 /\ this (qlerp (qz 2) (qz 10) (Q2Qc (1 # 4))) = 4%Q.
Proof. split; [exact b64_1|]. split; [exact b64_0|]. reflexivity. Qed.
