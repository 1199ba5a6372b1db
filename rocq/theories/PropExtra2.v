(** Further theorems for C68 (unary + and - of a quantity), C73 (ifft of real numbers), C121 (eval of a floating-point quantity). *)
From Coq Require Import ZArith Reals Bool.
From Flocq Require Import Core Mult_error Relative.
From Verif Require Import Base Functional FunctionalProofs Spec SumLib CplxR Fft FftFacts FftConv FftConvFacts.
From Verif Require Import Arith ArithValue Quantity QuantityState QuantityFacts QuantityInt UnitsSpec PropUnits FloatArith FloatArithFacts PropFloatArith FloatVarFacts PropFloatVar FloatWindowsFacts PropFloatWindows FloatUnits FloatUnitsFacts PropFloatUnits.
From Coq Require Import Lra Psatz Lia.
Open Scope R_scope.

(** ** C68: -q and +q *)
Theorem C68_unary_partial : forall a x, unit_ok a -> offset a = 0 ->
  physical a (q_neg Ropp x) = - physical a x /\ physical a (q_pos x) = physical a x.
Proof.
  intros a x _ O. unfold q_neg, q_pos. split; [|reflexivity]. change (scale a * - x + offset a = - (scale a * x + offset a)). rewrite O. ring.
Qed.
Print Assumptions C68_unary_partial.
(** with an offset the number is negated, not the physical quantity: -(0 degrees Celsius) is 0 degrees Celsius, 273.15 K and not -273.15 K *)
Theorem C68_unary_refuted : forall x, physical celsius (q_neg Ropp x) <> - physical celsius x.
Proof.
  intros x. unfold q_neg, physical, celsius. cbn. replace (IZR 1 / IZR 1) with 1 by lra. replace (/ 1) with 1 by lra. rewrite Rpower_1 by lra. lra.
Qed.
Print Assumptions C68_unary_refuted.
Example C68_unary_nonvacuous : unit_ok kilometre /\ offset kilometre = 0 /\ physical kilometre (q_neg Ropp 2) = -2000.
Proof.
  assert (U : unit_ok kilometre) by (vm_compute; intuition congruence).
  assert (O : offset kilometre = 0) by (unfold offset; cbn; lra).
  split; [exact U|]. split; [exact O|]. rewrite (proj1 (C68_unary_partial _ 2 U O)).
  unfold physical, kilometre. cbn. replace (IZR 1000 / IZR 1) with 1000 by lra. replace (/ 1) with 1 by lra. rewrite Rpower_1 by lra. lra.
Qed.

(** ** C73: a real array is transformed like the complex array with the same real parts and zero imaginary parts *)
Theorem C73_ifft_real : forall (y : list R) (n : Z), (n < 0 -> y <> [])%Z -> (n <> 0)%Z ->
  ifft_r y n = ifft_c (map xre y) n /\ exists x, ifft_r y n = Ok x /\ length x = (if (n <? 0)%Z then length y else Z.to_nat n).
Proof.
  intros y n Hy Hn.
  assert (P : forall m, to_complex y m = Ok (firstn m (map xre y) ++ repeat x0 (m - length y)%nat)).
  { intros m. unfold to_complex. rewrite transform1_map. pose proof (zero_padding_const_spec x0 (map xre y) m) as E.
    unfold zero_padding_const in E. rewrite map_length in E. exact E. }
  unfold ifft_r. rewrite P. cbn [bind]. destruct (Z.ltb_spec n 0) as [L|L].
  - specialize (Hy L). assert (Ly : (1 <= length y)%nat) by (destruct y; [congruence|cbn; lia]).
    pose proof (pad_id x0 (map xre y)) as I. rewrite map_length in I. rewrite I.
    unfold ifft_c, eigen_inv_c. rewrite !map_length. destruct (Z.ltb_spec n 0); [|lia]. rewrite orb_true_r.
    destruct (Nat.eqb_spec (length y) 0); [lia|]. split; [reflexivity|]. eexists. split; [reflexivity|]. rewrite idft_length. apply map_length.
  - assert (E : n = Z.of_nat (Z.to_nat n)) by lia. rewrite E at 3. rewrite ifft_c_n by lia. rewrite map_length. unfold eigen_inv_c.
    pose proof (pad_length x0 (map xre y) (Z.to_nat n)) as LP. rewrite map_length in LP. rewrite LP.
    destruct (Nat.eqb_spec (Z.to_nat n) 0); [lia|]. split; [reflexivity|]. eexists. split; [reflexivity|]. rewrite idft_length. exact LP.
Qed.
Print Assumptions C73_ifft_real.
Example C73_ifft_real_nonvacuous : exists x, ifft_r [5; 7] 1%Z = Ok x /\ length x = 1%nat.
Proof. destruct (C73_ifft_real [5; 7] 1%Z ltac:(discriminate) ltac:(discriminate)) as [_ [x [E L]]]. exists x. split; [exact E|exact L]. Qed.

(** ** C121: value in base units *)
Theorem C121_eval : forall (prec : Z) (ties : Z -> bool) (nan : R) (fuel : nat) (a : uty) (v : R), (0 < prec)%Z -> unit_ok a -> rational_scale a ->
  exists w, fl_qeval (nearest_flx prec ties) nan fuel a v = Some w /\
    Rabs (w - physical a v) <= gamma prec 5 * (scale a * Rabs v + Rabs (offset a)).
Proof.
  intros prec ties nan fuel a v Hp Wa Ra. pose proof (flx_rd prec ties Hp) as RD. pose proof (fun x => nearest_inv prec ties x Hp) as Hi.
  assert (F1 : in_flx prec 1) by (apply (flx_integer prec 1 Hp); pose proof (Z.pow_pos_nonneg 2 prec); lia).
  pose proof Wa as (_ & Sa & Oa). pose proof Sa as (S1 & S2 & _).
  destruct (eval_root1 _ _ _ RD Hi F1 nan fuel (u_scale a) Ra S1 S2) as (s & Es & Rs & Ps & _).
  assert (Rs' : rel (uro prec) 3 s (scale a)).
  { unfold scale. rewrite Ra. replace (/ 1) with 1 by lra. rewrite Rpower_1; [exact Rs|]. apply Rdiv_lt_0_compat; apply IZR_lt; lia. }
  pose proof (off_rel _ _ _ RD Hi (u_off a) Oa) as Ro. change (ratio_val (u_off a)) with (offset a) in Ro.
  unfold fl_qeval, q_eval. rewrite Es. eexists. split; [reflexivity|]. unfold fl_add, fl_mul, fl_quot, fl_Z.
  set (o := nearest_flx prec ties (_ / _)) in *. change (physical a v) with (scale a * v + offset a).
  assert (A1 : acc (uro prec) 4 (Rabs (scale a * v)) 0 (nearest_flx prec ties (s * v)) (scale a * v)).
  { apply (rel_acc _ _ _ RD); [lra|]. apply (rel_rnd _ _ _ RD Hi 3). exact (rel_mul _ _ _ RD 3 0 _ _ _ _ Rs' (rel_0 _ _ _ RD v)). }
  assert (A2 : acc (uro prec) 4 (Rabs (offset a)) 0 o (offset a)).
  { apply (acc_weak _ _ _ RD 3 4 (Rabs (offset a)) _ 0); [lia|lra|lra|]. apply (rel_acc _ _ _ RD); [lra|exact Ro]. }
  pose proof (acc_err _ _ _ _ _ _ (acc_rnd _ _ _ RD _ _ _ _ _ (acc_add _ _ _ _ _ _ _ _ _ _ A1 A2))) as Q. rewrite Rabs_mult in Q.
  rewrite (Rabs_pos_eq (scale a)) in Q by (left; apply scale_pos). change (gamma prec 5) with (g (uro prec) 5 - 1). lra.
Qed.
Print Assumptions C121_eval.
Example C121_eval_nonvacuous : unit_ok celsius /\ rational_scale celsius /\ offset celsius <> 0.
Proof. split; [vm_compute; intuition congruence|]. split; [reflexivity|]. unfold offset. cbn. lra. Qed.
