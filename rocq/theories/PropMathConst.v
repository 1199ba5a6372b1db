(** C129: euler_gamma and apery_cst.  rnd32, rnd64, rnd80: rounding to float, double, long double (Flocq, to nearest even);
    cst_euler_gamma rnd, cst_apery rnd: the values of euler_gamma<T> and apery_cst<T> (Constants.v). *)
From Coq Require Import ZArith QArith Reals.
From Flocq Require Import Core.
From Verif Require Import Base Constants ConstFacts ConstFacts2 ConstFacts3 MathConstFacts.
From Coq Require Import Lra Psatz Lia.
Open Scope R_scope.

Lemma rnd64_euler g x : euler g -> Rabs (x - g) <= 2 / 1000000000000000000 -> rnd64 x = 5199096506725913 * bpow radix2 (-53).
Proof. intros G H. apply Rabs_le_inv in H. pose proof (Rabs_le_inv _ _ (euler_digits G)). unfold rnd64. rnd_by 0%Z (-53)%Z 5199096506725913%Z. reflexivity. Qed.
Lemma rnd32_euler g x : euler g -> Rabs (x - g) <= 1 / 1000000000000000 -> rnd32 x = 9684072 * bpow radix2 (-24).
Proof. intros G H. apply Rabs_le_inv in H. pose proof (Rabs_le_inv _ _ (euler_digits G)). unfold rnd32. rnd_by 0%Z (-24)%Z 9684072%Z. reflexivity. Qed.
Lemma rnd64_apery g x : apery g -> Rabs (x - g) <= 5 / 1000000000000000000 -> rnd64 x = 5413583021147681 * bpow radix2 (-52).
Proof. intros G H. apply Rabs_le_inv in H. pose proof (Rabs_le_inv _ _ (apery_digits G)). unfold rnd64. rnd_by 1%Z (-52)%Z 5413583021147681%Z. reflexivity. Qed.
Lemma rnd32_apery g x : apery g -> Rabs (x - g) <= 1 / 1000000000000000 -> rnd32 x = 10083584 * bpow radix2 (-23).
Proof. intros G H. apply Rabs_le_inv in H. pose proof (Rabs_le_inv _ _ (apery_digits G)). unfold rnd32. rnd_by 1%Z (-23)%Z 10083584%Z. reflexivity. Qed.
Lemma lit_euler g : euler g -> rnd64 (dec 5772156649015328606065120900824024310421 40) = 5199096506725913 * bpow radix2 (-53).
Proof. intros G. apply (rnd64_euler g); [exact G|]. pose proof (Rabs_le_inv _ _ (euler_digits G)). decz. apply Rabs_le. lra. Qed.
Lemma lit_apery z : apery z -> rnd64 (dec 120205690315959428539 20) = 5413583021147681 * bpow radix2 (-52).
Proof. intros G. apply (rnd64_apery z); [exact G|]. pose proof (Rabs_le_inv _ _ (apery_digits G)). decz. apply Rabs_le. lra. Qed.
Lemma self g e : 0 <= e -> Rabs (g - g) <= e.
Proof. intros H. now rewrite (Rminus_diag_eq _ _ eq_refl), Rabs_R0. Qed.

(** euler_gamma<double>, euler_gamma<float>: the doubles and floats nearest to the limit of 1 + 1/2 + ... + 1/n - ln n, which exists. *)
Theorem C129_euler_gamma_partial :
  (exists g, Un_cv (fun n => sum_f_R0 (fun k => / INR (k + 1)) n - ln (INR (n + 1))) g) /\
  forall g, Un_cv (fun n => sum_f_R0 (fun k => / INR (k + 1)) n - ln (INR (n + 1))) g ->
    cst_euler_gamma rnd64 = rnd64 g /\ cst_euler_gamma rnd32 = rnd32 g /\ Rabs (g - 5772156649015328606 / 10000000000000000000) <= 1 / 1000000000000000000.
Proof.
  split; [exact euler_exists|]. intros g G. assert (D := lit_euler g G). unfold cst_euler_gamma, lit. rewrite D. split; [|split; [|exact (euler_digits G)]].
  - rewrite (rnd64_euler g g G) by (apply self; lra). unfold rnd64. rnd_by 0%Z (-53)%Z 5199096506725913%Z. reflexivity.
  - rewrite (rnd32_euler g g G) by (apply self; lra). unfold rnd32. pose proof (Rabs_le_inv _ _ (euler_digits G)). rnd_by 0%Z (-24)%Z 9684072%Z. reflexivity.
Qed.
Print Assumptions C129_euler_gamma_partial.

(** apery_cst<double>, apery_cst<float>: the doubles and floats nearest to the sum of 1/n^3, n >= 1, which converges. *)
Theorem C129_apery_partial :
  (exists z, infinite_sum (fun k => / INR (k + 1) ^ 3) z) /\
  forall z, infinite_sum (fun k => / INR (k + 1) ^ 3) z ->
    cst_apery rnd64 = rnd64 z /\ cst_apery rnd32 = rnd32 z /\ Rabs (z - 12020569031595942854 / 10000000000000000000) <= 3 / 1000000000000000000.
Proof.
  split; [exact apery_exists|]. intros z G. assert (D := lit_apery z G). unfold cst_apery, lit. rewrite D. split; [|split; [|exact (apery_digits G)]].
  - rewrite (rnd64_apery z z G) by (apply self; lra). unfold rnd64. rnd_by 1%Z (-52)%Z 5413583021147681%Z. reflexivity.
  - rewrite (rnd32_apery z z G) by (apply self; lra). unfold rnd32. pose proof (Rabs_le_inv _ _ (apery_digits G)). rnd_by 1%Z (-23)%Z 10083584%Z. reflexivity.
Qed.
Print Assumptions C129_apery_partial.

(** FINDING: the literals have no suffix L: both long double constants are doubles, and not the nearest long doubles. *)
Theorem C129_long_double_refuted :
  (forall g, Un_cv (fun n => sum_f_R0 (fun k => / INR (k + 1)) n - ln (INR (n + 1))) g -> cst_euler_gamma rnd80 <> rnd80 g /\ cst_euler_gamma rnd80 = cst_euler_gamma rnd64) /\
  (forall z, infinite_sum (fun k => / INR (k + 1) ^ 3) z -> cst_apery rnd80 <> rnd80 z /\ cst_apery rnd80 = cst_apery rnd64).
Proof.
  split.
  - intros g G. pose proof (Rabs_le_inv _ _ (euler_digits G)) as B. assert (D := lit_euler g G). unfold cst_euler_gamma, lit. rewrite D.
    assert (E : rnd80 (5199096506725913 * bpow radix2 (-53)) = 5199096506725913 * bpow radix2 (-53)).
    { unfold rnd80. rnd_by 0%Z (-64)%Z 10647749645774669824%Z. repeat bp. lra. }
    rewrite E. split.
    + assert (L : rnd80 g <= rnd80 (10647749645774669808 * bpow radix2 (-64))).
      { unfold rnd80, rnd_ieee. apply round_le; [apply FLT_exp_valid; reflexivity|typeclasses eauto|]. repeat bp. lra. }
      assert (V : rnd80 (10647749645774669808 * bpow radix2 (-64)) = 10647749645774669808 * bpow radix2 (-64)).
      { unfold rnd80. rnd_by 0%Z (-64)%Z 10647749645774669808%Z. reflexivity. }
      rewrite V in L. intros Q. rewrite <- Q in L. revert L. repeat bp. lra.
    + unfold rnd64. rnd_by 0%Z (-53)%Z 5199096506725913%Z. reflexivity.
  - intros z G. pose proof (Rabs_le_inv _ _ (apery_digits G)) as B. assert (D := lit_apery z G). unfold cst_apery, lit. rewrite D.
    assert (E : rnd80 (5413583021147681 * bpow radix2 (-52)) = 5413583021147681 * bpow radix2 (-52)).
    { unfold rnd80. rnd_by 1%Z (-63)%Z 11087018027310450688%Z. repeat bp. lra. }
    rewrite E. split.
    + assert (L : rnd80 (11087018027310450696 * bpow radix2 (-63)) <= rnd80 z).
      { unfold rnd80, rnd_ieee. apply round_le; [apply FLT_exp_valid; reflexivity|typeclasses eauto|]. repeat bp. lra. }
      assert (V : rnd80 (11087018027310450696 * bpow radix2 (-63)) = 11087018027310450696 * bpow radix2 (-63)).
      { unfold rnd80. rnd_by 1%Z (-63)%Z 11087018027310450696%Z. reflexivity. }
      rewrite V in L. intros Q. rewrite <- Q in L. revert L. repeat bp. lra.
    + unfold rnd64. rnd_by 1%Z (-52)%Z 5413583021147681%Z. reflexivity.
Qed.
Print Assumptions C129_long_double_refuted.

Example C129_nonvacuous : exists g z, Un_cv (fun n => sum_f_R0 (fun k => / INR (k + 1)) n - ln (INR (n + 1))) g /\ infinite_sum (fun k => / INR (k + 1) ^ 3) z /\
  0.5 < g < 0.6 /\ 1.2 < z < 1.3.
Proof.
  destruct euler_exists as (g & G). destruct apery_exists as (z & Z). exists g, z. split; [exact G|]. split; [exact Z|].
  pose proof (Rabs_le_inv _ _ (euler_digits G)). pose proof (Rabs_le_inv _ _ (apery_digits Z)). lra.
Qed.
