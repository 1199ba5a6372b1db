(** C109: the mathematical and physical constants.  rnd32, rnd64, rnd80: rounding to float, double, long double (Flocq);
    [dec n k] is n * 10^-k; [has_dimension] (UnitsSpec.v): exponents of length, time, mass, current, temperature, ...;
    [accurate rnd u tiny]: relative error at most u for results of at least tiny (ConstFacts.v; acc32, acc64, acc80: true of the
    three formats with (2^-24, 2^-126), (2^-53, 2^-1022), (2^-53, 2^-1022)). *)
From Coq Require Import ZArith QArith Reals List.
From Flocq Require Import Core.
From Verif Require Import Base Arith Quantity UnitsSpec UnitsTable Constants ConstFacts ConstFacts2 ConstFacts3.
From Coq Require Import Lra Psatz Lia.
Open Scope nat_scope.

(** pi and e are correctly rounded in float and double *)
Theorem C109_pi_e_partial : cst_pi rnd64 = rnd64 PI /\ cst_e rnd64 = rnd64 (exp 1) /\ cst_pi rnd32 = rnd32 PI /\ cst_e rnd32 = rnd32 (exp 1).
Proof.
  assert (PL : (Rabs (dec 31415926535897932384626433832795029 34 - PI) <= 1 / 10000000000000000000)%R) by (pose proof pi_range; decz; apply Rabs_le; lra).
  assert (EL : (Rabs (dec 27182818284590452353602874713526625 34 - exp 1) <= 1 / 1000000000000000000)%R) by (pose proof e_range; decz; apply Rabs_le; lra).
  assert (PD : rnd64 (7074237752028440 * bpow radix2 (-51)) = (7074237752028440 * bpow radix2 (-51))%R) by (unfold rnd64; repeat bp; rnd_by 2%Z (-51)%Z 7074237752028440%Z; repeat bp; lra).
  assert (ED : rnd64 (6121026514868073 * bpow radix2 (-51)) = (6121026514868073 * bpow radix2 (-51))%R) by (unfold rnd64; repeat bp; rnd_by 2%Z (-51)%Z 6121026514868073%Z; repeat bp; lra).
  unfold cst_pi, cst_e, lit. rewrite (@rnd64_pi _ PL), (@rnd64_e _ EL), PD, ED. repeat split.
  - symmetry. apply rnd64_pi. rewrite (Rminus_diag_eq _ _ eq_refl), Rabs_R0. lra.
  - symmetry. apply rnd64_e. rewrite (Rminus_diag_eq _ _ eq_refl), Rabs_R0. lra.
  - rewrite (@rnd32_pi PI) by (rewrite (Rminus_diag_eq _ _ eq_refl), Rabs_R0; lra). apply rnd32_pi. pose proof pi_range. repeat bp. apply Rabs_le. lra.
  - rewrite (@rnd32_e (exp 1)) by (rewrite (Rminus_diag_eq _ _ eq_refl), Rabs_R0; lra). apply rnd32_e. pose proof e_range. repeat bp. apply Rabs_le. lra.
Qed.
Print Assumptions C109_pi_e_partial.
(** FINDING: the literals have no suffix L, so pi<long double> has the accuracy of a double only. *)
Theorem C109_long_double_refuted : cst_pi rnd80 <> rnd80 PI /\ cst_pi rnd80 = cst_pi rnd64.
Proof.
  assert (PL : (Rabs (dec 31415926535897932384626433832795029 34 - PI) <= 1 / 10000000000000000000)%R) by (pose proof pi_range; decz; apply Rabs_le; lra).
  destruct C109_pi_e_partial as [E _]. rewrite E. unfold cst_pi, lit. rewrite (@rnd64_pi _ PL), (@rnd64_pi PI) by (rewrite (Rminus_diag_eq _ _ eq_refl), Rabs_R0; lra).
  rewrite rnd80_pi64, rnd80_pi. split; repeat bp; lra.
Qed.
Print Assumptions C109_long_double_refuted.

(** Every constant has the dimension of the quantity it is named after, in SI base units, whatever the floating-point type. *)
Definition of_dimension (c : cst) (l : list Q) : Prop := exists u x, c = Some (u, x) /\ has_dimension u l /\ forall v, physical u v = v.
Theorem C109_dimension : forall rnd,
  of_dimension (pc_c rnd) [1; -(1)]%Q /\ of_dimension (pc_G rnd) [3; -(2); -(1)]%Q /\ of_dimension (pc_h rnd) [2; -(1); 1]%Q /\
  of_dimension (pc_hbar rnd) [2; -(1); 1]%Q /\ of_dimension (pc_e rnd) [0; 1; 0; 1]%Q /\ of_dimension (pc_m_e rnd) [0; 0; 1]%Q /\
  of_dimension (pc_m_p rnd) [0; 0; 1]%Q /\ of_dimension (pc_mu0 rnd) [1; -(2); 1; -(2)]%Q /\ of_dimension (pc_epsilon0 rnd) [-(3); 4; -(1); 2]%Q /\
  of_dimension (pc_K_J rnd) [-(2); 2; -(1); 1]%Q /\ of_dimension (pc_R_K rnd) [2; -(3); 1; -(2)]%Q /\ of_dimension (pc_Phi0 rnd) [2; -(2); 1; -(1)]%Q /\
  of_dimension (pc_muB rnd) [2; 0; 0; 1]%Q /\ of_dimension (pc_muN rnd) [2; 0; 0; 1]%Q /\ of_dimension (pc_Rinf rnd) [-(1)]%Q /\
  of_dimension (pc_a0 rnd) [1]%Q /\ of_dimension (pc_k rnd) [2; -(2); 1; 0; -(1)]%Q.
Proof.
  intros rnd.
  assert (K : forall c D l x, isq c D l x -> of_dimension c l) by (intros c D l x H; destruct (isq_dim H) as (u & E & G); now exists u, x).
  repeat split; eapply K; [apply q_c|apply q_G|apply q_h|apply q_hbar|apply q_e|apply q_me|apply q_mp|apply q_mu0|apply q_eps0|apply q_KJ|apply q_RK|apply q_Phi0|apply q_muB|apply q_muN|apply q_Rinf|apply q_a0|apply q_k].
Qed.
Print Assumptions C109_dimension.

(** In every format at least as precise as float the derived constants are within 40 units of relative rounding error of their defining formulas
    (muB and muN need a smaller underflow threshold: see C109_float_refuted). *)
Definition within (c : cst) (d X : R) : Prop := exists u x, c = Some (u, x) /\ (Rabs (x - X) <= d * X)%R.
Theorem C109_formulas_partial : forall rnd u tiny, (/ 2 ^ 53 <= u <= / 2 ^ 24)%R -> (0 < tiny <= / 2 ^ 126)%R -> accurate rnd u tiny ->
  let h := dec 662607015 42 in let e := dec 1602176634 28 in let m_e := dec 91093837015 41 in let m_p := dec 167262192369 38 in
  let alpha := dec 72973525693 13 in let c := 299792458%R in let hbar := (h / (2 * PI))%R in
  within (pc_c rnd) (40 * u) c /\ within (pc_h rnd) (40 * u) h /\ within (pc_e rnd) (40 * u) e /\ within (pc_m_e rnd) (40 * u) m_e /\
  within (pc_m_p rnd) (40 * u) m_p /\ within (pc_G rnd) (40 * u) (dec 667430 16) /\ within (pc_k rnd) (40 * u) (dec 1380649 29) /\
  within (pc_hbar rnd) (40 * u) hbar /\
  within (pc_mu0 rnd) (40 * u) (2 * alpha * h / (e ^ 2 * c)) /\
  within (pc_epsilon0 rnd) (40 * u) (e ^ 2 / (2 * alpha * h * c)) /\
  within (pc_K_J rnd) (40 * u) (2 * e / h) /\ within (pc_R_K rnd) (40 * u) (h / e ^ 2) /\ within (pc_Phi0 rnd) (40 * u) (h / (2 * e)) /\
  within (pc_Rinf rnd) (40 * u) (alpha ^ 2 * m_e * c / (2 * h)) /\ within (pc_a0 rnd) (40 * u) (hbar / (alpha * m_e * c)) /\
  ((tiny <= 1 / 10 ^ 63)%R -> within (pc_muB rnd) (40 * u) (e * hbar / (2 * m_e)) /\ within (pc_muN rnd) (40 * u) (e * hbar / (2 * m_p))).
Proof.
  intros rnd u tiny Hu Ht A. cbv zeta. pose proof pi_range as P. pose proof r_h as Rh. pose proof r_e as Re. pose proof r_me as Rm. pose proof r_mp as Rp. pose proof r_alpha as Ra.
  assert (K : forall c D l x X Y n, isq c D l x -> n <= 20 -> close u n x X -> X = Y -> within c (40 * u) Y).
  { intros c D l x X Y n [E _] N C <-. eexists. eexists. split; [exact E|]. eapply close_abs; eauto. }
  fold C_h C_e C_me C_mp C_alpha.
  split; [eapply K; [apply q_c| |apply (b_c Hu Ht A)|reflexivity]; lia|].
  split; [eapply K; [apply q_h| |apply (b_h Hu Ht A)|reflexivity]; lia|].
  split; [eapply K; [apply q_e| |apply (b_e Hu Ht A)|reflexivity]; lia|].
  split; [eapply K; [apply q_me| |apply (b_me Hu Ht A)|reflexivity]; lia|].
  split; [eapply K; [apply q_mp| |apply (b_mp Hu Ht A)|reflexivity]; lia|].
  split; [eapply K; [apply q_G| |apply (@cl_lit _ _ _ Hu Ht A); decz; lra|reflexivity]; lia|].
  split; [eapply K; [apply q_k| |apply (@cl_lit _ _ _ Hu Ht A); decz; lra|reflexivity]; lia|].
  assert (EH : X_hbar = (C_h / (2 * PI))%R) by (unfold X_hbar; field; lra). rewrite <- EH.
  split; [eapply K; [apply q_hbar| |apply (b_hbar Hu Ht A)|reflexivity]; lia|].
  split; [eapply K; [apply q_mu0| |apply (b_mu0 Hu Ht A)|]; [lia|unfold X_mu0, C_c; field; lra]|].
  split; [eapply K; [apply q_eps0| |apply (b_eps0 Hu Ht A)|]; [lia|rewrite X_eps0_eq; unfold C_c; field; repeat split; lra]|].
  split; [eapply K; [apply q_KJ| |apply (b_KJ Hu Ht A)|reflexivity]; lia|].
  split; [eapply K; [apply q_RK| |apply (b_RK Hu Ht A)|]; [lia|unfold X_RK; field; lra]|].
  split; [eapply K; [apply q_Phi0| |apply (b_Phi0 Hu Ht A)|]; [lia|unfold X_Phi0, X_KJ; field; lra]|].
  split; [eapply K; [apply q_Rinf| |apply (b_Rinf Hu Ht A)|]; [lia|unfold X_Rinf, C_c; field; lra]|].
  split; [eapply K; [apply q_a0| |apply (b_a0 Hu Ht A)|]; [lia|unfold X_a0, C_c; reflexivity]|].
  intros T. assert (T' : (tiny <= 1 / 1000000000000000000000000000000000000000000000000000000000000000)%R) by (rewrite pow_IZR in T; exact T).
  split; [eapply K; [apply q_muB| |apply (b_muX Hu Ht A T' (b_me Hu Ht A)); lra|]; [lia|unfold X_mu; field; lra]|].
  eapply K; [apply q_muN| |apply (b_muX Hu Ht A T' (b_mp Hu Ht A)); lra|]; [lia|unfold X_mu; field; lra].
Qed.
Print Assumptions C109_formulas_partial.

(** FINDING: in float the Bohr and the nuclear magneton are 0: e * hbar underflows. *)
Theorem C109_float_refuted : exists u u', pc_muB rnd32 = Some (u, 0%R) /\ pc_muN rnd32 = Some (u', 0%R).
Proof.
  assert (Hu : (/ 2 ^ 53 <= / 2 ^ 24 <= / 2 ^ 24)%R) by (split; [apply Rinv_le_contravar; [apply pow_lt; lra|apply Rle_pow; [lra|lia]]|lra]).
  assert (Ht : (0 < / 2 ^ 126 <= / 2 ^ 126)%R) by (split; [apply Rinv_0_lt_compat, pow_lt; lra|lra]).
  destruct (q_muB rnd32) as [E _]. destruct (q_muN rnd32) as [E' _]. rewrite E, E'.
  rewrite (muX32_zero (b_me Hu Ht acc32)), (muX32_zero (b_mp Hu Ht acc32)). eexists. eexists. split; reflexivity.
Qed.
Print Assumptions C109_float_refuted.

(** In double (and long double) the constants agree with the values published by CODATA 2018 up to the published
    standard uncertainty (hbar, K_J, R_K, Phi0 are exact: up to the last digit given here; Rinf: 1.05 standard uncertainties). *)
Definition published (c : cst) (v d : R) : Prop := exists u x, c = Some (u, x) /\ (Rabs (x - v) <= d)%R.
Theorem C109_codata : forall rnd, rnd = rnd64 \/ rnd = rnd80 ->
  published (pc_hbar rnd) (dec 10545718176 44) (dec 11 45) /\ published (pc_mu0 rnd) (dec 125663706212 17) (dec 19 17) /\
  published (pc_epsilon0 rnd) (dec 88541878128 22) (dec 13 22) /\ published (pc_K_J rnd) 483597848416984 4 /\
  published (pc_R_K rnd) (dec 2581280745930 8) (dec 2 8) /\ published (pc_Phi0 rnd) (dec 2067833848461 27) (dec 2 27) /\
  published (pc_muB rnd) (dec 92740100783 34) (dec 28 34) /\ published (pc_muN rnd) (dec 50507837461 37) (dec 15 37) /\
  published (pc_Rinf rnd) (dec 10973731568160 6) (dec 22 6) /\ published (pc_a0 rnd) (dec 529177210903 22) (dec 80 22).
Proof.
  intros rnd H.
  assert (Hu : (/ 2 ^ 53 <= / 2 ^ 53 <= / 2 ^ 24)%R) by (split; [lra|apply Rinv_le_contravar; [apply pow_lt; lra|apply Rle_pow; [lra|lia]]]).
  assert (HT : forall k, k <= 1022 -> (/ 2 ^ 1022 <= / 2 ^ k)%R) by (intros k Hk; apply Rinv_le_contravar; [apply pow_lt; lra|apply Rle_pow; [lra|lia]]).
  assert (Ht : (0 < / 2 ^ 1022 <= / 2 ^ 126)%R) by (split; [apply Rinv_0_lt_compat, pow_lt; lra|apply HT; lia]).
  assert (A : accurate rnd (/ 2 ^ 53) (/ 2 ^ 1022)) by (destruct H as [-> | ->]; [exact acc64|exact acc80]).
  assert (T' : (/ 2 ^ 1022 <= 1 / 1000000000000000000000000000000000000000000000000000000000000000)%R).
  { eapply Rle_trans; [apply (HT 300); lia|]. rewrite pow_IZR. set (z := (2 ^ Z.of_nat 300)%Z). assert (Z1 : (1000000000000000000000000000000000000000000000000000000000000000 <= z)%Z) by (vm_compute; discriminate).
    unfold Rdiv. rewrite Rmult_1_l. apply Rinv_le_contravar; [lra|]. now apply IZR_le. }
  assert (K : forall c D l x X v d d' n, isq c D l x -> n <= 20 -> close (/ 2 ^ 53) n x X -> (Rabs (X - v) <= d)%R -> (40 * / 9007199254740992 * X <= d' - d)%R -> published c v d').
  { intros c D l x X v d d' n [E _] N C V Q. eexists. eexists. split; [exact E|]. eapply near_total; [eapply close_abs; eauto|exact V|].
    rewrite pow_IZR. exact Q. }
  pose proof r_h as Rh. pose proof r_e as Re. pose proof r_me as Rm. pose proof r_mp as Rp. pose proof r_alpha as Ra.
  assert (UB : forall X v d w, (Rabs (X - v) <= d)%R -> (40 * / 9007199254740992 * (v + d) <= w)%R -> (40 * / 9007199254740992 * X <= w)%R).
  { intros X v d w V W. apply Rabs_le_inv in V. lra. }
  split; [eapply K; [apply q_hbar| |apply (b_hbar Hu Ht A)|apply cd_hbar|eapply UB; [apply cd_hbar|decz; lra]]; lia|].
  split; [eapply K; [apply q_mu0| |apply (b_mu0 Hu Ht A)|apply cd_mu0|eapply UB; [apply cd_mu0|decz; lra]]; lia|].
  split; [eapply K; [apply q_eps0| |apply (b_eps0 Hu Ht A)|apply cd_eps0|eapply UB; [apply cd_eps0|decz; lra]]; lia|].
  split; [eapply K; [apply q_KJ| |apply (b_KJ Hu Ht A)|apply cd_KJ|eapply UB; [apply cd_KJ|decz; lra]]; lia|].
  split; [eapply K; [apply q_RK| |apply (b_RK Hu Ht A)|apply cd_RK|eapply UB; [apply cd_RK|decz; lra]]; lia|].
  split; [eapply K; [apply q_Phi0| |apply (b_Phi0 Hu Ht A)|apply cd_Phi0|eapply UB; [apply cd_Phi0|decz; lra]]; lia|].
  split; [eapply K; [apply q_muB| |apply (b_muX Hu Ht A T' (b_me Hu Ht A)); lra|apply cd_muB|eapply UB; [apply cd_muB|decz; lra]]; lia|].
  split; [eapply K; [apply q_muN| |apply (b_muX Hu Ht A T' (b_mp Hu Ht A)); lra|apply cd_muN|eapply UB; [apply cd_muN|decz; lra]]; lia|].
  split; [eapply K; [apply q_Rinf| |apply (b_Rinf Hu Ht A)|apply cd_Rinf|eapply UB; [apply cd_Rinf|decz; lra]]; lia|].
  eapply K; [apply q_a0| |apply (b_a0 Hu Ht A)|apply cd_a0|eapply UB; [apply cd_a0|decz; lra]]; lia.
Qed.
Print Assumptions C109_codata.

(** the hypotheses of C109_formulas_partial hold of the three formats *)
Example C109_nonvacuous : accurate rnd32 (/ 2 ^ 24) (/ 2 ^ 126) /\ accurate rnd64 (/ 2 ^ 53) (/ 2 ^ 1022) /\ accurate rnd80 (/ 2 ^ 53) (/ 2 ^ 1022).
Proof. split; [exact acc32|]. split; [exact acc64|exact acc80]. Qed.
