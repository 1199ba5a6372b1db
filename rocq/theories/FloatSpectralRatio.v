(** Accuracy of transfer functions and coherences of two signals (FloatSpectral.v). *)
From Coq Require Import ZArith Reals Permutation.
From Verif Require Import Base Functional FunctionalProofs Numeric CplxR Polynomial Fft FftConv FftFacts Spec NumericProofs SpectralConc SpectralConcFacts Spectral FloatSpectral
  FloatSpectralFacts FloatSpectralErr FloatSpectralSelf FloatArithFacts FloatVarFacts FloatWindowsFacts.
From Coq Require Import Lra Lia Psatz.
Open Scope R_scope.
Set Implicit Arguments.

Lemma cs_step M m P p Q q : 0 <= M -> 0 <= m -> 0 <= P -> 0 <= p -> 0 <= Q -> 0 <= q -> M * M <= P * Q -> m * m <= p * q -> (m + M) * (m + M) <= (p + P) * (q + Q).
Proof.
  intros. assert (K : 2 * (M * m) <= P * q + p * Q).
  { apply Rsqr_incr_0; unfold Rsqr; [|nra|nra]. assert ((M * M) * (m * m) <= (P * Q) * (p * q)) by (apply Rmult_le_compat; nra).
    assert (0 <= (P * q - p * Q) * (P * q - p * Q)) by (apply Rle_0_sqr). nra. }
  nra.
Qed.
Lemma cauchy_schwarz (m p q : nat -> R) l : (forall i, 0 <= m i) -> (forall i, 0 <= p i) -> (forall i, 0 <= q i) -> (forall i, m i * m i <= p i * q i) ->
  let s := fun f : nat -> R => bigop Rplus 0 (map f l) in s m * s m <= s p * s q.
Proof.
  intros Hm Hp Hq H. assert (Pos : forall f : nat -> R, (forall i, 0 <= f i) -> forall l, 0 <= bigop Rplus 0 (map f l)).
  { intros f Hf k. induction k as [|a k IH]; cbn; [lra|]. specialize (Hf a). lra. }
  cbn zeta. induction l as [|a l IH]; [cbn; lra|]. cbn [map bigop]. apply cs_step; auto.
Qed.

Section Two.
Variables (u : R) (fmt : R -> Prop) (rnd : R -> R).
Hypothesis RD : rounding u 0 fmt rnd.
Hypothesis Hinv : forall x, Rabs (rnd x - x) <= u * Rabs (rnd x).
Hypothesis Hdbl : forall x, fmt x -> fmt (2 * x).
Context {E : Type}.
Variables (zero : E) (spec : list R -> list E -> outcome (list cx)) (sd : sides) (c : config) (x y : list E) (X Y : nat -> list cx).
Hypothesis U : usable c.
Hypothesis Hx : (length (c_window c) <= length x)%nat.
Hypothesis Hxy : length x = length y.
Let n := nsegments c (length x).
Hypothesis HX : forall i, (i < n)%nat -> spec (c_window c) (slice c x i) = Ok (X i) /\ length (X i) = nbins sd c.
Hypothesis HY : forall i, (i < n)%nat -> spec (c_window c) (slice c y i) = Ok (Y i) /\ length (Y i) = nbins sd c.
Notation acc := (acc u). Notation rel := (rel u).
Notation PX k := (power c x X k).
Notation PY k := (power c y Y k).
Let ny : nsegments c (length y) = n. Proof. unfold n. now rewrite Hxy. Qed.
Let n1 : 0 < INR n. Proof. apply lt_0_INR. unfold n, nsegments. lia. Qed.
Lemma wpos k : 0 < weight sd (length (c_window c)) k. Proof. unfold weight. destruct (unpaired _ _ _); lra. Qed.
Lemma power_pos k : 0 <= PX k.
Proof. unfold power. fold n. induction (seq 0 n) as [|i l IH]; cbn [map bigop]; [lra|]. unfold xnorm2 at 1. nra. Qed.
Lemma transfer_acc r : fl_tfestimate rnd zero spec sd c x y r -> exists v, r = Ok v /\ length v = nbins sd c /\ forall k, (k < nbins sd c)%nat -> PX k <> 0 ->
  acc (2 * n + 7) (csum c y Y X mag_re k / PX k) 0 (fst (nth k v x0)) (csum c y Y X (fun a b => fst (cross a b)) k / PX k) /\
  acc (2 * n + 7) (csum c y Y X mag_im k / PX k) 0 (snd (nth k v x0)) (csum c y Y X (fun a b => snd (cross a b)) k / PX k).
Proof.
  intros [C|v1 v2 _ H1 H2]; [contradiction|].
  assert (HY' : forall i, (i < nsegments c (length y))%nat -> spec (c_window c) (slice c y i) = Ok (Y i) /\ length (Y i) = nbins sd c) by (rewrite ny; exact HY).
  assert (HX' : forall i, (i < nsegments c (length y))%nat -> spec (c_window c) (slice c x i) = Ok (X i) /\ length (X i) = nbins sd c) by (rewrite ny; exact HX).
  destruct (@csd_acc u fmt rnd RD Hinv Hdbl E E zero zero spec spec sd c y x Y X U ltac:(now rewrite <- Hxy) (eq_sym Hxy) HY' HX' NONE v1 H1) as (a & -> & La & Ra).
  destruct (welch_rel RD Hinv Hdbl X U Hx HX H2) as (b & -> & Lb & Rb). cbn [bind]. rewrite ny in Ra.
  destruct (@map2_ok_nth E c x Hx cx R cx (fs_cdiv rnd) a b x0 0 x0 ltac:(congruence)) as (v & Ev & Lv & Cv). exists v. split; [exact Ev|]. split; [congruence|]. intros k Hk Hz.
  destruct (Ra k Hk) as (R1 & R2). specialize (Rb k Hk). cbn [extra divisor] in *. rewrite Nat.add_0_r in *. fold n in Rb. rewrite Cv by (rewrite La; exact Hk). cbn [fs_cdiv fst snd].
  pose proof (wpos k) as W. pose proof (power_pos k) as PP. assert (P : 0 < PX k) by lra.
  assert (EQ : forall s, weight sd (length (c_window c)) k * (s / INR n) / 1 / (weight sd (length (c_window c)) k * (PX k / INR n) / 1) = s / PX k) by (intros; field; repeat split; lra).
  assert (EA : Rabs (weight sd (length (c_window c)) k * (PX k / INR n) / 1) = weight sd (length (c_window c)) k * (PX k / INR n) / 1).
  { apply Rabs_pos_eq. unfold Rdiv at 1. rewrite Rinv_1, Rmult_1_r. apply Rmult_le_pos; [lra|]. apply Rlt_le, Rdiv_lt_0_compat; lra. }
  rewrite Rabs_R1 in *. replace (2 * n + 7)%nat with (S ((n + 3) + (n + 3))) by lia. split.
  - pose proof (acc_quot RD R1 Rb) as Q. rewrite EA, !EQ in Q. exact Q.
  - pose proof (acc_quot RD R2 Rb) as Q. rewrite EA, !EQ in Q. exact Q.
Qed.
Lemma coherence_acc r : fl_coherence rnd zero spec sd c x y r -> exists v, r = Ok v /\ length v = nbins sd c /\ forall k, (k < nbins sd c)%nat -> PX k <> 0 -> PY k <> 0 ->
  acc (4 * n + 16) 2 0 (nth k v 0) ((csum c x X Y (fun a b => fst (cross a b)) k ^ 2 + csum c x X Y (fun a b => snd (cross a b)) k ^ 2) / (PX k * PY k)).
Proof.
  intros [C|v1 v2 v3 _ H1 H2 H3]; [contradiction|].
  assert (HY' : forall i, (i < nsegments c (length y))%nat -> spec (c_window c) (slice c y i) = Ok (Y i) /\ length (Y i) = nbins sd c) by (rewrite ny; exact HY).
  destruct (@csd_acc u fmt rnd RD Hinv Hdbl E E zero zero spec spec sd c x y X Y U Hx Hxy HX HY NONE v1 H1) as (a & -> & La & Ra).
  destruct (welch_rel RD Hinv Hdbl X U Hx HX H2) as (b & -> & Lb & Rb). destruct (welch_rel RD Hinv Hdbl Y U ltac:(now rewrite <- Hxy) HY' H3) as (d & -> & Ld & Rd). cbn [bind].
  rewrite La, Lb, Ld, Nat.eqb_refl. cbn [require]. rewrite transform1_map. rewrite ny in Rd.
  destruct (@map2_ok_nth E c x Hx _ _ _ (fs_div rnd) (map (fs_norm rnd) a) b (fs_norm rnd x0) 0 0) as (q & Eq & Lq & Cq); [rewrite map_length; congruence|]. rewrite Eq. cbn [bind]. rewrite map_length in *.
  destruct (@map2_ok_nth E c x Hx _ _ _ (fs_div rnd) q d 0 0 0 ltac:(congruence)) as (v & Ev & Lv & Cv). exists v. split; [exact Ev|]. split; [congruence|]. intros k Hk Hz Hz'.
  destruct (Ra k Hk) as (R1 & R2). specialize (Rb k Hk). specialize (Rd k Hk). cbn [extra divisor] in *. rewrite Nat.add_0_r in *. fold n in Rb, R1, R2. rewrite Cv, Cq by (rewrite ?Lq, La; exact Hk).
  rewrite (map_nth (fs_norm rnd)). unfold fs_div, fs_norm. set (z := nth k a x0) in *. pose proof (wpos k) as W. rewrite Rabs_R1 in *.
  assert (PP : 0 < PX k) by (pose proof (power_pos k); lra).
  assert (PQ : 0 < PY k). { assert (0 <= PY k); [|lra]. unfold power. clear. induction (seq 0 (nsegments c (length y))) as [|i l IH]; cbn [map bigop]; [lra|]. unfold xnorm2 at 1. nra. }
  set (w := weight sd (length (c_window c)) k) in *. set (S1 := csum c x X Y mag_re k) in *. set (S2 := csum c x X Y mag_im k) in *. set (T1 := csum c x X Y (fun a b => fst (cross a b)) k) in *. set (T2 := csum c x X Y (fun a b => snd (cross a b)) k) in *.
  assert (CS : S1 * S1 <= PX k * PY k /\ S2 * S2 <= PX k * PY k).
  { assert (PYn : PY k = bigop Rplus 0 (map (fun i => xnorm2 (nth k (Y i) x0)) (seq 0 n))) by (unfold power; now rewrite ny). unfold S1, S2, csum. rewrite PYn. unfold power. fold n.
    assert (AB : forall a b, Rabs (a * b) = Rabs a * Rabs b) by (intros; apply Rabs_mult). assert (AS : forall a, Rabs a * Rabs a = a * a) by (intros t; rewrite <- Rabs_mult; apply Rabs_pos_eq; nra).
    split; (apply (@cauchy_schwarz _ (fun i => xnorm2 (nth k (X i) x0)) (fun i => xnorm2 (nth k (Y i) x0)) (seq 0 n));
      [intros; apply Rplus_le_le_0_compat; apply Rabs_pos|intros; unfold xnorm2; nra|intros; unfold xnorm2; nra|]); intros i; unfold mag_re, mag_im, xnorm2; rewrite !AB;
      destruct (nth k (X i) x0) as [p0 p1], (nth k (Y i) x0) as [q0 q1]; cbn [fst snd]; rewrite <- (AS p0), <- (AS p1), <- (AS q0), <- (AS q1);
      set (a0 := Rabs p0); set (a1 := Rabs p1); set (b0 := Rabs q0); set (b1 := Rabs q1); clearbody a0 a1 b0 b1.
    - assert (0 <= (a0 * b1 - a1 * b0) * (a0 * b1 - a1 * b0)) by apply Rle_0_sqr. nra.
    - assert (0 <= (a0 * b0 - a1 * b1) * (a0 * b0 - a1 * b1)) by apply Rle_0_sqr. nra. }
  pose proof (acc_mul u fmt rnd RD _ _ _ _ _ _ _ _ _ _ R1 R1) as Q1. pose proof (acc_mul u fmt rnd RD _ _ _ _ _ _ _ _ _ _ R2 R2) as Q2.
  apply (acc_rnd u fmt rnd RD) in Q1. apply (acc_rnd u fmt rnd RD) in Q2. pose proof (acc_rnd u fmt rnd RD _ _ _ _ _ (acc_add u _ _ _ _ _ _ _ _ _ Q1 Q2)) as Q.
  apply (@acc0 u fmt rnd RD _ _ (w * (S1 / INR n) / 1 * (w * (S1 / INR n) / 1) + w * (S2 / INR n) / 1 * (w * (S2 / INR n) / 1))) in Q; [|apply Rle_refl|lra].
  pose proof (acc_quot RD (acc_quot RD Q Rb) Rd) as F.
  assert (EA : forall P, 0 < P -> Rabs (w * (P / INR n) / 1) = w * (P / INR n) / 1).
  { intros P HP. apply Rabs_pos_eq. unfold Rdiv at 1. rewrite Rinv_1, Rmult_1_r. apply Rmult_le_pos; [lra|]. apply Rlt_le, Rdiv_lt_0_compat; lra. }
  rewrite !EA in F by assumption. replace (4 * n + 16)%nat with (S (S (S (S (n + 3 + (n + 3))) + (n + 3)) + (n + 3))) by lia.
  replace ((T1 ^ 2 + T2 ^ 2) / (PX k * PY k)) with ((w * (T1 / INR n) / 1 * (w * (T1 / INR n) / 1) + w * (T2 / INR n) / 1 * (w * (T2 / INR n) / 1)) / (w * (PX k / INR n) / 1) / (w * (PY k / INR n) / 1)) by (field; repeat split; lra).
  revert F. apply (acc_weak u fmt rnd RD); [lia| |lra].
  replace ((w * (S1 / INR n) / 1 * (w * (S1 / INR n) / 1) + w * (S2 / INR n) / 1 * (w * (S2 / INR n) / 1)) / (w * (PX k / INR n) / 1) / (w * (PY k / INR n) / 1)) with ((S1 * S1 + S2 * S2) / (PX k * PY k)) by (field; repeat split; lra).
  apply Rmult_le_reg_r with (PX k * PY k); [nra|]. unfold Rdiv. rewrite Rmult_assoc, Rinv_l by nra. lra.
Qed.
End Two.
