(** Auxiliary facts for coherence, tfestimate and csd. *)
From Coq Require Import ZArith Reals.
From Verif Require Import Base Functional FunctionalProofs Numeric NumericProofs Stats Spec SumLib CplxR Polynomial Fft FftFacts FftConv FftConvFacts Windows WindowsFacts WindowsReal WindowsRange SpectralConc SpectralConcFacts Spectral SpectralSpec SpectralFacts SpectralFacts2 SpectralFacts3 SpectralFacts4.
From Coq Require Import Lra Psatz.
Open Scope nat_scope.

Lemma rsum_scale (a : R) f n : rsum (fun k => a * f k)%R n = (a * rsum f n)%R.
Proof. induction n as [|n IH]; cbn [nsum]; [ring|]. rewrite IH. ring. Qed.
Lemma xnorm2_xscale r z : xnorm2 (xscale r z) = (r * r * xnorm2 z)%R.
Proof. unfold xnorm2, xscale. cbn [fst snd]. ring. Qed.
Lemma xnorm2_mul a b : xnorm2 (xmul a b) = (xnorm2 a * xnorm2 b)%R.
Proof. unfold xnorm2, xmul. cbn [fst snd]. ring. Qed.
Lemma xmul_conj z : xmul (xconj z) z = xre (xnorm2 z).
Proof. unfold xmul, xconj, xre, xnorm2. cbn [fst snd]. f_equal; ring. Qed.
Lemma xscale_xscale a b z : xscale a (xscale b z) = xscale (a * b)%R z.
Proof. unfold xscale. cbn [fst snd]. f_equal; ring. Qed.
Lemma xscale_xre a b : xscale a (xre b) = xre (a * b)%R.
Proof. unfold xscale, xre. cbn [fst snd]. f_equal; ring. Qed.
Lemma xconj_xscale a z : xconj (xscale a z) = xscale a (xconj z).
Proof. unfold xscale, xconj. cbn [fst snd]. f_equal; ring. Qed.
Lemma onesided_pos N m : (0 < onesided N m)%R.
Proof. unfold onesided. destruct (_ || _); lra. Qed.

Section Gen.
Context {E : Type}.
Variables (zeroE : E) (emb : E -> cx).
Notation psd := (psd_avg zeroE emb).
Notation csdv := (csd_avg zeroE emb).
Lemma psd_nonneg c x m : (0 <= psd c x m)%R.
Proof.
  unfold psd_avg. apply Rmult_le_pos; [apply rsum_pos; intros; apply xnorm2_pos|]. apply Rlt_le, Rinv_0_lt_compat, lt_0_INR. unfold nsegs. lia.
Qed.
Lemma csd_self c x m : csdv c x x m = xre (psd c x m).
Proof.
  unfold csd_avg, psd_avg. rewrite (sum_ext _ (fun i => xre (xnorm2 (bin (c_window c) (sample zeroE emb c x i) m)))) by (intros; apply xmul_conj).
  rewrite xsum_re, xscale_xre. f_equal. unfold Rdiv. ring.
Qed.
Lemma csd_swap c x y m : length x = length y -> csdv c y x m = xconj (csdv c x y m).
Proof.
  intros L. unfold csd_avg. rewrite L, xconj_xscale. f_equal. rewrite xsum_conj. apply sum_ext. intros i _. rewrite xconj_mul.
  replace (xconj (xconj (bin (c_window c) (sample zeroE emb c x i) m))) with (bin (c_window c) (sample zeroE emb c x i) m); [ring|].
  destruct (bin _ _ _). unfold xconj. cbn [fst snd]. f_equal. ring.
Qed.
Lemma coh_le c x y m : length x = length y -> (xnorm2 (csdv c x y m) <= psd c x m * psd c y m)%R.
Proof.
  intros L. unfold csd_avg, psd_avg. rewrite <- L. rewrite xnorm2_xscale. set (n := nsegs c (length x)). assert (P : (0 < INR n)%R) by (apply lt_0_INR; unfold n, nsegs; lia).
  pose proof (cauchy_schwarz (fun i => bin (c_window c) (sample zeroE emb c x i) m) (fun i => bin (c_window c) (sample zeroE emb c y i) m) n) as K. cbv beta in K.
  set (S := xnorm2 _) in *. set (A := rsum (fun i => xnorm2 (bin (c_window c) (sample zeroE emb c x i) m)) n) in *. set (B := rsum (fun i => xnorm2 (bin (c_window c) (sample zeroE emb c y i) m)) n) in *.
  replace (A / INR n * (B / INR n))%R with (/ INR n * / INR n * (A * B))%R by (unfold Rdiv; ring).
  apply Rmult_le_compat_l; [|exact K]. apply Rlt_le. apply Rmult_lt_0_compat; now apply Rinv_0_lt_compat.
Qed.
Lemma coh_one c x y m : length x = length y -> nsegs c (length x) = 1 -> xnorm2 (csdv c x y m) = (psd c x m * psd c y m)%R.
Proof.
  intros L N. unfold csd_avg, psd_avg. rewrite <- L, N. cbn [nsum INR]. rewrite xnorm2_xscale.
  replace (xadd x0 (xmul (xconj (bin (c_window c) (sample zeroE emb c x 0) m)) (bin (c_window c) (sample zeroE emb c y 0) m))) with
    (xmul (xconj (bin (c_window c) (sample zeroE emb c x 0) m)) (bin (c_window c) (sample zeroE emb c y 0) m)) by ring.
  rewrite xnorm2_mul, xnorm2_conj. field.
Qed.
(** y = al * x *)
Lemma csd_gain (al : cx) c x y m : length x = length y -> (forall k, emb (nth k y zeroE) = xmul al (emb (nth k x zeroE))) ->
  csdv c y x m = xmul (xconj al) (xre (psd c x m)).
Proof.
  intros L H. unfold csd_avg, psd_avg. rewrite <- L.
  rewrite (sum_ext _ (fun i => xmul (xconj al) (xre (xnorm2 (bin (c_window c) (sample zeroE emb c x i) m))))).
  - rewrite xsum_scale_l, xsum_re. set (S := rsum _ _). unfold xmul, xscale, xre, xconj, Rdiv. cbn [fst snd]. f_equal; ring.
  - intros i _. rewrite (bin_ext _ (sample zeroE emb c y i) (fun k => xmul al (sample zeroE emb c x i k))) by (intros k _; apply H). rewrite bin_scale, xconj_mul, <- xmul_conj. ring.
Qed.
Lemma psd_gain (al : cx) c x y m : length x = length y -> (forall k, emb (nth k y zeroE) = xmul al (emb (nth k x zeroE))) ->
  psd c y m = (xnorm2 al * psd c x m)%R.
Proof.
  intros L H. unfold psd_avg. rewrite <- L.
  rewrite (sum_ext _ (fun i => xnorm2 al * xnorm2 (bin (c_window c) (sample zeroE emb c x i) m))%R).
  - rewrite rsum_scale. unfold Rdiv. ring.
  - intros i _. rewrite (bin_ext _ (sample zeroE emb c y i) (fun k => xmul al (sample zeroE emb c x i k))) by (intros k _; apply H). rewrite bin_scale. apply xnorm2_mul.
Qed.
End Gen.
(** circular shift by one sample, rectangular window *)
Lemma bin_shift N (s t : nat -> cx) m : 1 <= N -> t 0 = s (N - 1) -> (forall k, S k < N -> t (S k) = s k) ->
  bin (repeat 1%R N) t m = xmul (root N (Z.of_nat m)) (bin (repeat 1%R N) s m).
Proof.
  intros HN H0 HS. destruct N as [|M]; [lia|]. rewrite Nat.sub_succ, Nat.sub_0_r in H0.
  assert (EM : smean t (S M) = smean s (S M)).
  { unfold smean. f_equal. rewrite (sum_first xring). cbn [nsum]. rewrite H0. rewrite (sum_ext _ s) by (intros k Hk; apply HS; lia). ring. }
  unfold bin. rewrite repeat_length, EM. set (mu := smean s (S M)).
  assert (W : forall k z, k < S M -> xscale (nth k (repeat 1%R (S M)) 0%R) z = z).
  { intros k [z1 z2] Hk. rewrite (nth_indep _ 0%R 1%R) by (now rewrite repeat_length). rewrite nth_repeat. unfold xscale. cbn [fst snd]. f_equal; ring. }
  rewrite (sum_ext (fun k => xmul (xscale (nth k (repeat 1%R (S M)) 0%R) (xsub (t k) mu)) _) (fun k => xmul (xsub (t k) mu) (root (S M) (Z.of_nat k * Z.of_nat m)))) by (intros k Hk; now rewrite W).
  rewrite (sum_ext (fun k => xmul (xscale (nth k (repeat 1%R (S M)) 0%R) (xsub (s k) mu)) _) (fun k => xmul (xsub (s k) mu) (root (S M) (Z.of_nat k * Z.of_nat m)))) by (intros k Hk; now rewrite W).
  rewrite <- xsum_scale_l. rewrite (sum_first xring). cbn [nsum]. rewrite H0. rewrite Z.mul_0_l, root_0.
  assert (R0 : xmul (root (S M) (Z.of_nat m)) (root (S M) (Z.of_nat M * Z.of_nat m)) = x1).
  { rewrite <- root_add by lia. replace (Z.of_nat m + Z.of_nat M * Z.of_nat m)%Z with (Z.of_nat (S M) * Z.of_nat m)%Z by lia. apply root_mulN. lia. }
  replace (xmul (root (S M) (Z.of_nat m)) (xmul (xsub (s M) mu) (root (S M) (Z.of_nat M * Z.of_nat m)))) with
    (xmul (xsub (s M) mu) (xmul (root (S M) (Z.of_nat m)) (root (S M) (Z.of_nat M * Z.of_nat m)))) by ring. rewrite R0.
  rewrite (sum_ext _ (fun k => xmul (root (S M) (Z.of_nat m)) (xmul (xsub (s k) mu) (root (S M) (Z.of_nat k * Z.of_nat m))))); [ring|].
  intros k Hk. rewrite (HS k) by lia. replace (Z.of_nat (S k) * Z.of_nat m)%Z with (Z.of_nat m + Z.of_nat k * Z.of_nat m)%Z by lia. rewrite root_add by lia. ring.
Qed.
