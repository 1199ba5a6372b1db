(** Parseval, Cauchy-Schwarz and linearity for the spectra; invariants of the configuration. *)
From Coq Require Import ZArith Reals.
From Verif Require Import Base Functional FunctionalProofs Numeric NumericProofs Stats Spec SumLib CplxR Polynomial Fft FftFacts FftConv FftConvFacts Windows WindowsFacts WindowsReal WindowsRange SpectralConc SpectralConcFacts Spectral SpectralSpec SpectralFacts SpectralFacts2.
From Coq Require Import Lra Psatz.
Open Scope nat_scope.

(** ** one-sided sums *)
Lemma fold_sum (g : nat -> R) N : 1 <= N -> (forall m, 1 <= m < N -> g (N - m) = g m) -> rsum g N = rsum (fun m => onesided N m * g m)%R (N / 2 + 1).
Proof.
  intros HN H. pose proof (Nat.div_mod N 2 ltac:(lia)) as D. pose proof (Nat.mod_upper_bound N 2 ltac:(lia)) as U. set (h := N / 2) in *.
  assert (Tail : forall cnt, cnt < N -> rsum (fun k => g (N - cnt + k)) cnt = rsum (fun k => g (S k)) cnt).
  { intros cnt Hc. rewrite (sum_rev Rring). apply sum_ext. intros k Hk. rewrite <- (H (S k)) by lia. f_equal. lia. }
  rewrite Nat.add_1_r, (sum_first Rring). unfold onesided at 1. cbn [Nat.eqb orb]. destruct (Nat.eq_dec (N mod 2) 0) as [e|e].
  - rewrite e in *. destruct h as [|h'] eqn:Eh; [lia|]. cbn [nsum]. fold h in Eh.
    rewrite (sum_ext (fun k => (onesided N (S k) * g (S k))%R) (fun k => (2 * g (S k))%R)).
    2:{ intros k Hk. unfold onesided. rewrite e. fold h. rewrite Eh. cbn [Nat.eqb orb andb]. destruct (Nat.eqb_spec k h'); [lia|reflexivity]. }
    replace (onesided N (S h')) with 1%R. 2:{ unfold onesided. rewrite e. fold h. rewrite Eh. cbn [Nat.eqb orb andb]. now rewrite Nat.eqb_refl. }
    replace N with (S h' + 1 + h') at 1 by lia. rewrite (sum_split Rring), (sum_split Rring), (sum_first Rring g). cbn [nsum].
    rewrite (sum_ext (fun k => g (S h' + 1 + k)) (fun k => g (N - h' + k))) by (intros k Hk; f_equal; lia). rewrite Tail by lia. rewrite (sum_scale_l Rring), Nat.add_0_r. lra.
  - assert (e1 : N mod 2 = 1) by lia. rewrite e1 in D.
    rewrite (sum_ext (fun k => (onesided N (S k) * g (S k))%R) (fun k => (2 * g (S k))%R)).
    2:{ intros k Hk. unfold onesided. rewrite e1. cbn [Nat.eqb orb andb]. reflexivity. }
    replace N with (S h + h) at 1 by lia. rewrite (sum_split Rring), (sum_first Rring g).
    rewrite (sum_ext (fun k => g (S h + k)) (fun k => g (N - h + k))) by (intros k Hk; f_equal; lia). rewrite Tail by lia. rewrite (sum_scale_l Rring). lra.
Qed.
Lemma bin_dft w s m : m < length w -> bin w s m = xcoef (dft (map (windowed w s) (seq 0 (length w)))) m.
Proof.
  intros H. rewrite dft_coef by (rewrite map_length, seq_length; exact H). rewrite map_length, seq_length. unfold dft_at, bin. apply sum_ext. intros k Hk.
  unfold coef. now rewrite nth_map_seq.
Qed.
Lemma bin_parseval w s : 1 <= length w -> rsum (fun m => xnorm2 (bin w s m)) (length w) = (INR (length w) * rsum (fun k => xnorm2 (windowed w s k)) (length w))%R.
Proof.
  intros H. pose proof (parseval (map (windowed w s) (seq 0 (length w)))) as P. rewrite map_length, seq_length in P.
  rewrite (sum_ext _ (fun k => xnorm2 (xcoef (dft (map (windowed w s) (seq 0 (length w)))) k))) by (intros k Hk; now rewrite bin_dft).
  rewrite P. f_equal. apply sum_ext. intros k Hk. unfold coef. now rewrite nth_map_seq.
Qed.
Lemma bin_hermitian w (f : nat -> R) m : 1 <= m < length w -> bin w (fun k => xre (f k)) (length w - m) = xconj (bin w (fun k => xre (f k)) m).
Proof.
  intros H. unfold bin. set (N := length w). rewrite xsum_conj. apply sum_ext. intros k Hk. rewrite xconj_mul, root_conj.
  f_equal.
  - rewrite xre_smean. unfold xscale, xsub, xre, xconj. cbn [fst snd]. f_equal; ring.
  - replace (Z.of_nat k * Z.of_nat (N - m))%Z with (Z.of_nat N * Z.of_nat k + - (Z.of_nat k * Z.of_nat m))%Z by (rewrite Nat2Z.inj_sub by (unfold N; lia); ring).
    rewrite root_add, root_mulZ by (unfold N; lia). ring.
Qed.
Lemma xnorm2_conj z : xnorm2 (xconj z) = xnorm2 z.
Proof. unfold xnorm2, xconj. cbn [fst snd]. ring. Qed.
Lemma rpsd_parseval c x : valid c -> rsum (fun m => onesided (length (c_window c)) m * rpsd c x m)%R (length (c_window c) / 2 + 1) =
  (INR (length (c_window c)) * (rsum (fun i => rsum (fun k => xnorm2 (windowed (c_window c) (rsample c x i) k)) (length (c_window c))) (nsegs c (length x)) / INR (nsegs c (length x))))%R.
Proof.
  intros V. pose proof (vlen c V) as HN. set (N := length (c_window c)) in *. rewrite <- fold_sum; [|exact HN|].
  - unfold psd_avg. set (n := nsegs c (length x)). unfold Rdiv. rewrite (sum_scale_r Rring), (sum_swap Rring).
    rewrite (sum_ext (fun j => rsum (fun i => xnorm2 (bin (c_window c) (rsample c x j) i)) N) (fun i => (INR N * rsum (fun k => xnorm2 (windowed (c_window c) (rsample c x i) k)) N)%R)).
    2:{ intros i Hi. now apply bin_parseval. }
    rewrite (sum_scale_l Rring). ring.
  - intros m Hm. unfold psd_avg. f_equal. apply sum_ext. intros i Hi. unfold N, sample in *. rewrite (bin_hermitian (c_window c) (fun k => nth (i * step_of c + k) x 0%R)) by exact Hm. apply xnorm2_conj.
Qed.
Lemma cpsd_parseval c x : valid c -> rsum (cpsd c x) (length (c_window c)) =
  (INR (length (c_window c)) * (rsum (fun i => rsum (fun k => xnorm2 (windowed (c_window c) (csample c x i) k)) (length (c_window c))) (nsegs c (length x)) / INR (nsegs c (length x))))%R.
Proof.
  intros V. pose proof (vlen c V) as HN. set (N := length (c_window c)) in *.
  unfold psd_avg. set (n := nsegs c (length x)). unfold Rdiv. rewrite (sum_scale_r Rring), (sum_swap Rring).
  rewrite (sum_ext (fun j => rsum (fun i => xnorm2 (bin (c_window c) (csample c x j) i)) N) (fun i => (INR N * rsum (fun k => xnorm2 (windowed (c_window c) (csample c x i) k)) N)%R)).
  2:{ intros i Hi. now apply bin_parseval. }
  rewrite (sum_scale_l Rring). ring.
Qed.

(** ** Cauchy-Schwarz *)
Lemma xnorm2_pos z : (0 <= xnorm2 z)%R.
Proof. unfold xnorm2. pose proof (Rle_0_sqr (fst z)). pose proof (Rle_0_sqr (snd z)). unfold Rsqr in *. lra. Qed.
Lemma rsum_pos (f : nat -> R) n : (forall i, i < n -> (0 <= f i)%R) -> (0 <= rsum f n)%R.
Proof. induction n as [|n IH]; intros H; cbn [nsum]; [lra|]. pose proof (IH ltac:(intros; apply H; lia)). pose proof (H n ltac:(lia)). lra. Qed.
Lemma rsum_zero_each (f : nat -> R) n : (forall i, i < n -> (0 <= f i)%R) -> rsum f n = 0%R -> forall i, i < n -> f i = 0%R.
Proof.
  induction n as [|n IH]; intros H Z i Hi; [lia|]. cbn [nsum] in Z. pose proof (rsum_pos f n ltac:(intros; apply H; lia)). pose proof (H n ltac:(lia)).
  destruct (Nat.eq_dec i n) as [->|]; [lra|]. apply IH; [intros; apply H; lia|lra|lia].
Qed.
Lemma cauchy_schwarz (a b : nat -> cx) n :
  (xnorm2 (xsum (fun i => xmul (xconj (a i)) (b i)) n) <= rsum (fun i => xnorm2 (a i)) n * rsum (fun i => xnorm2 (b i)) n)%R.
Proof.
  set (S := xsum (fun i => xmul (xconj (a i)) (b i)) n). set (A := rsum (fun i => xnorm2 (a i)) n). set (B := rsum (fun i => xnorm2 (b i)) n).
  assert (V : forall l, (rsum (fun i => xnorm2 (xsub (b i) (xmul l (a i)))) n = B - 2 * (fst l * fst S + snd l * snd S) + xnorm2 l * A)%R).
  { intros l. unfold S, A, B. clear. induction n as [|n IH]; cbn [nsum]; [unfold x0, xnorm2; cbn [fst snd]; ring|]. rewrite IH.
    destruct (a n) as [a1 a2], (b n) as [b1 b2], l as [l1 l2]. unfold xadd, xmul, xconj, xsub, xnorm2. cbn [fst snd]. ring. }
  assert (HA : (0 <= A)%R) by (apply rsum_pos; intros; apply xnorm2_pos). assert (HB : (0 <= B)%R) by (apply rsum_pos; intros; apply xnorm2_pos).
  destruct (Req_EM_T A 0) as [Z|Z].
  - assert (S = x0). { unfold S. apply (sum_zero xring). intros i Hi. assert (xnorm2 (a i) = 0%R) by (apply (rsum_zero_each (fun i => xnorm2 (a i)) n); [intros; apply xnorm2_pos|exact Z|exact Hi]).
      rewrite (xnorm2_zero (a i)) by assumption. unfold xmul, xconj, x0. cbn [fst snd]. f_equal; ring. }
    rewrite H, Z. unfold xnorm2, x0. cbn [fst snd]. lra.
  - assert (P := rsum_pos (fun i => xnorm2 (xsub (b i) (xmul (xscale (/ A)%R S) (a i)))) n ltac:(intros; apply xnorm2_pos)). rewrite V in P.
    replace (B - 2 * (fst (xscale (/ A) S) * fst S + snd (xscale (/ A) S) * snd S) + xnorm2 (xscale (/ A) S) * A)%R with (B - xnorm2 S / A)%R in P.
    2:{ destruct S as [p q]. unfold xscale, xnorm2. cbn [fst snd]. field. exact Z. }
    assert (0 < A)%R by lra. apply Rmult_le_reg_r with (r := (/ A)%R); [now apply Rinv_0_lt_compat|]. replace (A * B * / A)%R with B by (field; lra). unfold Rdiv in P. lra.
Qed.

(** ** linearity in the signal *)
Lemma xsum_scale_l (a : cx) f n : xsum (fun k => xmul a (f k)) n = xmul a (xsum f n).
Proof. apply (sum_scale_l xring). Qed.
Lemma bin_scale w s (al : cx) m : bin w (fun k => xmul al (s k)) m = xmul al (bin w s m).
Proof.
  unfold bin. rewrite <- xsum_scale_l. apply sum_ext. intros k Hk. unfold smean. rewrite xsum_scale_l.
  destruct al as [a1 a2], (s k) as [s1 s2], (xsum s (length w)) as [m1 m2], (root (length w) (Z.of_nat k * Z.of_nat m)) as [r1 r2]. unfold xmul, xscale, xsub. cbn [fst snd]. f_equal; ring.
Qed.
