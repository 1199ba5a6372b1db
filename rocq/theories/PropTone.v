(** * C127: what the spectra of sinusoids are (spectral.hpp over exact numbers) *)
From Coq Require Import ZArith Reals.
From Verif Require Import Base Spec SumLib CplxR Spectral SpectralSpec SpectralFacts SpectralFacts2 SpectralFacts3 SpectralFacts4 SpectralFacts5 WindowsReal WindowsRange ToneFacts PropSpectral.
From Coq Require Import Lra Psatz Lia.
Open Scope nat_scope.

(** ** Vocabulary *)
(** L samples of A exp(2 i pi j t / N), A complex: the j-th harmonic of a segment of N samples *)
Definition complex_tone (N : nat) (A : cx) (j L : nat) : list cx :=
  map (fun t => xmul A (cos (2 * PI * (INR j * INR t) / INR N), sin (2 * PI * (INR j * INR t) / INR N))%R) (seq 0 L).
(** L samples of A cos(2 pi j t / N + phi) *)
Definition real_tone (N : nat) (A phi : R) (j L : nat) : list R := map (fun t => A * cos (2 * PI * (INR j * INR t) / INR N + phi))%R (seq 0 L).
(** any object the setters can build, with a window and an overlap smaller than it *)
Definition usable_object (I0 : R -> R) (c : config) : Prop := configured I0 c /\ c_window c <> [] /\ (c_noverlap c < c_nperseg c)%Z /\ (0 < c_fs c)%R.
Definition weight_sum (w : list R) : R := fold_right Rplus 0%R w.
Lemma weight_bigop w : weight_sum w = bigop Rplus 0%R w. Proof. induction w as [|a w IH]; [reflexivity|]. cbn. now rewrite <- IH. Qed.
Lemma tone_ph N A j L : complex_tone N A j L = map (fun t => xmul A (ph N (Z.of_nat j) t)) (seq 0 L).
Proof.
  apply map_ext. intros t. f_equal. unfold ph, root. assert (EA : ang N (- (Z.of_nat j * Z.of_nat t)) = (- (2 * PI * (INR j * INR t) / INR N))%R).
  { unfold ang. rewrite opp_IZR, mult_IZR, <- !INR_IZR_INZ. unfold Rdiv. ring. }
  rewrite EA, cos_neg, sin_neg, Ropp_involutive. reflexivity.
Qed.
Lemma usable_valid I0 c : usable_object I0 c -> valid c.
Proof. intros (Cf & Hw & Ho & _). exact (consistent_valid c (configured_consistent _ _ Cf) Hw Ho). Qed.
Lemma s1_sum I0 c : usable_object I0 c -> c_s1 c = (weight_sum (c_window c) * weight_sum (c_window c))%R.
Proof. intros H. rewrite weight_bigop. exact (v_s1 c (usable_valid _ _ H)). Qed.

(** ** A complex tone on a bin: with SPECTRUM scaling its bin is exactly |A|^2, whatever the window, the overlap, the length and the threads; no bin is larger if the weights are not negative; with
    equal weights every other bin is 0 *)
Theorem C127_complex_tone : forall I0 c A j L, usable_object I0 c -> let N := length (c_window c) in N <= L -> 0 < j < N -> weight_sum (c_window c) <> 0%R ->
  exists f p, welch_c c SPECTRUM (complex_tone N A j L) (Ok (f, p)) /\ (forall r, welch_c c SPECTRUM (complex_tone N A j L) r -> r = Ok (f, p)) /\
  length p = N /\ nth j f 0%R = (IZR (if j <? (N + 1) / 2 then Z.of_nat j else Z.of_nat j - Z.of_nat N) * c_fs c / INR N)%R /\
  nth j p 0%R = (fst A ^ 2 + snd A ^ 2)%R /\
  ((forall a, In a (c_window c) -> (0 <= a)%R) -> forall m, m < N -> (nth m p 0 <= nth j p 0)%R) /\
  (forall b, c_window c = repeat b N -> forall m, m < N -> m <> j -> nth m p 0%R = 0%R).
Proof.
  intros I0 c A j L HU N HL Hj Hs. pose proof (usable_valid _ _ HU) as V. pose proof (s1_sum _ _ HU) as S1. destruct HU as (Cf & Hw & Ho & Hf).
  assert (LL : length (complex_tone N A j L) = L) by (unfold complex_tone; now rewrite map_length, seq_length).
  destruct (C78_welch_complex I0 c SPECTRUM (complex_tone N A j L) Cf Hw Ho Hf ltac:(rewrite LL; exact HL)) as (f & p & W & U & Lf & Lp & C).
  assert (P : forall m, m < N -> nth m p 0%R = (xnorm2 A * xnorm2 (wft (c_window c) (Z.of_nat m - Z.of_nat j)) / (weight_sum (c_window c) * weight_sum (c_window c)))%R).
  { intros m Hm. destruct (C m Hm) as (_ & ->). rewrite tone_ph. unfold N. rewrite (cpsd_tone V HL) by (fold N; lia). cbn [factor]. rewrite S1. unfold Rdiv. ring. }
  assert (PJ : nth j p 0%R = xnorm2 A).
  { rewrite P by lia. rewrite Z.sub_diag, wft_0, weight_bigop. rewrite weight_bigop in Hs. unfold xnorm2 at 2, xre. cbn [fst snd]. field. exact Hs. }
  exists f, p. split; [exact W|]. split; [exact U|]. split; [exact Lp|]. split; [apply (C j); lia|]. split; [rewrite PJ; unfold xnorm2; ring|]. split.
  - intros Pos m Hm. rewrite PJ, P by lia. pose proof (wft_le (c_window c) (Z.of_nat m - Z.of_nat j) ltac:(intros k Hk; apply Pos, nth_In, Hk)) as B. rewrite <- weight_bigop in B.
    pose proof (xnorm2_pos A). set (S := weight_sum (c_window c)) in *. assert (0 < S * S)%R by (apply Rsqr_pos_lt in Hs; exact Hs).
    apply (Rmult_le_reg_r (S * S)); [assumption|]. unfold Rdiv. rewrite Rmult_assoc, Rinv_l by lra. rewrite Rmult_1_r. now apply Rmult_le_compat_l.
  - intros b Eb m Hm Hne. rewrite P by lia. rewrite Eb. rewrite wft_boxcar by lia. unfold xnorm2 at 2, x0. cbn [fst snd]. unfold Rdiv. ring.
Qed.
Print Assumptions C127_complex_tone.
(** ** The cross spectrum of two tones at that frequency is conj(A) B there: its argument is the phase of y relative to x *)
Theorem C127_cross_tone : forall I0 c A B j L, usable_object I0 c -> let N := length (c_window c) in N <= L -> 0 < j < N -> weight_sum (c_window c) <> 0%R ->
  exists f p, csd_c c SPECTRUM (complex_tone N A j L) (complex_tone N B j L) (Ok (f, p)) /\ (forall r, csd_c c SPECTRUM (complex_tone N A j L) (complex_tone N B j L) r -> r = Ok (f, p)) /\
  length p = N /\ nth j p x0 = (fst A * fst B + snd A * snd B, fst A * snd B - snd A * fst B)%R.
Proof.
  intros I0 c A B j L HU N HL Hj Hs. pose proof (usable_valid _ _ HU) as V. pose proof (s1_sum _ _ HU) as S1. destruct HU as (Cf & Hw & Ho & Hf).
  assert (LL : forall D, length (complex_tone N D j L) = L) by (intros; unfold complex_tone; now rewrite map_length, seq_length).
  assert (NE : forall D, complex_tone N D j L <> []) by (intros D E; apply (f_equal (@length _)) in E; rewrite LL in E; cbn in E; lia).
  destruct (C78_csd_complex I0 c SPECTRUM (complex_tone N A j L) (complex_tone N B j L) Cf Hw Ho Hf (NE A) (NE B) ltac:(rewrite !LL, Nat.max_id; exact HL)) as (f & p & W & U & Lf & Lp & C).
  exists f, p. split; [exact W|]. split; [exact U|]. split; [exact Lp|]. destruct (C j ltac:(lia)) as (_ & ->).
  unfold padded. rewrite !LL, Nat.sub_diag. cbn [repeat]. rewrite !app_nil_r, !tone_ph. unfold N. rewrite (ccsd_tone V HL) by (fold N; lia).
  rewrite Z.sub_diag, wft_0, xscale_xscale. cbn [factor]. rewrite S1, weight_bigop. rewrite weight_bigop in Hs. set (S := bigop Rplus 0%R (c_window c)) in *.
  replace (/ (S * S) * xnorm2 (xre S))%R with 1%R by (unfold xnorm2, xre; cbn [fst snd]; field; exact Hs). rewrite xscale_1. unfold xmul, xconj. cbn [fst snd]. f_equal; ring.
Qed.
Print Assumptions C127_cross_tone.
(** ** A real tone below the Nyquist frequency, equal weights: bin j is the mean square A^2 / 2 whatever the phase, the others are 0; at the Nyquist frequency of an even N it is (A cos phi)^2 *)
Theorem C127_real_tone : forall I0 c b A phi j L, usable_object I0 c -> let N := length (c_window c) in c_window c = repeat b N -> b <> 0%R -> N <= L -> 0 < j -> 2 * j <= N ->
  exists f p, welch_r c SPECTRUM (real_tone N A phi j L) (Ok (f, p)) /\ (forall r, welch_r c SPECTRUM (real_tone N A phi j L) r -> r = Ok (f, p)) /\
  length p = N / 2 + 1 /\ nth j f 0%R = (INR j * c_fs c / INR N)%R /\
  (2 * j < N -> nth j p 0%R = (A ^ 2 / 2)%R) /\ (2 * j = N -> nth j p 0%R = ((A * cos phi) ^ 2)%R) /\
  (forall m, m <= N / 2 -> m <> j -> nth m p 0%R = 0%R).
Proof.
  intros I0 c b A phi j L HU N Eb Hb HL Hj Hj2. pose proof (usable_valid _ _ HU) as V. pose proof (s1_sum _ _ HU) as S1. destruct HU as (Cf & Hw & Ho & Hf).
  assert (LL : length (real_tone N A phi j L) = L) by (unfold real_tone; now rewrite map_length, seq_length).
  destruct (C78_welch_real I0 c SPECTRUM (real_tone N A phi j L) Cf Hw Ho Hf ltac:(rewrite LL; exact HL)) as (f & p & W & U & Lf & Lp & C). fold N in C, Lp.
  assert (HN : N / 2 < N) by (apply Nat.div_lt; lia). assert (JN : j <= N / 2) by (apply Nat.div_le_lower_bound; lia). assert (N1 : 1 <= N) by lia.
  assert (SW : weight_sum (c_window c) = (INR N * b)%R).
  { rewrite Eb. clear. induction N as [|n IH]; [cbn; ring|]. cbn [repeat weight_sum fold_right]. fold (weight_sum (repeat b n)). rewrite IH, S_INR. ring. }
  assert (IN : INR N <> 0%R) by (apply not_0_INR; lia).
  assert (W0 : wft (c_window c) 0 = xre (INR N * b)%R) by (rewrite wft_0, <- weight_bigop, SW; reflexivity).
  assert (WZ : forall d, (- Z.of_nat N < d < Z.of_nat N)%Z -> d <> 0%Z -> wft (c_window c) d = x0) by (intros d Hd H0; rewrite Eb; apply wft_boxcar; lia).
  assert (AV : forall m v, (forall i, i < nsegs c L -> xnorm2 (bin (c_window c) (rsample c (real_tone N A phi j L) i) m) = v) -> rpsd c (real_tone N A phi j L) m = v).
  { intros m v Hv. unfold psd_avg. rewrite LL, (@rsum_same _ v) by exact Hv. field. apply not_0_INR. unfold nsegs. lia. }
  exists f, p. split; [exact W|]. split; [exact U|]. split; [exact Lp|]. split; [apply (C j); exact JN|].
  assert (CV : forall m, m <= N / 2 -> nth m p 0%R = (/ (INR N * b * (INR N * b)) * onesided N m * rpsd c (real_tone N A phi j L) m)%R).
  { intros m Hm. destruct (C m Hm) as (_ & -> & _). cbn [factor]. now rewrite S1, SW. }
  split; [|split].
  - intros H2. rewrite CV by exact JN. rewrite (AV j (A ^ 2 / 4 * (INR N * b * (INR N * b)))%R).
    + unfold onesided. destruct (Nat.eqb_spec j 0); [lia|]. cbn [orb]. destruct (N mod 2 =? 0) eqn:EM; cbn [andb].
      * destruct (Nat.eqb_spec j (N / 2)) as [E|E]; [|field; split; assumption]. pose proof (Nat.div_mod N 2 ltac:(lia)). apply Nat.eqb_eq in EM. lia.
      * field. split; assumption.
    + intros i Hi. unfold real_tone, N. rewrite (rsample_tone V HL) by (try assumption; fold N; lia). fold N. rewrite Z.sub_diag, W0, (WZ (Z.of_nat j - Z.of_nat (N - j))%Z) by lia.
      set (B := (_, _)). set (P := ph N (Z.of_nat j) _). match goal with |- context [xadd _ (xmul ?Q x0)] => replace (xmul Q x0) with x0 by ring end. replace (xadd (xmul (xmul B P) (xre (INR N * b))) x0) with (xmul (xmul B P) (xre (INR N * b))) by ring.
      rewrite !xnorm2_mul. unfold P. rewrite ph_norm. unfold B, xnorm2, xre. cbn [fst snd]. pose proof (sin2_cos2 phi) as SC. unfold Rsqr in SC.
      replace ((A / 2 * cos phi * (A / 2 * cos phi) + A / 2 * sin phi * (A / 2 * sin phi)) * 1 * (INR N * b * (INR N * b) + 0 * 0))%R with (A ^ 2 / 4 * (sin phi * sin phi + cos phi * cos phi) * (INR N * b * (INR N * b)))%R by field.
      rewrite SC. ring.
  - intros H2. rewrite CV by exact JN. rewrite (AV j ((A * cos phi) ^ 2 * (INR N * b * (INR N * b)))%R).
    + unfold onesided. destruct (Nat.eqb_spec j 0); [lia|]. cbn [orb]. replace (N mod 2) with 0 by (rewrite <- H2, Nat.mul_comm, Nat.mod_mul by lia; reflexivity).
      replace (N / 2) with j by (rewrite <- H2, Nat.mul_comm, Nat.div_mul by lia; reflexivity). rewrite !Nat.eqb_refl. cbn [andb]. field. split; assumption.
    + intros i Hi. unfold real_tone, N. rewrite (rsample_tone V HL) by (try assumption; fold N; lia). fold N. replace (N - j) with j by lia. rewrite Z.sub_diag, W0. set (P := ph N (Z.of_nat j) _).
      replace (xadd _ _) with (xmul P (xmul (xre (A * cos phi)) (xre (INR N * b)))).
      * rewrite !xnorm2_mul. unfold P. rewrite ph_norm. unfold xnorm2, xre. cbn [fst snd]. ring.
      * apply injective_projections; unfold xadd, xmul, xre; cbn [fst snd]; field.
  - intros m Hm Hne. rewrite CV by exact Hm. rewrite (AV m 0%R); [ring|].
    intros i Hi. unfold real_tone, N. rewrite (rsample_tone V HL) by (try assumption; fold N; lia). fold N.
    assert (HH : 2 * (N / 2) <= N) by (pose proof (Nat.div_mod N 2 ltac:(lia)); lia).
    rewrite !WZ by lia. unfold xnorm2, xadd, xmul, x0. cbn [fst snd]. ring.
Qed.
Print Assumptions C127_real_tone.

(** ** A constant added to the signal changes nothing, and a gain g multiplies every bin by g^2 *)
Lemma list_nth_eq (p q : list R) : length p = length q -> (forall m, m < length p -> nth m p 0%R = nth m q 0%R) -> p = q.
Proof. intros H1 H2. exact (nth_ext p q 0%R 0%R H1 H2). Qed.
Theorem C127_offset : forall I0 c sc x b r, usable_object I0 c -> length (c_window c) <= length x -> (welch_r c sc (map (fun v => v + b)%R x) r <-> welch_r c sc x r).
Proof.
  intros I0 c sc x b r HU HL. pose proof (usable_valid _ _ HU) as V. destruct HU as (Cf & Hw & Ho & Hf).
  destruct (C78_welch_real I0 c sc x Cf Hw Ho Hf HL) as (f & p & W & U & Lf & Lp & C).
  destruct (C78_welch_real I0 c sc (map (fun v => v + b)%R x) Cf Hw Ho Hf ltac:(rewrite map_length; exact HL)) as (f' & p' & W' & U' & Lf' & Lp' & C').
  assert (N1 : length (c_window c) <> 0) by (destruct (c_window c); [congruence|cbn; lia]).
  assert (EP : forall m, rpsd c (map (fun v => v + b)%R x) m = rpsd c x m).
  { intros m. unfold psd_avg. rewrite map_length. f_equal. apply sum_ext. intros i Hi. f_equal. set (s := rsample c x i).
    rewrite (bin_ext _ _ (fun k => xadd (s k) (xre b))).
    - unfold bin. apply sum_ext. intros k Hk. unfold smean. rewrite (sum_add xring). rewrite (@xsum_same (fun _ => xre b) (xre b)) by reflexivity. set (T := xsum s _).
      f_equal. f_equal. unfold xsub, xscale, xadd, xre. cbn [fst snd]. apply not_0_INR in N1. f_equal; field; exact N1.
    - intros k Hk. unfold s, sample. pose proof (nsegs_fit c (length x) i V HL Hi). rewrite (nth_indep _ 0%R (0 + b)%R) by (rewrite map_length; lia). rewrite (map_nth (fun v => v + b)%R). unfold xadd, xre. cbn [fst snd]. f_equal; ring. }
  assert (E1 : f' = f) by (apply list_nth_eq; [congruence|]; intros m Hm; destruct (C m ltac:(lia)) as (-> & _); destruct (C' m ltac:(lia)) as (-> & _); reflexivity).
  assert (E2 : p' = p) by (apply list_nth_eq; [congruence|]; intros m Hm; destruct (C m ltac:(lia)) as (_ & -> & _); destruct (C' m ltac:(lia)) as (_ & -> & _); now rewrite EP).
  subst f' p'. split; intros H; [apply U' in H|apply U in H]; subst r; assumption.
Qed.
Print Assumptions C127_offset.
Theorem C127_gain : forall I0 c sc x g f p, usable_object I0 c -> length (c_window c) <= length x -> welch_r c sc x (Ok (f, p)) ->
  welch_r c sc (map (fun v => g * v)%R x) (Ok (f, map (fun v => g ^ 2 * v)%R p)).
Proof.
  intros I0 c sc x g f0 p0 HU HL H. pose proof (usable_valid _ _ HU) as V. destruct HU as (Cf & Hw & Ho & Hf).
  destruct (C78_welch_real I0 c sc x Cf Hw Ho Hf HL) as (f & p & W & U & Lf & Lp & C). apply U in H. injection H as -> ->.
  destruct (C78_welch_real I0 c sc (map (fun v => g * v)%R x) Cf Hw Ho Hf ltac:(rewrite map_length; exact HL)) as (f' & p' & W' & U' & Lf' & Lp' & C').
  assert (EP : forall m, rpsd c (map (fun v => g * v)%R x) m = (g ^ 2 * rpsd c x m)%R).
  { intros m. unfold psd_avg. rewrite map_length. unfold Rdiv. rewrite <- Rmult_assoc. f_equal. rewrite <- rsum_scale. apply sum_ext. intros i Hi. set (s := rsample c x i).
    rewrite (bin_ext _ _ (fun k => xmul (xre g) (s k))).
    - rewrite bin_scale, xnorm2_mul. unfold xnorm2 at 1, xre. cbn [fst snd]. ring.
    - intros k Hk. unfold s, sample. replace (0%R) with (g * 0)%R at 1 by ring. rewrite (map_nth (fun v => g * v)%R). unfold xmul, xre. cbn [fst snd]. f_equal; ring. }
  replace (Ok (f, map (fun v => g ^ 2 * v)%R p)) with (Ok (f', p')); [exact W'|]. apply (f_equal Ok). apply injective_projections; cbn [fst snd]; apply list_nth_eq.
  - congruence.
  - intros m Hm. destruct (C m ltac:(lia)) as (-> & _). destruct (C' m ltac:(lia)) as (-> & _). reflexivity.
  - rewrite map_length. congruence.
  - intros m Hm. destruct (C' m ltac:(lia)) as (_ & -> & _). rewrite (nth_indep _ 0%R (g ^ 2 * 0)%R) by (rewrite map_length; lia). rewrite (map_nth (fun v => g ^ 2 * v)%R). destruct (C m ltac:(lia)) as (_ & -> & _). rewrite EP. ring.
Qed.
Print Assumptions C127_gain.
(** the hypotheses are met: default object, then window({1, 1, 1, 1}): segments of 4 samples overlapping by 2, the harmonics 1 (and 2), six samples; cos(pi t / 2) has the mean square 1/2 in bin 1 *)
Definition box4 : config := {| c_fs := 1%R; c_window := [1; 1; 1; 1]%R; c_s1 := (4 * 4)%R; c_s2 := 4%R; c_nperseg := 4; c_dflt := true; c_noverlap := 2; c_nthreads := 0 |}.
Lemma box4_configured I0 : configured I0 box4.
Proof.
  destruct (default_config I0) as [d| | |] eqn:Ed; [|unfold default_config in Ed; rewrite WindowsReal.hann_R in Ed by lia; discriminate Ed..].
  apply (cf_window I0 d [1; 1; 1; 1]%R box4 (cf_default I0 d Ed)). unfold default_config in Ed. rewrite WindowsReal.hann_R in Ed by lia. cbn [bind] in Ed. set (w := map _ _) in Ed. clearbody w.
  apply (f_equal (fun o => match o with Ok c => c | _ => d end)) in Ed. subst d. unfold set_window, set_parameters. cbn [c_fs c_window c_s1 c_s2 c_nperseg c_dflt c_noverlap c_nthreads].
  cbn [length Z.of_nat Pos.of_succ_nat Pos.succ Z.quot Z.quotrem fst]. change (Z.quot 4 2) with 2%Z. change (2 <=? 4)%Z with true. cbn [require]. unfold box4. f_equal.
  rewrite s1_bigop, s2_bigop. cbn [bigop map]. f_equal; ring.
Qed.
Example C127_nonvacuous : usable_object (fun _ => 1%R) box4 /\ weight_sum (c_window box4) = 4%R /\ c_window box4 = repeat 1%R 4 /\
  exists f p, welch_r box4 SPECTRUM (real_tone 4 1 0 1 6) (Ok (f, p)) /\ nth 0 p 0%R = 0%R /\ nth 1 p 0%R = (1 / 2)%R /\ nth 2 p 0%R = 0%R.
Proof.
  assert (HU : usable_object (fun _ => 1%R) box4) by (split; [apply box4_configured|]; split; [discriminate|]; split; [reflexivity|cbn; lra]).
  split; [exact HU|]. split; [cbn; lra|]. split; [reflexivity|].
  destruct (C127_real_tone (fun _ => 1%R) box4 1 1 0 1 6 HU ltac:(reflexivity) ltac:(lra) ltac:(cbn; lia) ltac:(lia) ltac:(cbn; lia)) as (f & p & W & _ & _ & _ & P1 & _ & P0).
  change (length (c_window box4)) with 4 in *. exists f, p. split; [exact W|]. split; [apply P0; cbn; lia|]. split; [rewrite P1 by lia; lra|apply P0; cbn; lia].
Qed.
