(** Property C131: cross-spectra, coherence and transfer functions of one real and one complex signal (scicpp/signal/spectral.hpp).
    The model is SpectralMixed.v / Spectral.v, the specification SpectralSpec.v. *)
From Coq Require Import ZArith Reals.
From Verif Require Import Base Functional FunctionalProofs Numeric NumericProofs Stats Spec SumLib CplxR Polynomial Fft FftFacts FftConv FftConvFacts Windows WindowsFacts WindowsReal WindowsRange SpectralConc SpectralConcFacts Spectral SpectralSpec SpectralFacts SpectralFacts2 SpectralFacts3 SpectralFacts4 SpectralFacts5 PropSpectral SpectralMixed SpectralMixedFacts.
From Coq Require Import Lra Psatz.
Open Scope nat_scope.

(** the real signal counts as the complex signal with the same samples, for every object, scaling and pair of lengths *)
Theorem C131_embedding : forall c sc,
  (forall (x : list R) (y : list cx) r, csd_rc c sc x y r <-> csd_c c sc (map (fun v => (v, 0%R)) x) y r) /\
  (forall (x : list cx) (y : list R) r, csd_cr c sc x y r <-> csd_c c sc x (map (fun v => (v, 0%R)) y) r).
Proof. intros c sc. split; intros x y r; [apply (csd_rc_c c sc x y r)|apply (csd_cr_c c sc x y r)]. Qed.
Print Assumptions C131_embedding.
(** the values: two-sided, bin m is the average over the segments of conj(X m) * Y m, X and Y being the DFTs of the detrended windowed samples *)
Theorem C131_value : forall I0 c sc (x : list R) (y : list cx), configured I0 c -> c_window c <> [] -> (c_noverlap c < c_nperseg c)%Z -> (0 < c_fs c)%R ->
  x <> [] -> y <> [] -> length (c_window c) <= Nat.max (length x) (length y) ->
  exists f p q, (forall r, csd_rc c sc x y r <-> r = Ok (f, p)) /\ (forall r, csd_cr c sc y x r <-> r = Ok (f, q)) /\
    length f = length (c_window c) /\ length p = length (c_window c) /\ q = map xconj p /\
    forall m, m < length (c_window c) -> nth m f 0%R = freq_c c m /\
      let n := Nat.max (length x) (length y) in
      nth m p x0 = xscale (factor c sc) (xscale (/ INR (nsegs c n))%R (xsum (fun i =>
        xmul (xconj (bin (c_window c) (fun k => (nth (i * step_of c + k) x 0%R, 0%R)) m)) (bin (c_window c) (fun k => nth (i * step_of c + k) y x0) m)) (nsegs c n))).
Proof.
  intros I0 c sc x y Cf Hw Ho Hf Hx Hy L. pose proof (consistent_valid c (configured_consistent _ _ Cf) Hw Ho) as V.
  assert (Hx' : map xre x <> []) by (destruct x; [contradiction|discriminate]).
  assert (Lx : length (map xre x) = length x) by apply map_length.
  destruct (C78_csd_complex I0 c sc (map xre x) y Cf Hw Ho Hf Hx' Hy ltac:(now rewrite Lx)) as (f & p & P & U & Lf & Lp & C).
  destruct (C78_csd_complex I0 c sc y (map xre x) Cf Hw Ho Hf Hy Hx' ltac:(rewrite Lx; lia)) as (g & q & P2 & U2 & Lg & Lq & C2).
  destruct (proj2 (C77_csd_swap I0 c sc Cf Hw Ho Hf) (map xre x) y f p g q Hx' Hy ltac:(now rewrite Lx) P P2) as [<- Eq].
  exists f, p, q. split; [intros r; rewrite csd_rc_c; split; [apply U|now intros ->]|]. split; [intros r; rewrite csd_cr_c; split; [apply U2|now intros ->]|].
  split; [exact Lf|]. split; [exact Lp|]. split; [exact Eq|]. intros m Hm. destruct (C m Hm) as [F P']. split; [exact F|]. cbv zeta. rewrite P'. unfold csd_avg.
  rewrite padded_length, Lx. do 2 f_equal. apply sum_ext. intros i _. unfold sample. f_equal; [f_equal|]; apply bin_ext; intros k _; rewrite padded_nth; [|reflexivity].
  change x0 with (xre 0%R). now rewrite map_nth.
Qed.
Print Assumptions C131_value.
(** tfestimate with a complex input signal and a real output signal *)
Theorem C131_tfestimate_partial : forall I0 c (x : list cx) (y : list R), configured I0 c -> c_window c <> [] -> (c_noverlap c < c_nperseg c)%Z -> (0 < c_fs c)%R ->
  length (c_window c) <= length x -> length x = length y ->
  exists f h, (forall r, tfestimate_cr c x y r <-> r = Ok (f, h)) /\ length h = length (c_window c) /\
    forall m, m < length (c_window c) -> cpsd c x m <> 0%R -> nth m h x0 = xscale (/ cpsd c x m)%R (ccsd c (map (fun v => (v, 0%R)) y) x m).
Proof.
  intros I0 c x y Cf Hw Ho Hf Hx L. pose proof (consistent_valid c (configured_consistent _ _ Cf) Hw Ho) as V.
  destruct (tf_complex c x (map xre y) V Hf Hx ltac:(now rewrite map_length)) as (f & h & U & Lh & C). exists f, h. split; [|split; [exact Lh|exact C]].
  intros r. rewrite <- U. split.
  - intros [D|ryx rxx _ A B]; [contradiction|]. apply tf_run; [now rewrite map_length|now apply csd_rc_c|exact B].
  - intros [D|ryx rxx _ A B]; [rewrite map_length in D; contradiction|]. apply tf2_run; [exact L|now apply csd_rc_c|exact B].
Qed.
Print Assumptions C131_tfestimate_partial.
(** the other way round the spectra have different numbers of bins: with a window of more than two samples the size check fails whatever the signals *)
Theorem C131_tfestimate_refuted : forall I0 c (x : list R) (y : list cx), configured I0 c -> 2 < length (c_window c) -> (c_noverlap c < c_nperseg c)%Z -> (0 < c_fs c)%R ->
  length (c_window c) <= length x -> length x = length y -> forall r, tfestimate_rc c x y r <-> r = RequireFail.
Proof.
  intros I0 c x y Cf HN Ho Hf Hx L. assert (Hw : c_window c <> []) by (intros E; rewrite E in HN; cbn in HN; lia).
  assert (Nx : x <> []) by (intros ->; cbn in Hx; lia). assert (Ny : y <> []) by (intros ->; cbn in L; rewrite L in Hx; cbn in Hx; lia).
  destruct (C131_value I0 c NONE x y Cf Hw Ho Hf Nx Ny ltac:(lia)) as (f & p & q & _ & Uq & Lf & Lp & Eq & _).
  assert (Lq : length q = length (c_window c)) by (rewrite Eq, map_length; exact Lp).
  destruct (C78_welch_real I0 c NONE x Cf Hw Ho Hf Hx) as (fx & px & W & UW & Lfx & Lpx & _).
  assert (D : length (c_window c) / 2 + 1 < length (c_window c)).
  { enough (length (c_window c) / 2 < length (c_window c) - 1) by lia. apply Nat.div_lt_upper_bound; lia. }
  assert (B : map2 (fun z r => xscale (/ r)%R z) q px = RequireFail).
  { unfold map2, map2_fresh. rewrite Lq, Lpx. now rewrite (proj2 (Nat.eqb_neq _ _)) by lia. }
  intros r. split.
  - intros [C|ryx rxx _ H1 H2]; [contradiction|]. apply Uq in H1. apply UW in H2. subst. cbn [bind fst snd]. rewrite B. reflexivity.
  - intros ->. pose proof (tf2_run csd_cr welch_r c x y _ _ L (proj2 (Uq _) eq_refl) W) as T. cbn [bind fst snd] in T. rewrite B in T. exact T.
Qed.
Print Assumptions C131_tfestimate_refuted.
(** and so does the coherence, in both orders *)
Theorem C131_coherence_refuted : forall I0 c (x : list R) (y : list cx), configured I0 c -> 2 < length (c_window c) -> (c_noverlap c < c_nperseg c)%Z -> (0 < c_fs c)%R ->
  length (c_window c) <= length x -> length x = length y -> (forall r, coherence_rc c x y r <-> r = RequireFail) /\ (forall r, coherence_cr c y x r <-> r = RequireFail).
Proof.
  intros I0 c x y Cf HN Ho Hf Hx L. assert (Hw : c_window c <> []) by (intros E; rewrite E in HN; cbn in HN; lia).
  assert (Nx : x <> []) by (intros ->; cbn in Hx; lia). assert (Ny : y <> []) by (intros ->; cbn in L; rewrite L in Hx; cbn in Hx; lia).
  destruct (C131_value I0 c NONE x y Cf Hw Ho Hf Nx Ny ltac:(lia)) as (f & p & q & Up & Uq & Lf & Lp & Eq & _).
  assert (Lq : length q = length (c_window c)) by (rewrite Eq, map_length; exact Lp).
  destruct (C78_welch_real I0 c NONE x Cf Hw Ho Hf Hx) as (fx & px & W & UW & Lfx & Lpx & _).
  destruct (C78_welch_complex I0 c NONE y Cf Hw Ho Hf ltac:(now rewrite <- L)) as (fy & py & WY & UWY & Lfy & Lpy & _).
  assert (D : length (c_window c) / 2 + 1 < length (c_window c)).
  { enough (length (c_window c) / 2 < length (c_window c) - 1) by lia. apply Nat.div_lt_upper_bound; lia. }
  split; intros r; split.
  - intros [C|rxy rxx ryy _ H1 H2 H3]; [contradiction|]. apply Up in H1. apply UW in H2. apply UWY in H3. subst. cbn [bind fst snd]. rewrite Lp, Lpx. now rewrite (proj2 (Nat.eqb_neq _ _)) by lia.
  - intros ->. pose proof (co2_run csd_rc welch_r welch_c c x y _ _ _ L (proj2 (Up _) eq_refl) W WY) as T. cbn [bind fst snd] in T. rewrite Lp, Lpx in T. rewrite (proj2 (Nat.eqb_neq _ _)) in T by lia. exact T.
  - intros [C|rxy rxx ryy _ H1 H2 H3]; [congruence|]. apply Uq in H1. apply UWY in H2. apply UW in H3. subst. cbn [bind fst snd]. rewrite map_length, Lp, Lpy, Lpx, Nat.eqb_refl. cbn [require]. now rewrite (proj2 (Nat.eqb_neq _ _)) by lia.
  - intros ->. pose proof (co2_run csd_cr welch_c welch_r c y x _ _ _ (eq_sym L) (proj2 (Uq _) eq_refl) WY W) as T. cbn [bind fst snd] in T. rewrite Lq, Lpy, Lpx, Nat.eqb_refl in T. cbn [require] in T. rewrite (proj2 (Nat.eqb_neq _ _)) in T by lia. exact T.
Qed.
Print Assumptions C131_coherence_refuted.
(** a default object with 256 real and 256 complex samples; two samples for the values *)
Example C131_nonvacuous : (exists f p, csd_rc box2 NONE [0; 0; 1]%R [x0; xre 1] (Ok (f, p))) /\
  exists c, default_config (fun _ => 1%R) = Ok c /\ forall (x : list R) (y : list cx), length x = 256 -> length y = 256 -> forall r, coherence_rc c x y r <-> r = RequireFail.
Proof.
  split.
  - destruct (C131_value (fun _ => 1%R) box2 NONE [0; 0; 1]%R [x0; xre 1] (box2_configured _) ltac:(discriminate) ltac:(reflexivity) ltac:(cbn; lra) ltac:(discriminate) ltac:(discriminate) ltac:(cbn; lia)) as (f & p & q & U & _).
    exists f, p. now apply U.
  - destruct (C74_defaults (fun _ => 1%R)) as (d & Ed & Lw & _ & Fs & Np & No & _). exists d. split; [exact Ed|]. intros x y Lx Ly.
    apply (fun a b c' d' e f' => proj1 (C131_coherence_refuted (fun _ => 1%R) d x y a b c' d' e f')); [now apply cf_default|rewrite Lw; lia|rewrite No, Np; reflexivity|rewrite Fs; lra|rewrite Lw, Lx; lia|congruence].
Qed.
