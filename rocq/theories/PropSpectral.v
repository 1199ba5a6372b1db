(** Properties C54-C57 and C74-C78 (scicpp/signal/spectral.hpp, class Spectrum), over exact numbers.
    The model is Spectral.v / SpectralConc.v, the specification SpectralSpec.v. *)
From Coq Require Import ZArith Reals Permutation Floats Uint63.
From Verif Require Import Base Functional FunctionalProofs Numeric NumericProofs Stats Spec SumLib CplxR Polynomial Fft FftFacts FftConv FftConvFacts Windows WindowsFacts WindowsReal WindowsRange SpectralConc SpectralConcFacts Spectral SpectralSpec SpectralFacts SpectralFacts2 SpectralFacts3 SpectralFacts4 SpectralFacts5.
From Coq Require Import Lra Psatz.
Open Scope nat_scope.

(** * C54: any commutative monoid of spectrum values, any number of threads, any schedule.  [V i] is the spectrum of segment i. *)
Theorem C54_schedule_independent : forall (T : Type) (zero : T) (add : T -> T -> T) (divn : T -> Z -> T),
  (forall x y z, add x (add y z) = add (add x y) z) -> (forall x y, add x y = add y x) -> (forall x, add zero x = x) ->
  forall (nthreads nfft : nat) (nseg : Z) (V : nat -> list T) (psd : nat -> outcome (list T)),
  (forall i, (Z.of_nat i < nseg)%Z -> psd i = Ok (V i) /\ length (V i) = nfft) ->
  forall r, compute_spectrum zero add divn nthreads nfft nseg psd r <->
    r = Ok (map (fun k => divn (nsum zero add (fun i => nth k (V i) zero) (Z.to_nat nseg)) nseg) (seq 0 nfft)).
Proof.
  intros T zero add divn A C Z0 nt nf ns V psd H r. rewrite (compute_spectrum_spec zero add divn A C Z0).
  - assert (E : map (fun k => divn (nsum zero add (fun i => nth k (seg psd i) zero) (Z.to_nat ns)) ns) (seq 0 nf) =
                map (fun k => divn (nsum zero add (fun i => nth k (V i) zero) (Z.to_nat ns)) ns) (seq 0 nf)).
    { apply map_ext. intros k. f_equal. apply sum_ext. intros i Hi. unfold seg. now rewrite (proj1 (H i ltac:(lia))). }
    now rewrite E.
  - intros i Hi. destruct (H i ltac:(lia)). eauto.
Qed.
Print Assumptions C54_schedule_independent.

(** a worker inside the region guarded by the mutex *)
Definition in_region {T} (w : worker (T := T)) : Prop := (exists i v, w = WLocked i v) \/ (exists i v t, w = WMoved i v t) \/ (exists i, w = WStored i).
(** Safety in every reachable state, absence of deadlock, termination of every schedule; when the function returns every segment
    has been computed exactly once, all threads are joined and the mutex is free. *)
Theorem C54_thread_pool : forall (T : Type) (zero : T) (add : T -> T -> T), (forall x y z, add x (add y z) = add (add x y) z) -> (forall x y, add x y = add y x) ->
  forall (nthreads nseg nfft : nat) (psd : nat -> outcome (list T)), 1 <= nthreads -> (forall i, i < nseg -> exists v, psd i = Ok v /\ length v = nfft) ->
  forall s, reachable zero add nthreads nseg nfft psd s ->
    failed s = false /\
    (forall j k w w', nth_error (pool s) j = Some (Some w) -> nth_error (pool s) k = Some (Some w') -> in_region w -> in_region w' -> j = k) /\
    (mn s = MExit \/ exists s', step add nseg psd s s') /\
    Acc (fun s2 s1 => step add nseg psd s1 s2) s /\
    (mn s = MExit -> Permutation (calls s) (seq 0 nseg) /\ lock s = false /\ (forall j o, nth_error (pool s) j = Some o -> o = None)).
Proof.
  intros T zero add A C nt ns nf psd Ht H s R. split; [exact (i_failed _ _ _ _ _ _ _ (inv_reachable zero add C nt ns nf psd H s R))|].
  split; [|split; [|split]].
  - intros j k w w' E E' I I'. apply (exclusion zero add C nt ns nf psd H s j k w w' R E E').
    + destruct I as [(i & v & ->)|[(i & v & t & ->)|(i & ->)]]; discriminate.
    + destruct I' as [(i & v & ->)|[(i & v & t & ->)|(i & ->)]]; discriminate.
  - exact (progress zero add C nt ns nf psd H s R).
  - exact (terminates zero add C nt ns nf psd H Ht s R).
  - intros M. exact (proj2 (exit_result zero add A C nt ns nf psd H s R M)).
Qed.
Print Assumptions C54_thread_pool.

(** the number of threads does not change the result of welch and csd, for any object and any signal *)
Theorem C54_nthreads_irrelevant : forall I0 c sc n m, configured I0 c -> c_window c <> [] ->
  (forall x r, welch_r (with_threads n c) sc x r -> welch_r (with_threads m c) sc x r) /\
  (forall x r, welch_c (with_threads n c) sc x r -> welch_c (with_threads m c) sc x r) /\
  (forall x y r, csd_r (with_threads n c) sc x y r -> csd_r (with_threads m c) sc x y r) /\
  (forall x y r, csd_c (with_threads n c) sc x y r -> csd_c (with_threads m c) sc x y r).
Proof.
  intros I0 c sc n m Cf Hw. apply configured_consistent in Cf.
  assert (W : forall E (spec : list R -> list E -> outcome (list cx)) zeroE emb nbins, (forall w seg, length seg = length w -> w <> [] -> spec w seg = Ok (map (bin w (fun k => emb (nth k seg zeroE))) (seq 0 (nbins (length w))))) ->
    forall x r, welch_impl spec (with_threads n c) (nbins (length (c_window c))) x r -> welch_impl spec (with_threads m c) (nbins (length (c_window c))) x r).
  { intros E spec zeroE emb nbins S x r H. destruct (Z.eq_dec (c_noverlap c) (c_nperseg c)) as [Z1|Z1].
    - apply (zero_step_ub spec) in H; [subst r; apply (zero_step_ub spec)|]; try reflexivity; unfold nstep; cbn [with_threads c_nperseg c_noverlap]; lia.
    - pose proof (k_overlap c Cf). revert H. apply (welch_impl_threads zeroE emb spec nbins S). apply consistent_valid; [assumption|assumption|lia]. }
  assert (W2 : forall E (spec : list R -> list E -> outcome (list cx)) zeroE emb nbins, (forall w seg, length seg = length w -> w <> [] -> spec w seg = Ok (map (bin w (fun k => emb (nth k seg zeroE))) (seq 0 (nbins (length w))))) ->
    forall x y r, welch2_impl spec (with_threads n c) (nbins (length (c_window c))) x y r -> welch2_impl spec (with_threads m c) (nbins (length (c_window c))) x y r).
  { intros E spec zeroE emb nbins S x y r H. destruct (Z.eq_dec (c_noverlap c) (c_nperseg c)) as [Z1|Z1].
    - inversion H as [L|z r' L E1 K|L E1]; [now apply w2_require| |now apply w2_ub]. exfalso. unfold nseg, nstep in E1. cbn [with_threads c_nperseg c_noverlap] in E1.
      rewrite Z1, Z.sub_diag in E1. discriminate E1.
    - pose proof (k_overlap c Cf). revert H. apply (welch2_impl_threads zeroE emb spec nbins S). apply consistent_valid; [assumption|assumption|lia]. }
  pose proof (k_nperseg c Cf) as Np.
  split; [|split; [|split]].
  - intros x r [Hx|p Hx H]; [now apply wr_empty|]. apply (wr_run (with_threads m c) sc x p Hx). cbn [with_threads c_nperseg] in *. rewrite Np, Nat2Z.id in *.
    exact (W _ spec_r 0%R xre (fun k => k / 2 + 1) spec_r_ok x p H).
  - intros x r [Hx|p Hx H]; [now apply wc_empty|]. apply (wc_run (with_threads m c) sc x p Hx). cbn [with_threads c_nperseg] in *. rewrite Np, Nat2Z.id in *.
    exact (W _ spec_c x0 (fun z => z) (fun k => k) spec_c_ok x p H).
  - assert (G : forall x y r, csd_same_r (with_threads n c) sc x y r -> csd_same_r (with_threads m c) sc x y r).
    { intros x y r [p H]. apply (cr_run (with_threads m c) sc x y p). cbn [with_threads c_nperseg] in *. rewrite Np, Nat2Z.id in *.
      exact (W2 _ spec_r 0%R xre (fun k => k / 2 + 1) spec_r_ok x y p H). }
    intros x y r [K|r' Hx Hy L K|y' r' Hx Hy L Z K|x' r' Hx Hy L Z K]; [now apply cs_empty|eapply cs_same|eapply cs_pad_y|eapply cs_pad_x]; eauto.
  - assert (G : forall x y r, csd_same_c (with_threads n c) sc x y r -> csd_same_c (with_threads m c) sc x y r).
    { intros x y r [p H]. apply (cc_run (with_threads m c) sc x y p). cbn [with_threads c_nperseg] in *. rewrite Np, Nat2Z.id in *.
      exact (W2 _ spec_c x0 (fun z => z) (fun k => k) spec_c_ok x y p H). }
    intros x y r [K|r' Hx Hy L K|y' r' Hx Hy L Z K|x' r' Hx Hy L Z K]; [now apply cs_empty|eapply cs_same|eapply cs_pad_y|eapply cs_pad_x]; eauto.
Qed.
Print Assumptions C54_nthreads_irrelevant.
(** three segments on two threads over the integers: the result is the mean (times the divisor), and a run exists *)
Example C54_nonvacuous : compute_spectrum 0%Z Z.add Z.div 2 2 3 (fun i => Ok [Z.of_nat i; 7%Z]) (Ok [1%Z; 7%Z]) /\
  forall r, compute_spectrum 0%Z Z.add Z.div 2 2 3 (fun i => Ok [Z.of_nat i; 7%Z]) r -> r = Ok [1%Z; 7%Z].
Proof.
  assert (A : forall x y z, Z.add x (Z.add y z) = Z.add (Z.add x y) z) by (intros; lia). assert (C : forall x y, Z.add x y = Z.add y x) by (intros; lia).
  assert (Z0 : forall x, Z.add 0 x = x) by (intros; lia).
  pose proof (C54_schedule_independent Z 0%Z Z.add Z.div A C Z0 2 2 3%Z (fun i => [Z.of_nat i; 7%Z]) (fun i => Ok [Z.of_nat i; 7%Z]) ltac:(split; reflexivity)) as H.
  split; [now apply H|]. intros r Hr. apply H in Hr. exact Hr.
Qed.

(** * C55 *)
(** every object a program can build has consistent parameters *)
Theorem C55_configured_consistent : forall I0 c, configured I0 c ->
  c_nperseg c = Z.of_nat (length (c_window c)) /\ (c_noverlap c <= c_nperseg c)%Z /\
  c_s1 c = (bigop Rplus 0 (c_window c) * bigop Rplus 0 (c_window c))%R /\ c_s2 c = bigop Rplus 0%R (map (fun x => x * x)%R (c_window c)).
Proof. intros I0 c H. destruct (configured_consistent I0 c H). auto. Qed.
Print Assumptions C55_configured_consistent.
(** Long enough signals, overlap smaller than the segment: nseg segments of nperseg samples, segment i being the samples
    i step .. i step + nperseg - 1, all inside the signal, and no further one fits.  Missing: the two cases refuted below. *)
Theorem C55_segments_partial : forall I0 c (E : Type) (d : E) (x : list E), configured I0 c -> c_window c <> [] -> (c_noverlap c < c_nperseg c)%Z ->
  (c_nperseg c <= Z.of_nat (length x))%Z ->
  exists n step : nat, Z.of_nat step = (c_nperseg c - c_noverlap c)%Z /\ 1 <= n /\ nseg c (length x) = Ok (Z.of_nat n) /\
    (forall i, i < n -> i * step + length (c_window c) <= length x /\
       exists s, segment c x i = Ok s /\ length s = length (c_window c) /\ forall k, k < length (c_window c) -> nth k s d = nth (i * step + k) x d) /\
    length x < n * step + length (c_window c).
Proof.
  intros I0 c E d x Cf Hw Ho Hx. pose proof (consistent_valid c (configured_consistent _ _ Cf) Hw Ho) as V. rewrite (v_nperseg c V) in Hx. apply Nat2Z.inj_le in Hx.
  exists (nsegs c (length x)), (step_of c). split; [now rewrite <- (nstep_of c V)|]. split; [unfold nsegs; lia|]. split; [now apply nseg_ok|]. split.
  - intros i Hi. split; [now apply nsegs_fit|]. exact (segment_ok d c x i V Hx Hi).
  - now apply nsegs_max.
Qed.
Print Assumptions C55_segments_partial.
(** noverlap = nperseg is accepted by the setter, and then every welch of a non empty signal divides by zero *)
Theorem C55_full_overlap_refuted : forall I0, exists c, configured I0 c /\ forall sc x r, x <> [] -> welch_r c sc x r <-> r = UB.
Proof.
  intros I0. destruct (default_config I0) as [d| | |] eqn:Ed; [|unfold default_config in Ed; rewrite hann_R in Ed by lia; discriminate Ed..].
  pose proof (cf_default I0 d Ed) as Cd. pose proof (configured_consistent I0 d Cd) as K.
  assert (Es : set_noverlap (c_nperseg d) d = Ok {| c_fs := c_fs d; c_window := c_window d; c_s1 := c_s1 d; c_s2 := c_s2 d; c_nperseg := c_nperseg d; c_dflt := false; c_noverlap := c_nperseg d; c_nthreads := c_nthreads d |}).
  { unfold set_noverlap. now rewrite Z.leb_refl. }
  eexists. split; [exact (cf_noverlap I0 d _ _ Cd Es)|]. intros sc x r Hx. split.
  - intros [C|p _ H]; [contradiction|]. apply zero_step_ub in H; [now subst p|]. unfold nstep. cbn [c_nperseg c_noverlap]. lia.
  - intros ->. apply (wr_run _ sc x UB Hx). apply zero_step_ub; [|reflexivity]. unfold nstep. cbn [c_nperseg c_noverlap]. lia.
Qed.
Print Assumptions C55_full_overlap_refuted.
(** signals shorter than the window, with the default object (nperseg 256, noverlap 128): 1 to 128 samples give nseg = 0, no
    sample is read and the zero spectrum is divided by zero; 129 to 255 samples violate the precondition on the segment *)
Theorem C55_short_refuted : forall I0, exists c, default_config I0 = Ok c /\
  (forall x y : list R, 1 <= length x <= 128 -> 1 <= length y <= 128 -> nseg c (length x) = Ok 0%Z /\ forall sc r, welch_r c sc x r <-> welch_r c sc y r) /\
  (forall x : list R, 129 <= length x <= 255 -> forall sc r, welch_r c sc x r <-> r = RequireFail).
Proof.
  intros I0. destruct (default_config I0) as [d| | |] eqn:Ed; [|unfold default_config in Ed; rewrite hann_R in Ed by lia; discriminate Ed..].
  assert (F : length (c_window d) = 256 /\ c_nperseg d = 256%Z /\ c_noverlap d = 128%Z /\ c_nthreads d = 0).
  { unfold default_config in Ed. rewrite hann_R in Ed by lia. cbn [bind] in Ed. set (w := map _ _) in Ed. assert (L : length w = 256) by (unfold w; now rewrite map_length, seq_length).
    clearbody w. apply (f_equal (fun o => match o with Ok c => c | _ => d end)) in Ed. subst d. cbn [c_window c_nperseg c_noverlap c_nthreads]. rewrite L. repeat split; reflexivity. }
  destruct F as (Lw & Np & No & Nt). exists d. split; [reflexivity|].
  assert (N0 : forall n, 1 <= n <= 128 -> nseg d n = Ok 0%Z).
  { intros n Hn. unfold nseg, nstep. rewrite Np, No. change (256 - 128)%Z with 128%Z. cbn [Z.eqb]. f_equal.
    replace (Z.of_nat n - 256)%Z with (- (256 - Z.of_nat n))%Z by lia. rewrite Z.quot_opp_l by lia. rewrite Z.quot_div_nonneg by lia.
    assert (((256 - Z.of_nat n) / 128)%Z = 1%Z); [|lia]. symmetry. apply Z.div_unique_pos with (r := (256 - Z.of_nat n - 128)%Z); lia. }
  assert (N1 : forall n, 129 <= n <= 255 -> nseg d n = Ok 1%Z).
  { intros n Hn. unfold nseg, nstep. rewrite Np, No. change (256 - 128)%Z with 128%Z. cbn [Z.eqb]. f_equal.
    replace (Z.of_nat n - 256)%Z with (- (256 - Z.of_nat n))%Z by lia. rewrite Z.quot_opp_l by lia. rewrite Z.quot_small by lia. reflexivity. }
  split.
  - intros x y Hx Hy. split; [now apply N0|]. assert (G : forall a b sc r, 1 <= length a <= 128 -> 1 <= length b <= 128 -> welch_r d sc a r -> welch_r d sc b r).
    { intros a b sc r Ha Hb [->|p Hn H]; [cbn in Ha; lia|]. apply wr_run; [intros ->; cbn in Hb; lia|]. destruct H as [z q E1 C|E1]; rewrite N0 in E1 by exact Ha; [|discriminate].
      injection E1 as <-. eapply wi_run; [now apply N0|]. inversion C as [r1 L S|s L1|s L1]; [|lia|lia]. apply cs_sequential; [exact L|]. cbn [Z.to_nat accumulate bind] in *. assumption. }
    intros sc r. split; apply G; assumption.
  - intros x Hx sc r.
    assert (P : psd_segment spec_r d x 0 = RequireFail).
    { unfold psd_segment, segment, subvector, nstep. rewrite Np, No, Lw. rewrite Z.min_r by lia.
      destruct (Z.leb_spec 0 (Z.of_nat 0 * (256 - 128))); [|lia]. destruct (Z.leb_spec 0 (Z.of_nat (length x))); [|lia].
      destruct (Z.leb_spec (Z.of_nat 0 * (256 - 128) + Z.of_nat (length x)) (Z.of_nat (length x))); [|lia]. cbn [andb bind].
      destruct (Nat.eqb_spec (length (firstn (Z.to_nat (Z.of_nat (length x))) (skipn (Z.to_nat (Z.of_nat 0 * (256 - 128))) x))) 256) as [C|_]; [|reflexivity].
      rewrite firstn_length, skipn_length in C. lia. }
    split.
    + intros [->|p Hn H]; [cbn in Hx; lia|]. destruct H as [z q E1 C|E1]; rewrite N1 in E1 by exact Hx; [|discriminate]. injection E1 as <-.
      inversion C as [r1 L S|s L1|s L1]; [|lia|lia]. change (Z.to_nat 1) with 1 in S. cbn [accumulate] in S. rewrite P in S. cbn [bind] in S. now subst q r1.
    + intros ->. apply (wr_run d sc x RequireFail); [intros ->; cbn in Hx; lia|]. eapply wi_run; [now apply N1|]. apply cs_sequential; [left; lia|].
      change (Z.to_nat 1) with 1. cbn [accumulate]. now rewrite P.
Qed.
Print Assumptions C55_short_refuted.
(** in binary64 the spectrum of such a short signal is all NaN *)
Theorem C55_short_nan_refuted : forall (psd : nat -> outcome (list float)) r,
  compute_spectrum 0%float PrimFloat.add (fun v n => PrimFloat.div v (of_uint63 (Uint63.of_Z n))) 0 129 0 psd r <-> r = Ok (repeat nan 129).
Proof.
  intros psd r. split.
  - intros C. inversion C as [r1 L S|s L1|s L1]; [|lia|lia]. rewrite <- S. vm_compute. reflexivity.
  - intros ->. apply cs_sequential; [left; lia|]. vm_compute. reflexivity.
Qed.
Print Assumptions C55_short_nan_refuted.

(** A concrete object: default, then window({1, 1}); used below. *)
Definition box2 : config := {| c_fs := 1%R; c_window := [1; 1]%R; c_s1 := (2 * 2)%R; c_s2 := 2%R; c_nperseg := 2; c_dflt := true; c_noverlap := 1; c_nthreads := 0 |}.
Lemma box2_configured I0 : configured I0 box2.
Proof.
  destruct (default_config I0) as [d| | |] eqn:Ed; [|unfold default_config in Ed; rewrite hann_R in Ed by lia; discriminate Ed..].
  apply (cf_window I0 d [1; 1]%R box2 (cf_default I0 d Ed)). unfold default_config in Ed. rewrite hann_R in Ed by lia. cbn [bind] in Ed. set (w := map _ _) in Ed. clearbody w.
  apply (f_equal (fun o => match o with Ok c => c | _ => d end)) in Ed. subst d. unfold set_window, set_parameters. cbn [c_fs c_window c_s1 c_s2 c_nperseg c_dflt c_noverlap c_nthreads].
  cbn [length Z.of_nat Pos.of_succ_nat Pos.succ Z.quot Z.quotrem fst]. change (Z.quot 2 2) with 1%Z. change (1 <=? 2)%Z with true. cbn [require]. unfold box2. f_equal.
  rewrite s1_bigop, s2_bigop. cbn [bigop map]. f_equal; ring.
Qed.
Example C55_nonvacuous : configured (fun _ => 1%R) box2 /\ c_window box2 <> [] /\ (c_noverlap box2 < c_nperseg box2)%Z /\ nseg box2 4 = Ok 3%Z /\
  segment box2 [10; 20; 30; 40]%Z 1 = Ok [20; 30]%Z /\ segment box2 [10; 20; 30; 40]%Z 2 = Ok [30; 40]%Z.
Proof. split; [apply box2_configured|]. split; [discriminate|]. repeat split; reflexivity. Qed.

(** * C78: the results of welch and csd, bin by bin (independent of schedules): factor * one-sided factor * average over the segments *)
Theorem C78_welch_real : forall I0 c sc x, configured I0 c -> c_window c <> [] -> (c_noverlap c < c_nperseg c)%Z -> (0 < c_fs c)%R -> length (c_window c) <= length x ->
  exists f p, welch_r c sc x (Ok (f, p)) /\ (forall r, welch_r c sc x r -> r = Ok (f, p)) /\
    length f = length (c_window c) / 2 + 1 /\ length p = length (c_window c) / 2 + 1 /\
    forall m, m <= length (c_window c) / 2 ->
      nth m f 0%R = (INR m * c_fs c / INR (length (c_window c)))%R /\
      nth m p 0%R = (factor c sc * onesided (length (c_window c)) m * rpsd c x m)%R /\ (0 <= rpsd c x m)%R.
Proof.
  intros I0 c sc x Cf Hw Ho Hf Hx. pose proof (consistent_valid c (configured_consistent _ _ Cf) Hw Ho) as V.
  pose proof (welch_r_ok c sc x) as W. do 2 eexists. split; [apply W; auto|]. split; [intros r Hr; apply W in Hr; assumption|]. rewrite !map_length, !seq_length. split; [reflexivity|]. split; [reflexivity|].
  intros m Hm. rewrite !nth_map_seq by lia. split; [reflexivity|]. split; [reflexivity|].
  unfold psd_avg. apply Rmult_le_pos; [apply rsum_pos; intros; apply xnorm2_pos|]. apply Rlt_le, Rinv_0_lt_compat, lt_0_INR. unfold nsegs. lia.
Qed.
Print Assumptions C78_welch_real.
Theorem C78_welch_complex : forall I0 c sc x, configured I0 c -> c_window c <> [] -> (c_noverlap c < c_nperseg c)%Z -> (0 < c_fs c)%R -> length (c_window c) <= length x ->
  exists f p, welch_c c sc x (Ok (f, p)) /\ (forall r, welch_c c sc x r -> r = Ok (f, p)) /\
    length f = length (c_window c) /\ length p = length (c_window c) /\
    forall m, m < length (c_window c) -> nth m f 0%R = freq_c c m /\ nth m p 0%R = (factor c sc * cpsd c x m)%R.
Proof.
  intros I0 c sc x Cf Hw Ho Hf Hx. pose proof (consistent_valid c (configured_consistent _ _ Cf) Hw Ho) as V.
  pose proof (welch_c_ok c sc x) as W. do 2 eexists. split; [apply W; auto|]. split; [intros r Hr; apply W in Hr; assumption|]. rewrite !map_length, !seq_length. split; [reflexivity|]. split; [reflexivity|].
  intros m Hm. rewrite !nth_map_seq by lia. split; reflexivity.
Qed.
Print Assumptions C78_welch_complex.
(** csd: x and y, the shorter one extended with zeros *)
Theorem C78_csd_real : forall I0 c sc x y, configured I0 c -> c_window c <> [] -> (c_noverlap c < c_nperseg c)%Z -> (0 < c_fs c)%R ->
  x <> [] -> y <> [] -> length (c_window c) <= Nat.max (length x) (length y) ->
  exists f p, csd_r c sc x y (Ok (f, p)) /\ (forall r, csd_r c sc x y r -> r = Ok (f, p)) /\
    length f = length (c_window c) / 2 + 1 /\ length p = length (c_window c) / 2 + 1 /\
    forall m, m <= length (c_window c) / 2 ->
      nth m f 0%R = (INR m * c_fs c / INR (length (c_window c)))%R /\
      nth m p x0 = xscale (factor c sc * onesided (length (c_window c)) m)%R (rcsd c (padded 0%R x (length y)) (padded 0%R y (length x)) m).
Proof.
  intros I0 c sc x y Cf Hw Ho Hf Hx Hy L. pose proof (consistent_valid c (configured_consistent _ _ Cf) Hw Ho) as V.
  assert (L1 : length (c_window c) <= length (padded 0%R x (length y))) by (now rewrite padded_length).
  assert (L2 : length (padded 0%R x (length y)) = length (padded 0%R y (length x))) by (rewrite !padded_length; lia).
  pose proof (fun r => csd_gen 0%R csd_same_r c sc x y r Hx Hy) as G. pose proof (fun r => csd_same_r_ok c sc _ _ r V Hf L1 L2) as W.
  do 2 eexists. split; [apply G, W; reflexivity|]. split; [intros r Hr; apply G, W in Hr; exact Hr|]. rewrite !map_length, !seq_length. split; [reflexivity|]. split; [reflexivity|].
  intros m Hm. rewrite !nth_map_seq by lia. split; reflexivity.
Qed.
Print Assumptions C78_csd_real.
Theorem C78_csd_complex : forall I0 c sc x y, configured I0 c -> c_window c <> [] -> (c_noverlap c < c_nperseg c)%Z -> (0 < c_fs c)%R ->
  x <> [] -> y <> [] -> length (c_window c) <= Nat.max (length x) (length y) ->
  exists f p, csd_c c sc x y (Ok (f, p)) /\ (forall r, csd_c c sc x y r -> r = Ok (f, p)) /\
    length f = length (c_window c) /\ length p = length (c_window c) /\
    forall m, m < length (c_window c) ->
      nth m f 0%R = freq_c c m /\ nth m p x0 = xscale (factor c sc) (ccsd c (padded x0 x (length y)) (padded x0 y (length x)) m).
Proof.
  intros I0 c sc x y Cf Hw Ho Hf Hx Hy L. pose proof (consistent_valid c (configured_consistent _ _ Cf) Hw Ho) as V.
  assert (L1 : length (c_window c) <= length (padded x0 x (length y))) by (now rewrite padded_length).
  assert (L2 : length (padded x0 x (length y)) = length (padded x0 y (length x))) by (rewrite !padded_length; lia).
  pose proof (fun r => csd_gen x0 csd_same_c c sc x y r Hx Hy) as G. pose proof (fun r => csd_same_c_ok c sc _ _ r V Hf L1 L2) as W.
  do 2 eexists. split; [apply G, W; reflexivity|]. split; [intros r Hr; apply G, W in Hr; exact Hr|]. rewrite !map_length, !seq_length. split; [reflexivity|]. split; [reflexivity|].
  intros m Hm. rewrite !nth_map_seq by lia. split; reflexivity.
Qed.
Print Assumptions C78_csd_complex.

(** * C56 *)
Lemma bigop_map_seq (f : nat -> R) n : bigop Rplus 0%R (map f (seq 0 n)) = rsum f n.
Proof. rewrite bigop_nsum by (intros; ring). rewrite map_length, seq_length. apply sum_ext. intros k Hk. now rewrite nth_map_seq. Qed.
Lemma embedded_psd c x m : cpsd c (map xre x) m = rpsd c x m.
Proof.
  unfold psd_avg. rewrite map_length. f_equal. apply sum_ext. intros i Hi. f_equal. apply bin_ext. intros k Hk. unfold sample.
  change x0 with (xre 0). now rewrite map_nth.
Qed.
(** a real signal handed over as complex gives the two-sided spectrum: same bins up to the factor, same total power, for every scaling *)
Theorem C56_onesided_power : forall I0 c sc x f p f2 p2, configured I0 c -> c_window c <> [] -> (c_noverlap c < c_nperseg c)%Z -> (0 < c_fs c)%R -> length (c_window c) <= length x ->
  welch_r c sc x (Ok (f, p)) -> welch_c c sc (map xre x) (Ok (f2, p2)) ->
  (forall m, m <= length (c_window c) / 2 -> m < length (c_window c) ->
     nth m p 0%R = ((if (m =? 0) || (2 * m =? length (c_window c)) then 1 else 2) * nth m p2 0)%R) /\
  bigop Rplus 0%R p = bigop Rplus 0%R p2.
Proof.
  intros I0 c sc x f p f2 p2 Cf Hw Ho Hf Hx H1 H2. pose proof (consistent_valid c (configured_consistent _ _ Cf) Hw Ho) as V. pose proof (vlen c V) as HN.
  apply welch_r_ok in H1; [|assumption..]. apply welch_c_ok in H2; [|try assumption; now rewrite map_length..].
  assert (E1 := f_equal (fun o => match o with Ok q => snd q | _ => [] end) H1). assert (E2 := f_equal (fun o => match o with Ok q => snd q | _ => [] end) H2). cbn [snd] in E1, E2.
  clear H1 H2. subst p p2. set (N := length (c_window c)) in *. split.
  - intros m Hm Hm'. rewrite !nth_map_seq by lia. rewrite embedded_psd.
    assert (EO : onesided N m = if (m =? 0) || (2 * m =? N) then 1%R else 2%R).
    { unfold onesided. pose proof (Nat.div_mod N 2 ltac:(lia)). pose proof (Nat.mod_upper_bound N 2 ltac:(lia)).
      destruct (Nat.eqb_spec m 0), (Nat.eqb_spec (N mod 2) 0), (Nat.eqb_spec m (N / 2)), (Nat.eqb_spec (2 * m) N); cbn [orb andb]; try reflexivity; exfalso; lia. }
    rewrite EO. ring.
  - rewrite !bigop_map_seq.
    rewrite (sum_ext (fun m => factor c sc * onesided N m * rpsd c x m)%R (fun k => factor c sc * (onesided N k * rpsd c x k))%R) by (intros; ring). rewrite !rsum_scale. f_equal.
    unfold N. rewrite rpsd_parseval, cpsd_parseval by assumption. fold N. rewrite map_length. do 2 f_equal. apply sum_ext. intros i Hi. apply sum_ext. intros k Hk. f_equal.
    assert (S : forall k, sample x0 (fun z => z) c (map xre x) i k = sample 0%R xre c x i k) by (intros j; unfold sample; change x0 with (xre 0); now rewrite map_nth).
    unfold windowed. rewrite S. do 2 f_equal. unfold smean. f_equal. apply sum_ext. intros j _. now rewrite S.
Qed.
Print Assumptions C56_onesided_power.
(** Parseval: with DENSITY scaling, the integral of the density over the frequency axis (bin width fs/N) is the window-weighted
    mean square of the detrended segments; [mu i] is the mean of segment i. *)
Theorem C56_parseval : forall I0 c x f p, configured I0 c -> c_window c <> [] -> (c_noverlap c < c_nperseg c)%Z -> (0 < c_fs c)%R -> c_s2 c <> 0%R -> length (c_window c) <= length x ->
  welch_r c DENSITY x (Ok (f, p)) ->
  let N := length (c_window c) in
  let mu i := (rsum (fun k => nth (i * step_of c + k) x 0) N / INR N)%R in
  (c_fs c / INR N * bigop Rplus 0 p)%R =
  (rsum (fun i => rsum (fun k => Rsqr (nth k (c_window c) 0 * (nth (i * step_of c + k) x 0 - mu i))) N / rsum (fun k => Rsqr (nth k (c_window c) 0)) N) (nsegs c (length x)) / INR (nsegs c (length x)))%R.
Proof.
  intros I0 c x f p Cf Hw Ho Hf Hs Hx H N mu. pose proof (consistent_valid c (configured_consistent _ _ Cf) Hw Ho) as V. pose proof (vlen c V) as HN. fold N in HN.
  apply welch_r_ok in H; [|assumption..]. assert (E1 := f_equal (fun o => match o with Ok q => snd q | _ => [] end) H). cbn [snd] in E1. clear H. subst p. fold N.
  assert (ES : rsum (fun k => Rsqr (nth k (c_window c) 0%R)) N = c_s2 c).
  { rewrite (v_s2 c V). rewrite bigop_nsum by (intros; ring). rewrite map_length. apply sum_ext. intros k Hk. rewrite (nth_indep (map (fun x => x * x)%R (c_window c)) 0%R ((fun x => x * x) 0)%R) by (rewrite map_length; exact Hk). now rewrite (map_nth (fun x => x * x)%R). }
  rewrite ES. rewrite bigop_map_seq. rewrite (sum_ext _ (fun k => factor c DENSITY * (onesided N k * rpsd c x k))%R) by (intros; ring). rewrite rsum_scale. unfold N at 2 3. rewrite rpsd_parseval by exact V. fold N.
  assert (HNR : INR N <> 0%R) by (apply not_0_INR; lia). assert (HM : INR (nsegs c (length x)) <> 0%R) by (apply not_0_INR; unfold nsegs; lia).
  rewrite (sum_ext (fun i => _ / c_s2 c)%R (fun i => / c_s2 c * rsum (fun k => Rsqr (nth k (c_window c) 0%R * (nth (i * step_of c + k)%nat x 0%R - mu i))) N)%R) by (intros; unfold Rdiv; ring).
  rewrite rsum_scale. cbn [factor].
  rewrite (sum_ext (fun i => rsum (fun k => xnorm2 (windowed (c_window c) (rsample c x i) k)) N) (fun i => rsum (fun k => Rsqr (nth k (c_window c) 0%R * (nth (i * step_of c + k)%nat x 0%R - mu i))) N)).
  - field. repeat split; try assumption. lra.
  - intros i Hi. apply sum_ext. intros k Hk. unfold windowed, sample. rewrite xre_smean. fold N. fold (mu i). unfold xnorm2, xscale, xsub, xre, Rsqr. cbn [fst snd]. ring.
Qed.
Print Assumptions C56_parseval.

(** concrete values: window {1, 1}, two samples a b, bin 1 of the segment is a - b *)
Lemma root_2_1 : root 2 1 = (-1, 0)%R.
Proof. unfold root, ang. replace (2 * PI * IZR 1 / INR 2)%R with PI by (cbn; field). rewrite cos_PI, sin_PI. f_equal. ring. Qed.
Lemma bin_box2 (s : nat -> cx) : bin [1; 1]%R s 1 = xsub (s 0) (s 1).
Proof.
  unfold bin. cbn [length nsum nth]. change (Z.of_nat 0 * Z.of_nat 1)%Z with 0%Z. change (Z.of_nat 1 * Z.of_nat 1)%Z with 1%Z. rewrite root_0, root_2_1. generalize (smean s 2). intros [m1 m2].
  destruct (s 0) as [a1 a2], (s 1) as [b1 b2]. unfold xadd, xmul, xscale, xsub, x0, x1. cbn [fst snd]. f_equal; ring.
Qed.
Lemma box2_welch c x r : c_window c = [1; 1]%R -> valid c -> (0 < c_fs c)%R -> 2 <= length x -> welch_r c NONE x r ->
  exists f p, r = Ok (f, p) /\ nth 1 p 0%R = (rsum (fun i => Rsqr (nth (i * step_of c) x 0 - nth (i * step_of c + 1) x 0)) (nsegs c (length x)) / INR (nsegs c (length x)))%R.
Proof.
  intros Hw V Hf Hx H. apply welch_r_ok in H; [|assumption|assumption|now rewrite Hw]. do 2 eexists. split; [exact H|]. rewrite Hw. cbn [length]. rewrite nth_map_seq by (cbn; lia).
  unfold onesided. change ((1 =? 0) || ((2 mod 2 =? 0) && (1 =? 2 / 2))) with true. cbn [factor]. unfold psd_avg. rewrite Hw.
  rewrite (sum_ext _ (fun i => Rsqr (nth (i * step_of c)%nat x 0%R - nth (i * step_of c + 1)%nat x 0%R)%R)); [ring|].
  intros i Hi. rewrite bin_box2. unfold sample. rewrite Nat.add_0_r. unfold xnorm2, xsub, xre, Rsqr. cbn [fst snd]. ring.
Qed.
(** the same object after noverlap(0) *)
Definition box2n : config := {| c_fs := 1%R; c_window := [1; 1]%R; c_s1 := (2 * 2)%R; c_s2 := 2%R; c_nperseg := 2; c_dflt := false; c_noverlap := 0; c_nthreads := 0 |}.
Lemma box2_valid : valid box2.
Proof. apply consistent_valid; [exact (configured_consistent (fun _ => 1%R) _ (box2_configured _))|discriminate|reflexivity]. Qed.
Example C78_nonvacuous : forall r, welch_r box2 NONE [0; 0; 1]%R r -> exists f p, r = Ok (f, p) /\ nth 1 p 0%R = (1 / 2)%R.
Proof.
  intros r H. destruct (box2_welch box2 [0; 0; 1]%R r eq_refl box2_valid ltac:(cbn; lra) ltac:(cbn; lia) H) as (f & p & E & N). exists f, p. split; [exact E|]. rewrite N.
  change (step_of box2) with 1. change (nsegs box2 (length [0; 0; 1]%R)) with 2. cbn [nsum nth Nat.mul Nat.add]. unfold Rsqr. cbn [INR]. field.
Qed.
Example C56_nonvacuous : exists f p f2 p2, welch_r box2 DENSITY [0; 0; 1]%R (Ok (f, p)) /\ welch_c box2 DENSITY (map xre [0; 0; 1]%R) (Ok (f2, p2)) /\ c_s2 box2 <> 0%R.
Proof.
  do 4 eexists. split; [apply welch_r_ok; [exact box2_valid|cbn; lra|cbn; lia|reflexivity]|].
  split; [apply welch_c_ok; [exact box2_valid|cbn; lra|cbn; lia|reflexivity]|]. cbn. lra.
Qed.

(** * C57: welch, csd, coherence and tfestimate do not modify the object (their model has no object among the results: no data member is
    assigned in spectral.hpp:125-282 except through periodogram's call of the noverlap setter).  periodogram modifies it. *)
Theorem C57_periodogram_refuted : forall I0, exists c, configured I0 c /\
  forall c' p, periodogram_r c NONE [0; 0]%R (Ok (c', p)) ->
  forall f1 p1 f2 p2, welch_r c NONE [0; 0; 1]%R (Ok (f1, p1)) -> welch_r c' NONE [0; 0; 1]%R (Ok (f2, p2)) -> nth 1 p1 0%R = (1 / 2)%R /\ nth 1 p2 0%R = 0%R.
Proof.
  intros I0. exists box2. split; [apply box2_configured|]. intros c' p H f1 p1 f2 p2 H1 H2.
  destruct (C78_nonvacuous _ H1) as (f & q & E & N). injection E as <- <-. split; [exact N|].
  inversion H as [| |c1 r1 L E W EQ]. destruct r1 as [v| | |]; try discriminate. cbn [bind] in EQ. injection EQ as <- <-.
  assert (Ec : c1 = box2n).
  { unfold set_noverlap in E. cbn [box2 c_nperseg] in E. change (0 <=? 2)%Z with true in E. cbn [require] in E. apply (f_equal (fun o => match o with Ok c => c | _ => c1 end)) in E. symmetry. exact E. }
  subst c1. assert (V : valid box2n).
  { destruct box2_valid as [V1 V2 V3 V4 V5]. constructor; cbn [c_window c_nperseg c_noverlap c_s1 c_s2] in *; try assumption; lia. }
  destruct (box2_welch box2n [0; 0; 1]%R _ eq_refl V ltac:(cbn; lra) ltac:(cbn; lia) H2) as (f' & q' & E' & N'). injection E' as <- <-. rewrite N'.
  change (step_of box2n) with 2. change (nsegs box2n (length [0; 0; 1]%R)) with 1. cbn [nsum nth Nat.mul Nat.add]. unfold Rsqr. cbn [INR]. field.
Qed.
Print Assumptions C57_periodogram_refuted.
(** an object whose overlap was explicitly set to 0 is left unchanged; in general only the overlap settings change *)
Theorem C57_periodogram_partial : forall c sc x c' p, periodogram_r c sc x (Ok (c', p)) ->
  c_fs c' = c_fs c /\ c_window c' = c_window c /\ c_s1 c' = c_s1 c /\ c_s2 c' = c_s2 c /\ c_nperseg c' = c_nperseg c /\ c_nthreads c' = c_nthreads c /\
  (c_noverlap c = 0%Z -> c_dflt c = false -> c' = c).
Proof.
  intros c sc x c' p H. inversion H as [| |c1 r1 L E W EQ]. destruct r1 as [v| | |]; try discriminate. cbn [bind] in EQ. injection EQ as <- <-.
  unfold set_noverlap in E. destruct (0 <=? c_nperseg c)%Z; [|discriminate]. cbn [require] in E.
  apply (f_equal (fun o => match o with Ok c => c | _ => c1 end)) in E. subst c1. cbn [c_fs c_window c_s1 c_s2 c_nperseg c_nthreads]. repeat split; try reflexivity.
  intros N D. rewrite <- N at 1. rewrite <- D at 1. destruct c; reflexivity.
Qed.
Print Assumptions C57_periodogram_partial.
(** periodogram(x) with |x| = |window|: the modified periodogram of the single segment *)
Theorem C57_periodogram_value : forall I0 c sc x, configured I0 c -> c_window c <> [] -> (0 < c_fs c)%R -> length x = length (c_window c) ->
  exists c' f p, periodogram_r c sc x (Ok (c', (f, p))) /\ (forall r, periodogram_r c sc x r -> r = Ok (c', (f, p))) /\ length p = length x / 2 + 1 /\
    forall m, m <= length x / 2 -> nth m p 0%R = (factor c sc * onesided (length x) m * xnorm2 (bin (c_window c) (fun k => xre (nth k x 0%R)) m))%R.
Proof.
  intros I0 c sc x Cf Hw Hf L. pose proof (configured_consistent _ _ Cf) as K. pose proof (k_nperseg c K) as Np.
  destruct (set_noverlap 0 c) as [c1| | |] eqn:E; [|exfalso; unfold set_noverlap in E; destruct (Z.leb_spec 0 (c_nperseg c)); [discriminate E|lia]..].
  pose proof (set_noverlap_consistent 0 c c1 K E) as K1.
  assert (D : c_window c1 = c_window c /\ c_fs c1 = c_fs c /\ c_s1 c1 = c_s1 c /\ c_s2 c1 = c_s2 c /\ c_noverlap c1 = 0%Z /\ c_nperseg c1 = c_nperseg c).
  { unfold set_noverlap in E. destruct (0 <=? c_nperseg c)%Z; [|discriminate]. cbn [require] in E. apply (f_equal (fun o => match o with Ok c => c | _ => c1 end)) in E. subst c1. repeat split; reflexivity. }
  destruct D as (D1 & D2 & D3 & D4 & D5 & D6).
  assert (HN : 1 <= length (c_window c)) by (destruct (c_window c); [contradiction|cbn; lia]).
  assert (V : valid c1) by (apply consistent_valid; [exact K1|now rewrite D1|rewrite D5, D6, Np; lia]).
  pose proof (fun r => welch_r_ok c1 sc x r V ltac:(now rewrite D2) ltac:(rewrite D1; lia)) as W. rewrite D1 in W.
  do 3 eexists. split; [|split; [|split]].
  - change (Ok (?a, (?b, ?d))) with (do v <- Ok (b, d); Ok (a, v)). apply pr_run; [exact L|exact E|]. apply W. reflexivity.
  - intros r H. inversion H as [C|L' E2|c2 r1 L' E2 W2 EQ]; [contradiction|congruence|]. rewrite E in E2. injection E2 as <-. apply W in W2. now rewrite W2.
  - rewrite map_length, seq_length. now rewrite L.
  - intros m Hm. rewrite L in Hm. rewrite nth_map_seq by lia. rewrite L. f_equal.
    + f_equal. destruct sc; cbn [factor]; now rewrite ?D2, ?D3, ?D4.
    + unfold psd_avg, nsegs. rewrite D1, L, Nat.sub_diag. rewrite Nat.div_0_l by (pose proof (step_pos c1 V); lia). cbn [Nat.add nsum INR]. unfold Rdiv. rewrite Rplus_0_l, Rinv_1, Rmult_1_r. reflexivity.
Qed.
Print Assumptions C57_periodogram_value.
Example C57_nonvacuous : exists c' f p, periodogram_r box2 NONE [0; 0]%R (Ok (c', (f, p))).
Proof. destruct (C57_periodogram_value (fun _ => 1%R) box2 NONE [0; 0]%R (box2_configured _) ltac:(discriminate) ltac:(cbn; lra) eq_refl) as (c' & f & p & H & _). eauto. Qed.

(** * C74: setters *)
(** the value of obj.fs(f).nthreads(n).window(w).noverlap(k) has all the settings; the named object only gets the first one *)
Theorem C74_chain_partial : forall (obj : config) (f : R) (n : nat) (w : list R) (k : Z), (c_dflt obj = false -> (c_noverlap obj <= Z.of_nat (length w))%Z) -> (k <= Z.of_nat (length w))%Z ->
  exists obj' v, chain [set_fs f; set_nthreads n; set_window w; set_noverlap k] obj = Ok (obj', v) /\
    c_fs v = f /\ c_nthreads v = n /\ c_window v = w /\ c_nperseg v = Z.of_nat (length w) /\ c_noverlap v = k /\ c_dflt v = false /\
    c_s1 v = (bigop Rplus 0 w * bigop Rplus 0 w)%R /\ c_s2 v = bigop Rplus 0%R (map (fun x => x * x)%R w).
Proof.
  intros obj f n w k Hd Hk. unfold chain, apply_all. cbn [set_fs set_nthreads bind]. unfold set_window, set_parameters. cbn [c_fs c_window c_s1 c_s2 c_nperseg c_dflt c_noverlap c_nthreads].
  assert (B : ((if c_dflt obj then Z.quot (Z.of_nat (length w)) 2 else c_noverlap obj) <=? Z.of_nat (length w))%Z = true).
  { apply Z.leb_le. destruct (c_dflt obj); [apply quot2_le; lia|auto]. }
  rewrite B. cbn [require bind]. unfold set_noverlap. cbn [c_nperseg]. apply Z.leb_le in Hk. rewrite Hk. cbn [require bind]. do 2 eexists. split; [reflexivity|].
  cbn [c_fs c_window c_s1 c_s2 c_nperseg c_dflt c_noverlap c_nthreads]. rewrite s1_bigop, s2_bigop. repeat split; reflexivity.
Qed.
Print Assumptions C74_chain_partial.
Theorem C74_chain_object_refuted : forall (obj : config) (f : R) (w : list R), c_dflt obj = true ->
  exists obj' v, chain [set_fs f; set_window w] obj = Ok (obj', v) /\ c_fs obj' = f /\ c_window obj' = c_window obj /\ c_fs v = f /\ c_window v = w.
Proof.
  intros obj f w Hd. unfold chain, apply_all. cbn [set_fs bind]. unfold set_window, set_parameters. cbn [c_fs c_window c_s1 c_s2 c_nperseg c_dflt c_noverlap c_nthreads]. rewrite Hd.
  assert (B : (Z.quot (Z.of_nat (length w)) 2 <=? Z.of_nat (length w))%Z = true) by (apply Z.leb_le, quot2_le; lia).
  rewrite B. cbn [require bind]. do 2 eexists. split; [reflexivity|]. repeat split; reflexivity.
Qed.
Print Assumptions C74_chain_object_refuted.
(** a new object: Hann window of 256 samples, overlap of 128, sampling rate 1, no threads; giving it a window of another length keeps the overlap at one half
    (rounded down) as long as no overlap has been given, and a given overlap is kept *)
Theorem C74_defaults : forall I0, exists d, default_config I0 = Ok d /\
  length (c_window d) = 256 /\ (forall i, i < 256 -> nth_error (c_window d) i = Some ((1 - cos (2 * PI * INR i / 255)) / 2)%R) /\
  c_fs d = 1%R /\ c_nperseg d = 256%Z /\ c_noverlap d = 128%Z /\ c_nthreads d = 0 /\
  (forall w : list R, exists v, set_window w d = Ok v /\ c_window v = w /\ c_noverlap v = (Z.of_nat (length w) / 2)%Z /\ c_fs v = 1%R /\ c_nperseg v = Z.of_nat (length w)) /\
  (forall (k : Z) (w : list R), (0 <= k <= 256)%Z -> (k <= Z.of_nat (length w))%Z ->
     exists v v', set_noverlap k d = Ok v /\ c_noverlap v = k /\ c_window v = c_window d /\ set_window w v = Ok v' /\ c_noverlap v' = k /\ c_window v' = w).
Proof.
  intros I0. destruct (default_config I0) as [d| | |] eqn:Ed; [|unfold default_config in Ed; rewrite hann_R in Ed by lia; discriminate Ed..].
  exists d. split; [reflexivity|]. unfold default_config in Ed. rewrite hann_R in Ed by lia. cbn [bind] in Ed. set (h := map _ _) in Ed.
  assert (Lh : length h = 256) by (unfold h; now rewrite map_length, seq_length).
  assert (Nh : forall i, i < 256 -> nth_error h i = Some ((1 - cos (2 * PI * INR i / 255)) / 2)%R).
  { intros i Hi. unfold h. rewrite nth_error_map, (nth_error_nth' _ 0) by (rewrite seq_length; exact Hi). rewrite seq_nth by exact Hi. cbn [option_map]. do 5 f_equal. rewrite INR_IZR_INZ. cbn [Z.of_nat Pos.of_succ_nat Pos.succ Nat.add]. lra. }
  clearbody h. apply (f_equal (fun o => match o with Ok c => c | _ => d end)) in Ed. subst d. cbn [c_window c_fs c_nperseg c_noverlap c_nthreads]. rewrite Lh.
  split; [reflexivity|]. split; [exact Nh|]. do 4 (split; [reflexivity|]). split.
  - intros w. unfold set_window, set_parameters. cbn [c_fs c_window c_s1 c_s2 c_nperseg c_dflt c_noverlap c_nthreads].
    assert (B : (Z.quot (Z.of_nat (length w)) 2 <=? Z.of_nat (length w))%Z = true) by (apply Z.leb_le, quot2_le; lia).
    rewrite B. cbn [require]. eexists. split; [reflexivity|]. cbn [c_window c_noverlap c_fs c_nperseg]. rewrite Z.quot_div_nonneg by lia. repeat split; reflexivity.
  - intros k w Hk Hw. unfold set_noverlap. cbn [c_fs c_window c_s1 c_s2 c_nperseg c_dflt c_noverlap c_nthreads].
    change (Z.of_nat 256) with 256%Z. rewrite (proj2 (Z.leb_le k 256) (proj2 Hk)). cbn [require]. do 2 eexists. split; [reflexivity|]. cbn [c_window c_noverlap]. split; [reflexivity|]. split; [reflexivity|].
    unfold set_window, set_parameters. cbn [c_fs c_window c_s1 c_s2 c_nperseg c_dflt c_noverlap c_nthreads]. rewrite (proj2 (Z.leb_le k _) Hw). cbn [require]. split; [reflexivity|]. split; reflexivity.
Qed.
Print Assumptions C74_defaults.
(** the order of the setters matters: an overlap that fits the new window is rejected when it is given before the window *)
Theorem C74_order_refuted : forall I0 (w : list R), length w = 512 -> exists d, default_config I0 = Ok d /\
  chain [set_noverlap 300; set_window w] d = RequireFail /\ exists o v, chain [set_window w; set_noverlap 300] d = Ok (o, v) /\ c_noverlap v = 300%Z.
Proof.
  intros I0 w L. destruct (default_config I0) as [d| | |] eqn:Ed; [|unfold default_config in Ed; rewrite hann_R in Ed by lia; discriminate Ed..].
  assert (F : c_nperseg d = 256%Z /\ c_dflt d = true).
  { unfold default_config in Ed. rewrite hann_R in Ed by lia. cbn [bind] in Ed. set (h := map _ _) in Ed. assert (Lh : length h = 256) by (unfold h; now rewrite map_length, seq_length).
    clearbody h. apply (f_equal (fun o => match o with Ok c => c | _ => d end)) in Ed. subst d. cbn [c_nperseg c_dflt]. rewrite Lh. split; reflexivity. }
  destruct F as (Np & Df). exists d. split; [reflexivity|]. split.
  - unfold chain, set_noverlap. rewrite Np. reflexivity.
  - unfold chain, apply_all, set_window, set_parameters. cbn [c_fs c_window c_s1 c_s2 c_nperseg c_dflt c_noverlap c_nthreads]. rewrite Df, L. cbn [Z.of_nat]. change (Z.quot (Z.of_nat 512) 2 <=? Z.of_nat 512)%Z with true.
    cbn [require bind]. unfold set_noverlap. cbn [c_nperseg]. change (300 <=? Z.of_nat 512)%Z with true. cbn [require bind]. do 2 eexists. split; reflexivity.
Qed.
Print Assumptions C74_order_refuted.
Example C74_nonvacuous : exists o v, chain [set_fs 10; set_nthreads 2; set_window [1; 2; 3]%R; set_noverlap 2] box2 = Ok (o, v) /\ c_noverlap v = 2%Z /\ c_window o = [1; 1]%R.
Proof. do 2 eexists. split; [reflexivity|]. split; reflexivity. Qed.

(** * C75: coherence *)
Lemma ok_inj {A} (a b : A) : Ok a = Ok b -> a = b.
Proof. congruence. Qed.
Theorem C75_coherence_real : forall I0 c x y, configured I0 c -> c_window c <> [] -> (c_noverlap c < c_nperseg c)%Z -> (0 < c_fs c)%R -> length (c_window c) <= length x -> length x = length y ->
  exists f h, (forall r, coherence csd_r welch_r c x y r <-> r = Ok (f, h)) /\ length h = length (c_window c) / 2 + 1 /\
    forall m, m <= length (c_window c) / 2 -> rpsd c x m <> 0%R -> rpsd c y m <> 0%R ->
      (0 <= nth m h 0 <= 1)%R /\ (nsegs c (length x) = 1 \/ (exists al : R, forall k, nth k y 0%R = (al * nth k x 0)%R) -> nth m h 0%R = 1%R).
Proof.
  intros I0 c x y Cf Hw Ho Hf Hx L. pose proof (consistent_valid c (configured_consistent _ _ Cf) Hw Ho) as V. pose proof (vlen c V) as HN.
  pose proof (fun r => welch_r_ok c NONE x r V Hf Hx) as Wx. pose proof (fun r => welch_r_ok c NONE y r V Hf ltac:(rewrite <- L; exact Hx)) as Wy.
  assert (Wxy : forall r, csd_r c NONE x y r <-> r = Ok (map (freq_r c) (seq 0 (length (c_window c) / 2 + 1)),
    map (fun m => xscale (factor c NONE * onesided (length (c_window c)) m)%R (rcsd c x y m)) (seq 0 (length (c_window c) / 2 + 1)))).
  { intros r. unfold csd_r. rewrite csd_gen by (intros ->; cbn in *; try (rewrite <- L in *); lia). unfold padded. rewrite L, Nat.sub_diag. cbn [repeat]. rewrite !app_nil_r. now apply csd_same_r_ok. }
  set (nb := length (c_window c) / 2 + 1) in *. set (N := length (c_window c)) in *.
  set (pxy := map (fun m => xscale (factor c NONE * onesided N m)%R (rcsd c x y m)) (seq 0 nb)) in *.
  set (px := map (fun m => (factor c NONE * onesided N m * rpsd c x m)%R) (seq 0 nb)) in *. set (py := map (fun m => (factor c NONE * onesided N m * rpsd c y m)%R) (seq 0 nb)) in *.
  assert (L1 : length pxy = nb) by (unfold pxy; now rewrite map_length, seq_length). assert (L2 : length px = nb) by (unfold px; now rewrite map_length, seq_length).
  assert (L3 : length py = nb) by (unfold py; now rewrite map_length, seq_length).
  destruct (map2_nth Rdiv (transform1 xnorm2 pxy) px 0%R 0%R 0%R) as (a & Ea & La & Na); [now rewrite transform1_map, map_length, L1, L2|]. rewrite transform1_map, map_length, L1 in La, Na.
  destruct (map2_nth Rdiv a py 0%R 0%R 0%R) as (b & Eb & Lb & Nb); [now rewrite La, L3|]. rewrite La in Lb, Nb.
  exists (map (freq_r c) (seq 0 nb)), b. split; [|split; [exact Lb|]].
  - assert (EQ : (do fp <- Ok (map (freq_r c) (seq 0 nb), pxy); do qx <- Ok (map (freq_r c) (seq 0 nb), px); do qy <- Ok (map (freq_r c) (seq 0 nb), py);
       require (length (snd fp) =? length (snd qx)) (require (length (snd fp) =? length (snd qy))
         (do u <- map2 Rdiv (transform1 xnorm2 (snd fp)) (snd qx); do v <- map2 Rdiv u (snd qy); Ok (fst fp, v)))) = Ok (map (freq_r c) (seq 0 nb), b)).
    { cbn [bind fst snd]. rewrite L1, L2, L3, Nat.eqb_refl. cbn [require]. rewrite Ea. cbn [bind]. rewrite Eb. reflexivity. }
    intros r. split.
    + intros [C|rxy rxx ryy _ H1 H2 H3]; [contradiction|]. apply Wxy in H1. apply Wx in H2. apply Wy in H3. subst rxy rxx ryy. exact EQ.
    + intros ->. rewrite <- EQ. apply co_run; [exact L|now apply Wxy|now apply Wx|now apply Wy].
  - intros m Hm Px Py. assert (Hm' : m < nb) by (unfold nb; lia).
    assert (V1 : nth m b 0%R = (xnorm2 (rcsd c x y m) / (rpsd c x m * rpsd c y m))%R).
    { rewrite Nb by exact Hm'. rewrite Na by exact Hm'. unfold pxy, px, py. rewrite map_map. rewrite !nth_map_seq by exact Hm'. cbn [factor]. rewrite xnorm2_xscale.
      pose proof (onesided_pos N m). field. repeat split; try assumption. lra. }
    rewrite V1. pose proof (psd_nonneg 0%R xre c x m) as P1. pose proof (psd_nonneg 0%R xre c y m) as P2. pose proof (coh_le 0%R xre c x y m L) as K. pose proof (xnorm2_pos (rcsd c x y m)) as P3.
    assert (PP : (0 < rpsd c x m * rpsd c y m)%R) by (apply Rmult_lt_0_compat; lra).
    split; [split|].
    + apply Rmult_le_pos; [exact P3|]. now apply Rlt_le, Rinv_0_lt_compat.
    + apply Rmult_le_reg_r with (r := (rpsd c x m * rpsd c y m)%R); [exact PP|]. unfold Rdiv. rewrite Rmult_assoc, Rinv_l, Rmult_1_r, Rmult_1_l by lra. exact K.
    + intros [N1|(al & Hal)].
      * rewrite (coh_one 0%R xre c x y m L N1). field. split; assumption.
      * assert (Hal' : forall k, xre (nth k y 0%R) = xmul (xre al) (xre (nth k x 0%R))) by (intros k; rewrite Hal; unfold xmul, xre; cbn [fst snd]; f_equal; ring).
        pose proof (csd_gain 0%R xre (xre al) c x y m L Hal') as G. rewrite (csd_swap 0%R xre c x y m L) in G. rewrite (psd_gain 0%R xre (xre al) c x y m L Hal') in *.
        rewrite <- (xnorm2_conj (rcsd c x y m)), G, xnorm2_mul, xnorm2_conj. unfold xre, xnorm2 in *. cbn [fst snd] in *. field. split; [assumption|]. intros C. apply Py. rewrite C. ring.
Qed.
Print Assumptions C75_coherence_real.
Theorem C75_coherence_complex : forall I0 c x y, configured I0 c -> c_window c <> [] -> (c_noverlap c < c_nperseg c)%Z -> (0 < c_fs c)%R -> length (c_window c) <= length x -> length x = length y ->
  exists f h, (forall r, coherence csd_c welch_c c x y r <-> r = Ok (f, h)) /\ length h = length (c_window c) /\
    forall m, m < length (c_window c) -> cpsd c x m <> 0%R -> cpsd c y m <> 0%R ->
      (0 <= nth m h 0 <= 1)%R /\ (nsegs c (length x) = 1 \/ (exists al : cx, forall k, nth k y x0 = xmul al (nth k x x0)) -> nth m h 0%R = 1%R).
Proof.
  intros I0 c x y Cf Hw Ho Hf Hx L. pose proof (consistent_valid c (configured_consistent _ _ Cf) Hw Ho) as V. pose proof (vlen c V) as HN.
  pose proof (fun r => welch_c_ok c NONE x r V Hf Hx) as Wx. pose proof (fun r => welch_c_ok c NONE y r V Hf ltac:(rewrite <- L; exact Hx)) as Wy.
  assert (Wxy : forall r, csd_c c NONE x y r <-> r = Ok (map (freq_c c) (seq 0 (length (c_window c))),
    map (fun m => xscale (factor c NONE) (ccsd c x y m)) (seq 0 (length (c_window c))))).
  { intros r. unfold csd_c. rewrite csd_gen by (intros ->; cbn in *; try (rewrite <- L in *); lia). unfold padded. rewrite L, Nat.sub_diag. cbn [repeat]. rewrite !app_nil_r. now apply csd_same_c_ok. }
  set (nb := length (c_window c)) in *.
  set (pxy := map (fun m => xscale (factor c NONE) (ccsd c x y m)) (seq 0 nb)) in *.
  set (px := map (fun m => (factor c NONE * cpsd c x m)%R) (seq 0 nb)) in *. set (py := map (fun m => (factor c NONE * cpsd c y m)%R) (seq 0 nb)) in *.
  assert (L1 : length pxy = nb) by (unfold pxy; now rewrite map_length, seq_length). assert (L2 : length px = nb) by (unfold px; now rewrite map_length, seq_length).
  assert (L3 : length py = nb) by (unfold py; now rewrite map_length, seq_length).
  destruct (map2_nth Rdiv (transform1 xnorm2 pxy) px 0%R 0%R 0%R) as (a & Ea & La & Na); [now rewrite transform1_map, map_length, L1, L2|]. rewrite transform1_map, map_length, L1 in La, Na.
  destruct (map2_nth Rdiv a py 0%R 0%R 0%R) as (b & Eb & Lb & Nb); [now rewrite La, L3|]. rewrite La in Lb, Nb.
  exists (map (freq_c c) (seq 0 nb)), b. split; [|split; [exact Lb|]].
  - assert (EQ : (do fp <- Ok (map (freq_c c) (seq 0 nb), pxy); do qx <- Ok (map (freq_c c) (seq 0 nb), px); do qy <- Ok (map (freq_c c) (seq 0 nb), py);
       require (length (snd fp) =? length (snd qx)) (require (length (snd fp) =? length (snd qy))
         (do u <- map2 Rdiv (transform1 xnorm2 (snd fp)) (snd qx); do v <- map2 Rdiv u (snd qy); Ok (fst fp, v)))) = Ok (map (freq_c c) (seq 0 nb), b)).
    { cbn [bind fst snd]. rewrite L1, L2, L3, Nat.eqb_refl. cbn [require]. rewrite Ea. cbn [bind]. rewrite Eb. reflexivity. }
    intros r. split.
    + intros [C|rxy rxx ryy _ H1 H2 H3]; [contradiction|]. apply Wxy in H1. apply Wx in H2. apply Wy in H3. subst rxy rxx ryy. exact EQ.
    + intros ->. rewrite <- EQ. apply co_run; [exact L|now apply Wxy|now apply Wx|now apply Wy].
  - intros m Hm' Px Py.
    assert (V1 : nth m b 0%R = (xnorm2 (ccsd c x y m) / (cpsd c x m * cpsd c y m))%R).
    { rewrite Nb by exact Hm'. rewrite Na by exact Hm'. unfold pxy, px, py. rewrite map_map. rewrite !nth_map_seq by exact Hm'. cbn [factor]. rewrite xnorm2_xscale.
      field. repeat split; assumption. }
    rewrite V1. pose proof (psd_nonneg x0 (fun z => z) c x m) as P1. pose proof (psd_nonneg x0 (fun z => z) c y m) as P2. pose proof (coh_le x0 (fun z => z) c x y m L) as K. pose proof (xnorm2_pos (ccsd c x y m)) as P3.
    assert (PP : (0 < cpsd c x m * cpsd c y m)%R) by (apply Rmult_lt_0_compat; lra).
    split; [split|].
    + apply Rmult_le_pos; [exact P3|]. now apply Rlt_le, Rinv_0_lt_compat.
    + apply Rmult_le_reg_r with (r := (cpsd c x m * cpsd c y m)%R); [exact PP|]. unfold Rdiv. rewrite Rmult_assoc, Rinv_l, Rmult_1_r, Rmult_1_l by lra. exact K.
    + intros [N1|(al & Hal)].
      * rewrite (coh_one x0 (fun z => z) c x y m L N1). field. split; assumption.
      * pose proof (csd_gain x0 (fun z => z) al c x y m L Hal) as G. rewrite (csd_swap x0 (fun z => z) c x y m L) in G. rewrite (psd_gain x0 (fun z => z) al c x y m L Hal) in *.
        rewrite <- (xnorm2_conj (ccsd c x y m)), G, xnorm2_mul, xnorm2_conj. replace (xnorm2 (xre (cpsd c x m))) with (cpsd c x m * cpsd c x m)%R by (unfold xre, xnorm2; cbn [fst snd]; ring).
        field. split; [assumption|]. intros C. apply Py. rewrite C. ring.
Qed.
Print Assumptions C75_coherence_complex.
Example C75_nonvacuous : length (c_window box2) <= length [0; 0; 1]%R /\ rpsd box2 [0; 0; 1]%R 1 <> 0%R.
Proof.
  split; [cbn; lia|]. unfold psd_avg. change (nsegs box2 (length [0; 0; 1]%R)) with 2. cbn [nsum box2 c_window]. rewrite !bin_box2. unfold sample. change (step_of _) with 1.
  cbn [Nat.mul Nat.add nth]. unfold xnorm2, xsub, xre. cbn [fst snd INR]. lra.
Qed.

(** * C77: csd.  Real and complex signals of the same length. *)
Theorem C77_csd_self : forall I0 c sc, configured I0 c -> c_window c <> [] -> (c_noverlap c < c_nperseg c)%Z -> (0 < c_fs c)%R ->
  (forall x f p g q, length (c_window c) <= length x -> csd_r c sc x x (Ok (f, p)) -> welch_r c sc x (Ok (g, q)) -> f = g /\ p = map xre q) /\
  (forall x f p g q, length (c_window c) <= length x -> csd_c c sc x x (Ok (f, p)) -> welch_c c sc x (Ok (g, q)) -> f = g /\ p = map xre q).
Proof.
  intros I0 c sc Cf Hw Ho Hf. pose proof (consistent_valid c (configured_consistent _ _ Cf) Hw Ho) as V. pose proof (vlen c V) as HN. split.
  - intros x f p g q Hx H1 H2. assert (Hne : x <> []) by (intros ->; cbn in Hx; lia). apply (csd_gen 0%R csd_same_r) in H1; [|exact Hne|exact Hne].
    unfold padded in H1. rewrite Nat.sub_diag in H1. cbn [repeat] in H1. rewrite app_nil_r in H1. apply csd_same_r_ok in H1; [|assumption..|reflexivity]. apply welch_r_ok in H2; [|assumption..].
    apply ok_inj in H1, H2. apply pair_equal_spec in H1, H2. destruct H1 as [-> ->], H2 as [-> ->]. split; [reflexivity|]. rewrite map_map. apply map_ext. intros m.
    rewrite csd_self, xscale_xre. reflexivity.
  - intros x f p g q Hx H1 H2. assert (Hne : x <> []) by (intros ->; cbn in Hx; lia). apply (csd_gen x0 csd_same_c) in H1; [|exact Hne|exact Hne].
    unfold padded in H1. rewrite Nat.sub_diag in H1. cbn [repeat] in H1. rewrite app_nil_r in H1. apply csd_same_c_ok in H1; [|assumption..|reflexivity]. apply welch_c_ok in H2; [|assumption..].
    apply ok_inj in H1, H2. apply pair_equal_spec in H1, H2. destruct H1 as [-> ->], H2 as [-> ->]. split; [reflexivity|]. rewrite map_map. apply map_ext. intros m.
    rewrite csd_self, xscale_xre. reflexivity.
Qed.
Print Assumptions C77_csd_self.
Theorem C77_csd_swap : forall I0 c sc, configured I0 c -> c_window c <> [] -> (c_noverlap c < c_nperseg c)%Z -> (0 < c_fs c)%R ->
  (forall x y f p g q, x <> [] -> y <> [] -> length (c_window c) <= Nat.max (length x) (length y) ->
     csd_r c sc x y (Ok (f, p)) -> csd_r c sc y x (Ok (g, q)) -> f = g /\ q = map xconj p) /\
  (forall x y f p g q, x <> [] -> y <> [] -> length (c_window c) <= Nat.max (length x) (length y) ->
     csd_c c sc x y (Ok (f, p)) -> csd_c c sc y x (Ok (g, q)) -> f = g /\ q = map xconj p).
Proof.
  intros I0 c sc Cf Hw Ho Hf. pose proof (consistent_valid c (configured_consistent _ _ Cf) Hw Ho) as V. split.
  - intros x y f p g q Hx Hy L H1 H2. apply (csd_gen 0%R csd_same_r) in H1; [|assumption..]. apply (csd_gen 0%R csd_same_r) in H2; [|assumption..].
    assert (L2 : length (padded 0%R x (length y)) = length (padded 0%R y (length x))) by (rewrite !padded_length; lia).
    apply csd_same_r_ok in H1; [|assumption..|rewrite padded_length; lia|exact L2]. apply csd_same_r_ok in H2; [|assumption..|rewrite padded_length; lia|symmetry; exact L2].
    apply ok_inj in H1, H2. apply pair_equal_spec in H1, H2. destruct H1 as [-> ->], H2 as [-> ->]. split; [reflexivity|]. rewrite map_map. apply map_ext. intros m.
    now rewrite xconj_xscale, <- csd_swap.
  - intros x y f p g q Hx Hy L H1 H2. apply (csd_gen x0 csd_same_c) in H1; [|assumption..]. apply (csd_gen x0 csd_same_c) in H2; [|assumption..].
    assert (L2 : length (padded x0 x (length y)) = length (padded x0 y (length x))) by (rewrite !padded_length; lia).
    apply csd_same_c_ok in H1; [|assumption..|rewrite padded_length; lia|exact L2]. apply csd_same_c_ok in H2; [|assumption..|rewrite padded_length; lia|symmetry; exact L2].
    apply ok_inj in H1, H2. apply pair_equal_spec in H1, H2. destruct H1 as [-> ->], H2 as [-> ->]. split; [reflexivity|]. rewrite map_map. apply map_ext. intros m.
    now rewrite xconj_xscale, <- csd_swap.
Qed.
Print Assumptions C77_csd_swap.
(** signals of different lengths: as if the shorter one were extended with zeros; whatever the object *)
Theorem C77_zero_padding : forall c sc,
  (forall x y r, x <> [] -> y <> [] -> csd_r c sc x y r <-> csd_r c sc (x ++ repeat 0%R (length y - length x)) (y ++ repeat 0%R (length x - length y)) r) /\
  (forall x y r, x <> [] -> y <> [] -> csd_c c sc x y r <-> csd_c c sc (x ++ repeat x0 (length y - length x)) (y ++ repeat x0 (length x - length y)) r).
Proof.
  intros c sc.
  assert (G : forall (E : Type) (z : E) same x y r, x <> [] -> y <> [] -> csd z same c sc x y r <-> csd z same c sc (x ++ repeat z (length y - length x)) (y ++ repeat z (length x - length y)) r).
  { intros E z same x y r Hx Hy. rewrite (csd_gen z same) by assumption.
    rewrite (csd_gen z same c sc (x ++ _)); [|destruct x; [contradiction|discriminate]|destruct y; [contradiction|discriminate]].
    unfold padded. rewrite !app_length, !repeat_length.
    replace (length y + (length x - length y) - (length x + (length y - length x))) with 0 by lia. replace (length x + (length y - length x) - (length y + (length x - length y))) with 0 by lia.
    cbn [repeat]. rewrite !app_nil_r. reflexivity. }
  split; intros; apply G; assumption.
Qed.
Print Assumptions C77_zero_padding.
Example C77_nonvacuous : exists f p g q, csd_r box2 DENSITY [0; 0; 1]%R [1; 2]%R (Ok (f, p)) /\ csd_r box2 DENSITY [1; 2]%R [0; 0; 1]%R (Ok (g, q)).
Proof.
  destruct (C78_csd_real (fun _ => 1%R) box2 DENSITY [0; 0; 1]%R [1; 2]%R (box2_configured _) ltac:(discriminate) ltac:(reflexivity) ltac:(cbn; lra) ltac:(discriminate) ltac:(discriminate) ltac:(cbn; lia)) as (f & p & H & _).
  destruct (C78_csd_real (fun _ => 1%R) box2 DENSITY [1; 2]%R [0; 0; 1]%R (box2_configured _) ltac:(discriminate) ltac:(reflexivity) ltac:(cbn; lra) ltac:(discriminate) ltac:(discriminate) ltac:(cbn; lia)) as (g & q & H' & _).
  eauto 8.
Qed.

(** * C76: tfestimate.  For a signal y that is the response of a system of frequency response H to x, the textbook estimate
    csd(x, y) / welch(x) is H; the code computes csd(y, x) / welch(x), the complex conjugate. *)
Lemma tf_real c x y : valid c -> (0 < c_fs c)%R -> length (c_window c) <= length x -> length x = length y ->
  exists f h, (forall r, tfestimate csd_r welch_r c x y r <-> r = Ok (f, h)) /\ length h = length (c_window c) / 2 + 1 /\
    forall m, m <= length (c_window c) / 2 -> rpsd c x m <> 0%R -> nth m h x0 = xscale (/ rpsd c x m)%R (rcsd c y x m).
Proof.
  intros V Hf Hx L. pose proof (vlen c V) as HN. pose proof (fun r => welch_r_ok c NONE x r V Hf Hx) as Wx.
  assert (Wxy : forall r, csd_r c NONE y x r <-> r = Ok (map (freq_r c) (seq 0 (length (c_window c) / 2 + 1)),
    map (fun m => xscale (factor c NONE * onesided (length (c_window c)) m)%R (rcsd c y x m)) (seq 0 (length (c_window c) / 2 + 1)))).
  { intros r. unfold csd_r. rewrite csd_gen by (intros ->; cbn in *; try (rewrite L in *); lia). unfold padded. rewrite L, Nat.sub_diag. cbn [repeat]. rewrite !app_nil_r. apply csd_same_r_ok; auto. now rewrite <- L. }
  set (nb := length (c_window c) / 2 + 1) in *. set (N := length (c_window c)) in *.
  set (pyx := map (fun m => xscale (factor c NONE * onesided N m)%R (rcsd c y x m)) (seq 0 nb)) in *. set (px := map (fun m => (factor c NONE * onesided N m * rpsd c x m)%R) (seq 0 nb)) in *.
  assert (L1 : length pyx = nb) by (unfold pyx; now rewrite map_length, seq_length). assert (L2 : length px = nb) by (unfold px; now rewrite map_length, seq_length).
  destruct (map2_nth (fun z r => xscale (/ r)%R z) pyx px x0 0%R x0) as (a & Ea & La & Na); [now rewrite L1, L2|]. rewrite L1 in La, Na.
  exists (map (freq_r c) (seq 0 nb)), a. split; [|split; [exact La|]].
  - assert (EQ : (do fp <- Ok (map (freq_r c) (seq 0 nb), pyx); do qx <- Ok (map (freq_r c) (seq 0 nb), px);
       do h <- map2 (fun z r => xscale (/ r)%R z) (snd fp) (snd qx); Ok (fst fp, h)) = Ok (map (freq_r c) (seq 0 nb), a)) by (cbn [bind fst snd]; rewrite Ea; reflexivity).
    intros r. split.
    + intros [C|ryx rxx _ H1 H2]; [contradiction|]. apply Wxy in H1. apply Wx in H2. subst ryx rxx. exact EQ.
    + intros ->. rewrite <- EQ. apply tf_run; [exact L|now apply Wxy|now apply Wx].
  - intros m Hm P. assert (Hm' : m < nb) by (unfold nb; lia). rewrite Na by exact Hm'. unfold pyx, px. rewrite !nth_map_seq by exact Hm'. cbn [factor]. rewrite xscale_xscale. f_equal.
    pose proof (onesided_pos N m). field. split; [assumption|lra].
Qed.
Lemma tf_complex c x y : valid c -> (0 < c_fs c)%R -> length (c_window c) <= length x -> length x = length y ->
  exists f h, (forall r, tfestimate csd_c welch_c c x y r <-> r = Ok (f, h)) /\ length h = length (c_window c) /\
    forall m, m < length (c_window c) -> cpsd c x m <> 0%R -> nth m h x0 = xscale (/ cpsd c x m)%R (ccsd c y x m).
Proof.
  intros V Hf Hx L. pose proof (vlen c V) as HN. pose proof (fun r => welch_c_ok c NONE x r V Hf Hx) as Wx.
  assert (Wxy : forall r, csd_c c NONE y x r <-> r = Ok (map (freq_c c) (seq 0 (length (c_window c))), map (fun m => xscale (factor c NONE) (ccsd c y x m)) (seq 0 (length (c_window c))))).
  { intros r. unfold csd_c. rewrite csd_gen by (intros ->; cbn in *; try (rewrite L in *); lia). unfold padded. rewrite L, Nat.sub_diag. cbn [repeat]. rewrite !app_nil_r. apply csd_same_c_ok; auto. now rewrite <- L. }
  set (nb := length (c_window c)) in *.
  set (pyx := map (fun m => xscale (factor c NONE) (ccsd c y x m)) (seq 0 nb)) in *. set (px := map (fun m => (factor c NONE * cpsd c x m)%R) (seq 0 nb)) in *.
  assert (L1 : length pyx = nb) by (unfold pyx; now rewrite map_length, seq_length). assert (L2 : length px = nb) by (unfold px; now rewrite map_length, seq_length).
  destruct (map2_nth (fun z r => xscale (/ r)%R z) pyx px x0 0%R x0) as (a & Ea & La & Na); [now rewrite L1, L2|]. rewrite L1 in La, Na.
  exists (map (freq_c c) (seq 0 nb)), a. split; [|split; [exact La|]].
  - assert (EQ : (do fp <- Ok (map (freq_c c) (seq 0 nb), pyx); do qx <- Ok (map (freq_c c) (seq 0 nb), px);
       do h <- map2 (fun z r => xscale (/ r)%R z) (snd fp) (snd qx); Ok (fst fp, h)) = Ok (map (freq_c c) (seq 0 nb), a)) by (cbn [bind fst snd]; rewrite Ea; reflexivity).
    intros r. split.
    + intros [C|ryx rxx _ H1 H2]; [contradiction|]. apply Wxy in H1. apply Wx in H2. subst ryx rxx. exact EQ.
    + intros ->. rewrite <- EQ. apply tf_run; [exact L|now apply Wxy|now apply Wx].
  - intros m Hm' P. rewrite Na by exact Hm'. unfold pyx, px. rewrite !nth_map_seq by exact Hm'. cbn [factor]. rewrite xscale_xscale. f_equal. field. assumption.
Qed.
(** what is computed: the conjugate of csd(x, y) / welch(x), at the bins where x has power *)
Theorem C76_conjugate_partial : forall I0 c x y, configured I0 c -> c_window c <> [] -> (c_noverlap c < c_nperseg c)%Z -> (0 < c_fs c)%R -> length (c_window c) <= length x -> length x = length y ->
  exists f h, (forall r, tfestimate csd_r welch_r c x y r <-> r = Ok (f, h)) /\ length h = length (c_window c) / 2 + 1 /\
    forall m, m <= length (c_window c) / 2 -> rpsd c x m <> 0%R -> nth m h x0 = xconj (xscale (/ rpsd c x m)%R (rcsd c x y m)).
Proof.
  intros I0 c x y Cf Hw Ho Hf Hx L. pose proof (consistent_valid c (configured_consistent _ _ Cf) Hw Ho) as V.
  destruct (tf_real c x y V Hf Hx L) as (f & h & H1 & H2 & H3). exists f, h. split; [exact H1|]. split; [exact H2|]. intros m Hm P. rewrite H3 by assumption.
  now rewrite (csd_swap 0%R xre c x y m L), xconj_xscale.
Qed.
Print Assumptions C76_conjugate_partial.
(** a real gain is estimated exactly *)
Theorem C76_real_gain_partial : forall I0 c x (al : R), configured I0 c -> c_window c <> [] -> (c_noverlap c < c_nperseg c)%Z -> (0 < c_fs c)%R -> length (c_window c) <= length x ->
  exists f h, (forall r, tfestimate csd_r welch_r c x (map (Rmult al) x) r <-> r = Ok (f, h)) /\
    forall m, m <= length (c_window c) / 2 -> rpsd c x m <> 0%R -> nth m h x0 = xre al.
Proof.
  intros I0 c x al Cf Hw Ho Hf Hx. pose proof (consistent_valid c (configured_consistent _ _ Cf) Hw Ho) as V.
  assert (L : length x = length (map (Rmult al) x)) by (now rewrite map_length).
  destruct (tf_real c x (map (Rmult al) x) V Hf Hx L) as (f & h & H1 & H2 & H3). exists f, h. split; [exact H1|]. intros m Hm P. rewrite H3 by assumption.
  assert (Hal : forall k, xre (nth k (map (Rmult al) x) 0%R) = xmul (xre al) (xre (nth k x 0%R))).
  { intros k. replace 0%R with (al * 0)%R at 1 by ring. rewrite map_nth. unfold xmul, xre. cbn [fst snd]. f_equal; ring. }
  rewrite (csd_gain 0%R xre (xre al) c x _ m L Hal). unfold xscale, xmul, xconj, xre. cbn [fst snd]. f_equal; field; exact P.
Qed.
Print Assumptions C76_real_gain_partial.
(** a complex gain al is estimated as its conjugate *)
Theorem C76_complex_gain_refuted : forall I0 c x (al : cx), configured I0 c -> c_window c <> [] -> (c_noverlap c < c_nperseg c)%Z -> (0 < c_fs c)%R -> length (c_window c) <= length x ->
  snd al <> 0%R ->
  exists f h, (forall r, tfestimate csd_c welch_c c x (map (xmul al) x) r <-> r = Ok (f, h)) /\
    forall m, m < length (c_window c) -> cpsd c x m <> 0%R -> nth m h x0 = xconj al /\ nth m h x0 <> al.
Proof.
  intros I0 c x al Cf Hw Ho Hf Hx Ha. pose proof (consistent_valid c (configured_consistent _ _ Cf) Hw Ho) as V.
  assert (L : length x = length (map (xmul al) x)) by (now rewrite map_length).
  destruct (tf_complex c x (map (xmul al) x) V Hf Hx L) as (f & h & H1 & H2 & H3). exists f, h. split; [exact H1|]. intros m Hm P.
  assert (Hal : forall k, nth k (map (xmul al) x) x0 = xmul al (nth k x x0)).
  { intros k. replace x0 with (xmul al x0) at 1 by ring. apply map_nth. }
  assert (E : nth m h x0 = xconj al).
  { rewrite H3 by assumption. rewrite (csd_gain x0 (fun z => z) al c x _ m L Hal). destruct al. unfold xscale, xmul, xconj, xre. cbn [fst snd]. f_equal; field; exact P. }
  split; [exact E|]. rewrite E. destruct al as [a b]. unfold xconj. cbn [snd] in *. intros C. injection C as C. lra.
Qed.
Print Assumptions C76_complex_gain_refuted.
(** real signals, rectangular window of N samples, y = x delayed (circularly) by one sample: the frequency response of the delay is
    exp(-2 i pi m / N) at bin m, the estimate is exp(+2 i pi m / N) *)
Theorem C76_delay_refuted : forall I0 c (x : list R) (a : R) N, configured I0 c -> c_window c = repeat 1%R N -> (c_noverlap c < c_nperseg c)%Z -> (0 < c_fs c)%R ->
  N = S (length x) -> exists f h, (forall r, tfestimate csd_r welch_r c (x ++ [a]) (a :: x) r <-> r = Ok (f, h)) /\
    forall m, m <= N / 2 -> rpsd c (x ++ [a]) m <> 0%R ->
      nth m h x0 = (cos (2 * PI * INR m / INR N), sin (2 * PI * INR m / INR N))%R /\
      bin (repeat 1%R N) (fun k => xre (nth k (a :: x) 0%R)) m = xmul (cos (2 * PI * INR m / INR N), - sin (2 * PI * INR m / INR N))%R (bin (repeat 1%R N) (fun k => xre (nth k (x ++ [a]) 0%R)) m).
Proof.
  intros I0 c x a N Cf Ew Ho Hf HN. assert (Lw : length (c_window c) = N) by (now rewrite Ew, repeat_length).
  assert (Hw : c_window c <> []) by (intros C; rewrite C in Lw; cbn in Lw; lia).
  pose proof (consistent_valid c (configured_consistent _ _ Cf) Hw Ho) as V. assert (L : length (x ++ [a]) = length (a :: x)) by (rewrite app_length; cbn; lia).
  assert (Lx : length (x ++ [a]) = N) by (rewrite app_length; cbn; lia).
  destruct (tf_real c (x ++ [a]) (a :: x) V Hf ltac:(lia) L) as (f & h & H1 & H2 & H3). exists f, h. split; [exact H1|]. intros m Hm P.
  assert (Sh : bin (repeat 1%R N) (fun k => xre (nth k (a :: x) 0%R)) m = xmul (root N (Z.of_nat m)) (bin (repeat 1%R N) (fun k => xre (nth k (x ++ [a]) 0%R)) m)).
  { apply bin_shift; [lia| |].
    - cbn [nth]. f_equal. subst N. rewrite Nat.sub_succ, Nat.sub_0_r, app_nth2, Nat.sub_diag by lia. reflexivity.
    - intros k Hk. cbn [nth]. f_equal. rewrite app_nth1 by lia. reflexivity. }
  assert (RT : root N (Z.of_nat m) = (cos (2 * PI * INR m / INR N), - sin (2 * PI * INR m / INR N))%R) by (unfold root, ang; now rewrite <- INR_IZR_INZ).
  split; [|now rewrite <- RT].
  rewrite H3 by (try assumption; rewrite Lw; exact Hm). revert P. unfold csd_avg, psd_avg, nsegs. rewrite <- L, Lx, Lw, Nat.sub_diag. rewrite Nat.div_0_l by (pose proof (step_pos c V); lia). cbn [Nat.add nsum INR]. rewrite Ew.
  rewrite !(bin_ext (repeat 1%R N) (sample 0%R xre c (x ++ [a]) 0) (fun k => xre (nth k (x ++ [a]) 0%R))) by reflexivity.
  rewrite !(bin_ext (repeat 1%R N) (sample 0%R xre c (a :: x) 0) (fun k => xre (nth k (a :: x) 0%R))) by reflexivity. rewrite Sh, RT.
  destruct (bin (repeat 1%R N) (fun k => xre (nth k (x ++ [a]) 0%R)) m) as [b1 b2]. unfold xnorm2, xscale, xadd, xmul, xconj, x0. cbn [fst snd]. intros P.
  assert (Q : (b1 * b1 + b2 * b2 <> 0)%R) by (intros C; apply P; rewrite Rplus_0_l, C; unfold Rdiv; ring). f_equal; field; rewrite ?Rplus_0_l; exact Q.
Qed.
Print Assumptions C76_delay_refuted.
(** boxcar of three samples, x = (1, 0, 0): bin 1 has power *)
Example C76_nonvacuous : forall c, c_window c = repeat 1%R 3 -> c_nperseg c = 3%Z -> c_noverlap c = 0%Z -> rpsd c ([1; 0] ++ [0])%R 1 = 1%R.
Proof.
  intros c Ew Np No. unfold psd_avg, nsegs. rewrite Ew. cbn [app length repeat Nat.sub]. unfold step_of. rewrite Np, No. change (0 / Z.to_nat (3 - 0)) with 0. cbn [Nat.add nsum INR].
  assert (B : bin [1; 1; 1]%R (sample 0%R xre c [1; 0; 0]%R 0) 1 = x1).
  { unfold bin. cbn [length nsum nth]. unfold smean, sample. cbn [nsum Nat.mul Nat.add nth INR].
    change (Z.of_nat 0 * Z.of_nat 1)%Z with 0%Z. change (Z.of_nat 1 * Z.of_nat 1)%Z with 1%Z. change (Z.of_nat 2 * Z.of_nat 1)%Z with 2%Z. rewrite root_0.
    assert (R2 : root 3 2 = xconj (root 3 1)).
    { rewrite root_conj. change (- (1))%Z with (-1)%Z. transitivity (xmul (root 3 3) (root 3 (-1))); [rewrite <- root_add by lia; reflexivity|]. change 3%Z with (Z.of_nat 3) at 1. rewrite root_N by lia. unfold xmul, x1. destruct (root 3 (-1)). cbn [fst snd]. f_equal; ring. }
    rewrite R2. assert (RC : fst (root 3 1) = (-1 / 2)%R).
    { unfold root, ang. cbn [fst INR]. replace (2 * PI * 1 / (1 + 1 + 1))%R with (2 * (PI / 3))%R by field. rewrite cos_2a_cos, cos_PI3. field. }
    destruct (root 3 1) as [u v]. cbn [fst] in RC. subst u. unfold xadd, xmul, xscale, xsub, xconj, xre, x0, x1. cbn [fst snd]. f_equal; field. }
  change (repeat 1%R 3) with [1; 1; 1]%R in *. cbn [repeat] in *. rewrite B. unfold xnorm2, x1. cbn [fst snd]. field.
Qed.
