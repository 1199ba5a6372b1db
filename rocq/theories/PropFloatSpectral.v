(** * C124: spectra in floating-point arithmetic, for every FFT and every schedule *)
From Coq Require Import ZArith Reals Permutation List.
From Flocq Require Import Core Mult_error.
From Verif Require Import Base Functional CplxR SpectralConc Spectral FloatSpectral FloatArithFacts PropFloatArith PropFloatVar PropFloatWindows FloatWindowsFacts PropFloatUnits
  Spec FloatSpectralFacts FloatSpectralErr FloatSpectralSelf FloatSpectralRatio.
From Coq Require Import Lra Psatz Lia.
Open Scope R_scope.

(** ** Vocabulary *)
(** a configured object: the segments have the length of the window and overlap by less *)
Definition ready (c : config) : Prop := c_nperseg c = Z.of_nat (length (c_window c)) /\ c_window c <> [] /\ (c_noverlap c < c_nperseg c)%Z.
Definition step (c : config) : nat := Z.to_nat (c_nperseg c - c_noverlap c).
(** how many whole segments a signal of [len] samples has, and the i-th one *)
Definition count (c : config) (len : nat) : nat := (1 + (len - length (c_window c)) / step c)%nat.
Definition samples {E} (c : config) (x : list E) (i : nat) : list E := firstn (length (c_window c)) (skipn (i * step c) x).
Definition bins (sd : sides) (N : nat) : nat := match sd with ONESIDED => (N / 2 + 1)%nat | TWOSIDED => N end.
(** the FFT code gives X i for the i-th segment of x *)
Definition transforms {E} (fft : list R -> list E -> outcome (list cx)) (sd : sides) (c : config) (x : list E) (X : nat -> list cx) : Prop :=
  forall i, (i < count c (length x))%nat -> fft (c_window c) (samples c x i) = Ok (X i) /\ length (X i) = bins sd (length (c_window c)).
(** sum of f 0 .. f (n - 1) *)
Definition sum_to (n : nat) (f : nat -> R) : R := total (map f (seq 0 n)).
(** one-sided spectra count twice the bins that have a negative counterpart *)
Definition sided (sd : sides) (N k : nat) : R := match sd with TWOSIDED => 1 | ONESIDED => if ((k =? 0) || (2 * k =? N))%nat then 1 else 2 end.
Definition norm_factor (c : config) (sc : scaling) : R := match sc with DENSITY => c_fs c * c_s2 c | SPECTRUM => c_s1 c | NONE => 1 end.
(** the exact average over the segments of P *)
Definition average (sd : sides) (c : config) (sc : scaling) (n : nat) (P : nat -> R) (k : nat) : R :=
  sided sd (length (c_window c)) k * (sum_to n P / INR n) / norm_factor c sc.
Definition roundings (n : nat) (sc : scaling) : nat := (n + 3 + match sc with DENSITY => 2 | SPECTRUM => 1 | NONE => 0 end)%nat.
Definition sym (ties : Z -> bool) : Prop := forall m, ties m = negb (ties (- (m + 1)))%Z.

Lemma ready_usable c : ready c -> usable c. Proof. intros (A & B & C). now constructor. Qed.
Lemma bins_nbins sd c : ready c -> nbins sd c = bins sd (length (c_window c)). Proof. intros (A & _). unfold nbins, bins. destruct sd; now rewrite A, Nat2Z.id. Qed.
Lemma total_bigop l : total l = bigop Rplus 0 l. Proof. induction l as [|a l IH]; [reflexivity|]. cbn. now rewrite <- IH. Qed.
Lemma sided_weight sd N k : sided sd N k = weight sd N k. Proof. unfold sided, weight, unpaired. now destruct sd. Qed.
Lemma odd_flx prec ties x : sym ties -> nearest_flx prec ties (- x) = - nearest_flx prec ties x.
Proof.
  intros H. unfold nearest_flx, round, scaled_mantissa. rewrite cexp_opp, <- Ropp_mult_distr_l, Znearest_opp.
  assert (E : forall y, Znearest (fun t => negb (ties (- (t + 1))%Z)) y = Znearest ties y) by (intros y; unfold Znearest; now rewrite <- H).
  rewrite E. unfold F2R. cbn [Fnum Fexp]. rewrite opp_IZR. ring.
Qed.
Section Instances.
Variables (prec : Z) (ties : Z -> bool).
Hypothesis Hp : (0 < prec)%Z.
Let RD := flx_rd prec ties Hp.
Let Hinv := fun x => nearest_inv prec ties x Hp.
Lemma dbl_flx x : in_flx prec x -> in_flx prec (2 * x).
Proof. intros H. rewrite Rmult_comm. exact (mult_bpow_exact_FLX radix2 prec x 1 H). Qed.
Lemma acc_close k A x X : acc (uro prec) k A 0 x X -> Rabs (x - X) <= gamma prec k * A.
Proof. intros H. pose proof (acc_err _ _ _ _ _ _ H) as Q. unfold gamma. change ((1 + uro prec) ^ k) with (g (uro prec) k). lra. Qed.
End Instances.

(** ** Power spectra never have a negative bin: any rounding (underflow included), any FFT, any threads *)
Theorem C124_nonnegative : forall (rnd : R -> R), (forall a b, a <= b -> rnd a <= rnd b) -> rnd 0 = 0 -> (forall a, 1 <= a -> 0 < rnd a) ->
  forall (E : Type) (fft : list R -> list E -> outcome (list cx)) sd c sc (x : list E) v, ready c -> (length (c_window c) <= length x)%nat ->
  match sc with DENSITY => 0 < rnd (c_fs c * c_s2 c) | SPECTRUM => 0 < c_s1 c | NONE => True end ->
  fl_welch rnd fft sd c sc x (Ok v) -> Forall (fun p => 0 <= p) v.
Proof.
  intros rnd mono r0 r1 E fft sd c sc x v HR Hx Hs H. refine (@welch_pos rnd mono r0 E fft sd c sc x v _ _ _ H).
  - intros ->. exact Hs.
  - intros ->. exact Hs.
  - intros n En. rewrite (nseg_usable (ready_usable c HR) Hx) in En. injection En as <-. apply r1. apply IZR_le. unfold nsegments. lia.
Qed.
Print Assumptions C124_nonnegative.

(** ** csd(x, x) is welch(x) with zero imaginary parts, exactly; every schedule of one has its counterpart of the other *)
Theorem C124_csd_self : forall (rnd : R -> R), (forall a, rnd (- a) = - rnd a) ->
  forall (E : Type) (zero : E) (fft : list R -> list E -> outcome (list cx)) sd c sc (x : list E) r,
  fl_csd rnd zero zero fft fft sd c sc x x r <-> exists p, fl_welch rnd fft sd c sc x p /\ r = omap (map (fun v => (v, 0))) p.
Proof. intros rnd odd E zero fft sd c sc x r. exact (@csd_self rnd odd E zero fft c sd sc x r). Qed.
Print Assumptions C124_csd_self.
(** ** csd(y, x) is the conjugate of csd(x, y), exactly, also for signals of different lengths and for a real and a complex signal *)
Theorem C124_csd_conjugate : forall (rnd : R -> R), (forall a, rnd (- a) = - rnd a) ->
  forall (E1 E2 : Type) (zero1 : E1) (zero2 : E2) (fft1 : list R -> list E1 -> outcome (list cx)) (fft2 : list R -> list E2 -> outcome (list cx)) sd c sc (x : list E1) (y : list E2) r,
  (forall s, length s = length (c_window c) -> exists f, fft1 (c_window c) s = Ok f) -> (forall s, length s = length (c_window c) -> exists f, fft2 (c_window c) s = Ok f) ->
  fl_csd rnd zero1 zero2 fft1 fft2 sd c sc x y r <-> fl_csd rnd zero2 zero1 fft2 fft1 sd c sc y x (omap (map (fun z => (fst z, - snd z))) r).
Proof.
  intros rnd odd E1 E2 z1 z2 f1 f2 sd c sc x y r T1 T2. split; intros H.
  - exact (@csd_swap rnd odd E1 E2 z1 z2 f1 f2 c T1 T2 sd sc x y r H).
  - apply (@csd_swap rnd odd E2 E1 z2 z1 f2 f1 c T2 T1 sd sc y x) in H.
    replace (omap (map xconj) (omap (map (fun z => (fst z, - snd z))) r)) with r in H; [exact H|]. destruct r as [v| | |]; cbn; try reflexivity. f_equal. rewrite map_map.
    rewrite <- (map_id v) at 1. apply map_ext. intros [a b]. unfold xconj. cbn [fst snd]. now rewrite Ropp_involutive.
Qed.
Print Assumptions C124_csd_conjugate.

(** ** Accuracy of the averages, bin by bin: relative error for power spectra *)
Theorem C124_psd_accuracy : forall (prec : Z) (ties : Z -> bool), (0 < prec)%Z -> let rnd := nearest_flx prec ties in
  forall (E : Type) (fft : list R -> list E -> outcome (list cx)) sd c sc (x : list E) X r, ready c -> (length (c_window c) <= length x)%nat -> transforms fft sd c x X ->
  fl_welch rnd fft sd c sc x r -> exists v, r = Ok v /\ length v = bins sd (length (c_window c)) /\
  forall k, (k < bins sd (length (c_window c)))%nat -> let n := count c (length x) in
    let exact := average sd c sc n (fun i => let z := nth k (X i) (0, 0) in fst z ^ 2 + snd z ^ 2) k in
    Rabs (nth k v 0 - exact) <= gamma prec (roundings n sc) * Rabs exact.
Proof.
  intros prec ties Hp rnd E fft sd c sc x X r HR Hx HX H. pose proof (flx_rd prec ties Hp) as RD.
  assert (HX' : forall i, (i < nsegments c (length x))%nat -> fft (c_window c) (slice c x i) = Ok (X i) /\ length (X i) = nbins sd c) by (rewrite (bins_nbins sd c HR); exact HX).
  destruct (welch_rel RD (fun x => nearest_inv prec ties x Hp) (dbl_flx prec) X (ready_usable c HR) Hx HX' H) as (v & Ev & Lv & Cv). rewrite (bins_nbins sd c HR) in *.
  exists v. split; [exact Ev|]. split; [exact Lv|]. intros k Hk n exact. specialize (Cv k Hk).
  assert (EE : exact = weight sd (length (c_window c)) k * (power c x X k / INR n) / divisor c sc).
  { unfold exact, average. rewrite sided_weight. unfold sum_to, power. rewrite total_bigop. change (norm_factor c sc) with (divisor c sc). f_equal. f_equal. f_equal. f_equal.
    apply map_ext. intros i. unfold xnorm2, x0. ring. }
  rewrite EE. exact (rel_close prec ties Hp _ _ _ Cv).
Qed.
Print Assumptions C124_psd_accuracy.
(** and for cross spectra, relative to the products that are added: with a = X i k, b = Y i k, conj(a) b = (re a re b + im a im b) + i (re a im b - im a re b) *)
Theorem C124_csd_accuracy : forall (prec : Z) (ties : Z -> bool), (0 < prec)%Z -> let rnd := nearest_flx prec ties in
  forall (E1 E2 : Type) (zero1 : E1) (zero2 : E2) (fft1 : list R -> list E1 -> outcome (list cx)) (fft2 : list R -> list E2 -> outcome (list cx)) sd c sc (x : list E1) (y : list E2) X Y r,
  ready c -> (length (c_window c) <= length x)%nat -> length x = length y -> transforms fft1 sd c x X -> transforms fft2 sd c y Y ->
  fl_csd rnd zero1 zero2 fft1 fft2 sd c sc x y r -> exists v, r = Ok v /\ length v = bins sd (length (c_window c)) /\
  forall k, (k < bins sd (length (c_window c)))%nat -> let n := count c (length x) in
    let ar i := fst (nth k (X i) (0, 0)) in let ai i := snd (nth k (X i) (0, 0)) in let br i := fst (nth k (Y i) (0, 0)) in let bi i := snd (nth k (Y i) (0, 0)) in
    let avg P := average sd c sc n P k in let size P := Rabs (average sd c sc n P k) in
    Rabs (fst (nth k v (0, 0)) - avg (fun i => ar i * br i + ai i * bi i)) <= gamma prec (roundings n sc) * size (fun i => Rabs (ar i * br i) + Rabs (ai i * bi i)) /\
    Rabs (snd (nth k v (0, 0)) - avg (fun i => ar i * bi i - ai i * br i)) <= gamma prec (roundings n sc) * size (fun i => Rabs (ar i * bi i) + Rabs (ai i * br i)).
Proof.
  intros prec ties Hp rnd E1 E2 z1 z2 f1 f2 sd c sc x y X Y r HR Hx Hxy HX HY H. pose proof (flx_rd prec ties Hp) as RD.
  assert (HX' : forall i, (i < nsegments c (length x))%nat -> f1 (c_window c) (slice c x i) = Ok (X i) /\ length (X i) = nbins sd c) by (rewrite (bins_nbins sd c HR); exact HX).
  assert (HY' : forall i, (i < nsegments c (length x))%nat -> f2 (c_window c) (slice c y i) = Ok (Y i) /\ length (Y i) = nbins sd c) by (rewrite (bins_nbins sd c HR), Hxy; exact HY).
  destruct (@csd_acc _ _ _ RD (fun x => nearest_inv prec ties x Hp) (dbl_flx prec) E1 E2 z1 z2 f1 f2 sd c x y X Y (ready_usable c HR) Hx Hxy HX' HY' sc r H) as (v & Ev & Lv & Cv).
  rewrite (bins_nbins sd c HR) in *. exists v. split; [exact Ev|]. split; [exact Lv|]. intros k Hk n ar ai br bi avg size. destruct (Cv k Hk) as (C1 & C2).
  assert (EA : forall P P', (forall i, P (nth k (X i) x0) (nth k (Y i) x0) = P' i) -> weight sd (length (c_window c)) k * (csum c x X Y P k / INR n) / divisor c sc = avg P').
  { intros P P' EP. unfold avg, average. rewrite sided_weight. unfold sum_to, csum. rewrite total_bigop. change (norm_factor c sc) with (divisor c sc). f_equal. f_equal. f_equal. f_equal.
    apply map_ext. exact EP. }
  assert (ES : forall P P', (forall i, P (nth k (X i) x0) (nth k (Y i) x0) = P' i) -> (forall i, 0 <= P' i) ->
    weight sd (length (c_window c)) k * (csum c x X Y P k / INR n) / Rabs (divisor c sc) = size P').
  { intros P P' EP Pos. unfold size. fold (avg P'). rewrite <- (EA P P' EP). unfold Rdiv at 3. rewrite Rabs_mult, Rabs_inv. unfold Rdiv at 1. f_equal. symmetry. apply Rabs_pos_eq.
    apply Rmult_le_pos; [unfold weight; destruct (unpaired _ _ _); lra|]. apply Rmult_le_pos.
    - unfold csum. clear -EP Pos. induction (seq 0 (nsegments c (length x))) as [|i l IH]; cbn [map bigop]; [lra|]. rewrite (EP i). specialize (Pos i). lra.
    - apply Rlt_le, Rinv_0_lt_compat, lt_0_INR. unfold n, count. lia. }
  split.
  - rewrite <- (ES mag_re), <- (EA (fun a b => fst (cross a b))).
    + exact (acc_close _ _ _ _ _ C1).
    + intros i. unfold cross, CplxR.xmul, xconj. cbn [fst snd]. unfold ar, ai, br, bi, x0. ring.
    + intros i. reflexivity.
    + intros i. apply Rplus_le_le_0_compat; apply Rabs_pos.
  - rewrite <- (ES mag_im), <- (EA (fun a b => snd (cross a b))).
    + exact (acc_close _ _ _ _ _ C2).
    + intros i. unfold cross, CplxR.xmul, xconj. cbn [fst snd]. unfold ar, ai, br, bi, x0. ring.
    + intros i. reflexivity.
    + intros i. apply Rplus_le_le_0_compat; apply Rabs_pos.
Qed.
Print Assumptions C124_csd_accuracy.

(** ** Transfer function and coherence of two signals, in the bins where they have power. The transfer function is the quotient of the sum of conj(Y) X by the sum of |X|^2 (the conjugate of the
    usual Y / X, see C76); the coherence |sum of conj(X) Y|^2 / (sum of |X|^2 sum of |Y|^2) has a small absolute error *)
Theorem C124_transfer_accuracy : forall (prec : Z) (ties : Z -> bool), (0 < prec)%Z -> let rnd := nearest_flx prec ties in
  forall (E : Type) (zero : E) (fft : list R -> list E -> outcome (list cx)) sd c (x y : list E) X Y r, ready c -> (length (c_window c) <= length x)%nat -> length x = length y ->
  transforms fft sd c x X -> transforms fft sd c y Y ->
  fl_tfestimate rnd zero fft sd c x y r -> exists v, r = Ok v /\ length v = bins sd (length (c_window c)) /\
  forall k, (k < bins sd (length (c_window c)))%nat -> let n := count c (length x) in
    let ar i := fst (nth k (X i) (0, 0)) in let ai i := snd (nth k (X i) (0, 0)) in let br i := fst (nth k (Y i) (0, 0)) in let bi i := snd (nth k (Y i) (0, 0)) in
    let power := sum_to n (fun i => ar i ^ 2 + ai i ^ 2) in power <> 0 ->
    Rabs (fst (nth k v (0, 0)) - sum_to n (fun i => br i * ar i + bi i * ai i) / power) <= gamma prec (2 * n + 7) * (sum_to n (fun i => Rabs (br i * ar i) + Rabs (bi i * ai i)) / power) /\
    Rabs (snd (nth k v (0, 0)) - sum_to n (fun i => br i * ai i - bi i * ar i) / power) <= gamma prec (2 * n + 7) * (sum_to n (fun i => Rabs (br i * ai i) + Rabs (bi i * ar i)) / power).
Proof.
  intros prec ties Hp rnd E zero fft sd c x y X Y r HR Hx Hxy HX HY H. pose proof (flx_rd prec ties Hp) as RD. pose proof (bins_nbins sd c HR) as EB. rewrite <- EB.
  assert (HX' : forall i, (i < nsegments c (length x))%nat -> fft (c_window c) (slice c x i) = Ok (X i) /\ length (X i) = nbins sd c) by (rewrite EB; exact HX).
  assert (HY' : forall i, (i < nsegments c (length x))%nat -> fft (c_window c) (slice c y i) = Ok (Y i) /\ length (Y i) = nbins sd c) by (rewrite EB, Hxy; exact HY).
  destruct (@transfer_acc _ _ _ RD (fun x => nearest_inv prec ties x Hp) (dbl_flx prec) E zero fft sd c x y X Y (ready_usable c HR) Hx Hxy HX' HY' r H) as (v & Ev & Lv & Cv).
  exists v. split; [exact Ev|]. split; [exact Lv|]. intros k Hk n ar ai br bi pow Hz.
  assert (EP : power c x X k = pow). { unfold pow, sum_to, power. rewrite total_bigop. f_equal. apply map_ext. intros i. unfold xnorm2, ar, ai, x0. ring. }
  assert (EC : forall P P', (forall i, P (nth k (Y i) x0) (nth k (X i) x0) = P' i) -> csum c y Y X P k = sum_to n P').
  { intros P P' Q. unfold csum, sum_to. rewrite total_bigop, <- Hxy. f_equal. apply map_ext. exact Q. }
  rewrite <- EP in Hz. destruct (Cv k Hk Hz) as (C1 & C2). rewrite EP in C1, C2. split.
  - rewrite <- (EC mag_re (fun i => Rabs (br i * ar i) + Rabs (bi i * ai i))), <- (EC (fun a b => fst (cross a b)) (fun i => br i * ar i + bi i * ai i)).
    + exact (acc_close _ _ _ _ _ C1).
    + intros i. unfold cross, CplxR.xmul, xconj. cbn [fst snd]. unfold ar, ai, br, bi, x0. ring.
    + intros i. reflexivity.
  - rewrite <- (EC mag_im (fun i => Rabs (br i * ai i) + Rabs (bi i * ar i))), <- (EC (fun a b => snd (cross a b)) (fun i => br i * ai i - bi i * ar i)).
    + exact (acc_close _ _ _ _ _ C2).
    + intros i. unfold cross, CplxR.xmul, xconj. cbn [fst snd]. unfold ar, ai, br, bi, x0. ring.
    + intros i. reflexivity.
Qed.
Print Assumptions C124_transfer_accuracy.
Theorem C124_coherence_accuracy : forall (prec : Z) (ties : Z -> bool), (0 < prec)%Z -> let rnd := nearest_flx prec ties in
  forall (E : Type) (zero : E) (fft : list R -> list E -> outcome (list cx)) sd c (x y : list E) X Y r, ready c -> (length (c_window c) <= length x)%nat -> length x = length y ->
  transforms fft sd c x X -> transforms fft sd c y Y ->
  fl_coherence rnd zero fft sd c x y r -> exists v, r = Ok v /\ length v = bins sd (length (c_window c)) /\
  forall k, (k < bins sd (length (c_window c)))%nat -> let n := count c (length x) in
    let ar i := fst (nth k (X i) (0, 0)) in let ai i := snd (nth k (X i) (0, 0)) in let br i := fst (nth k (Y i) (0, 0)) in let bi i := snd (nth k (Y i) (0, 0)) in
    let px := sum_to n (fun i => ar i ^ 2 + ai i ^ 2) in let py := sum_to n (fun i => br i ^ 2 + bi i ^ 2) in px <> 0 -> py <> 0 ->
    Rabs (nth k v 0 - (sum_to n (fun i => ar i * br i + ai i * bi i) ^ 2 + sum_to n (fun i => ar i * bi i - ai i * br i) ^ 2) / (px * py)) <= 2 * gamma prec (4 * n + 16).
Proof.
  intros prec ties Hp rnd E zero fft sd c x y X Y r HR Hx Hxy HX HY H. pose proof (flx_rd prec ties Hp) as RD. pose proof (bins_nbins sd c HR) as EB. rewrite <- EB.
  assert (HX' : forall i, (i < nsegments c (length x))%nat -> fft (c_window c) (slice c x i) = Ok (X i) /\ length (X i) = nbins sd c) by (rewrite EB; exact HX).
  assert (HY' : forall i, (i < nsegments c (length x))%nat -> fft (c_window c) (slice c y i) = Ok (Y i) /\ length (Y i) = nbins sd c) by (rewrite EB, Hxy; exact HY).
  destruct (@coherence_acc _ _ _ RD (fun x => nearest_inv prec ties x Hp) (dbl_flx prec) E zero fft sd c x y X Y (ready_usable c HR) Hx Hxy HX' HY' r H) as (v & Ev & Lv & Cv).
  exists v. split; [exact Ev|]. split; [exact Lv|]. intros k Hk n ar ai br bi px py Hz Hz'.
  assert (EP : power c x X k = px). { unfold px, sum_to, power. rewrite total_bigop. f_equal. apply map_ext. intros i. unfold xnorm2, ar, ai, x0. ring. }
  assert (EQ : power c y Y k = py). { unfold py, sum_to, power. rewrite total_bigop, <- Hxy. f_equal. apply map_ext. intros i. unfold xnorm2, br, bi, x0. ring. }
  assert (EC : forall P P', (forall i, P (nth k (X i) x0) (nth k (Y i) x0) = P' i) -> csum c x X Y P k = sum_to n P').
  { intros P P' Q. unfold csum, sum_to. rewrite total_bigop. f_equal. apply map_ext. exact Q. }
  rewrite <- EP in Hz. rewrite <- EQ in Hz'. pose proof (Cv k Hk Hz Hz') as C1. rewrite EP, EQ in C1.
  rewrite (EC _ (fun i => ar i * br i + ai i * bi i)), (EC _ (fun i => ar i * bi i - ai i * br i)) in C1.
  - rewrite (Rmult_comm 2). exact (acc_close _ _ _ _ _ C1).
  - intros i. unfold cross, CplxR.xmul, xconj. cbn [fst snd]. unfold ar, ai, br, bi, x0. ring.
  - intros i. unfold cross, CplxR.xmul, xconj. cbn [fst snd]. unfold ar, ai, br, bi, x0. ring.
Qed.
Print Assumptions C124_coherence_accuracy.

(** ** Coherence and transfer function of a signal with itself: 1 up to rounding, in the bins where the signal has power; without threads the transfer function is exactly 1 *)
Theorem C124_coherence_self : forall (prec : Z) (ties : Z -> bool), (0 < prec)%Z -> sym ties -> let rnd := nearest_flx prec ties in
  forall (E : Type) (zero : E) (fft : list R -> list E -> outcome (list cx)) sd c (x : list E) X r, ready c -> (length (c_window c) <= length x)%nat -> transforms fft sd c x X ->
  fl_coherence rnd zero fft sd c x x r -> exists v, r = Ok v /\ length v = bins sd (length (c_window c)) /\
  forall k i, (k < bins sd (length (c_window c)))%nat -> (i < count c (length x))%nat -> nth k (X i) (0, 0) <> (0, 0) ->
    Rabs (nth k v 0 - 1) <= gamma prec (4 * count c (length x) + 15) /\ ((c_nthreads c <= 1)%nat -> Rabs (nth k v 0 - 1) <= gamma prec 3).
Proof.
  intros prec ties Hp Hs rnd E zero fft sd c x X r HR Hx HX H. pose proof (flx_rd prec ties Hp) as RD. pose proof (bins_nbins sd c HR) as EB. rewrite <- EB.
  assert (HX' : forall i, (i < nsegments c (length x))%nat -> fft (c_window c) (slice c x i) = Ok (X i) /\ length (X i) = nbins sd c) by (rewrite EB; exact HX).
  destruct (@coherence_self _ _ _ RD (fun x => nearest_inv prec ties x Hp) (dbl_flx prec) (fun y => odd_flx prec ties y Hs) E zero fft sd c x X (ready_usable c HR) Hx HX' r H) as (v & Ev & Lv & Cv).
  exists v. split; [exact Ev|]. split; [exact Lv|]. intros k i Hk Hi Hz. destruct (Cv k i Hk Hi Hz) as (C1 & C2).
  assert (G : forall m, gamma prec m = gamma prec m * Rabs 1) by (intros; rewrite Rabs_R1; ring). rewrite (G 3%nat), (G (_ + _)%nat). split.
  - exact (rel_close prec ties Hp _ _ _ C1).
  - intros Hn. exact (rel_close prec ties Hp _ _ _ (C2 Hn)).
Qed.
Print Assumptions C124_coherence_self.
Theorem C124_transfer_self : forall (prec : Z) (ties : Z -> bool), (0 < prec)%Z -> sym ties -> let rnd := nearest_flx prec ties in
  forall (E : Type) (zero : E) (fft : list R -> list E -> outcome (list cx)) sd c (x : list E) X r, ready c -> (length (c_window c) <= length x)%nat -> transforms fft sd c x X ->
  fl_tfestimate rnd zero fft sd c x x r -> exists v, r = Ok v /\ length v = bins sd (length (c_window c)) /\
  forall k i, (k < bins sd (length (c_window c)))%nat -> (i < count c (length x))%nat -> nth k (X i) (0, 0) <> (0, 0) ->
    Rabs (fst (nth k v (0, 0)) - 1) <= gamma prec (2 * count c (length x) + 7) /\ snd (nth k v (0, 0)) = 0 /\ ((c_nthreads c <= 1)%nat -> nth k v (0, 0) = (1, 0)).
Proof.
  intros prec ties Hp Hs rnd E zero fft sd c x X r HR Hx HX H. pose proof (flx_rd prec ties Hp) as RD. pose proof (bins_nbins sd c HR) as EB. rewrite <- EB.
  assert (HX' : forall i, (i < nsegments c (length x))%nat -> fft (c_window c) (slice c x i) = Ok (X i) /\ length (X i) = nbins sd c) by (rewrite EB; exact HX).
  assert (F1 : in_flx prec 1) by (apply (flx_integer prec 1); [exact Hp|pose proof (Z.pow_pos_nonneg 2 prec); lia]).
  destruct (@tfestimate_self _ _ _ RD (fun x => nearest_inv prec ties x Hp) (dbl_flx prec) F1 (fun y => odd_flx prec ties y Hs) E zero fft sd c x X (ready_usable c HR) Hx HX' r H) as (v & Ev & Lv & Cv).
  exists v. split; [exact Ev|]. split; [exact Lv|]. intros k i Hk Hi Hz. destruct (Cv k i Hk Hi Hz) as (C1 & C2 & C3). split; [|split; assumption].
  assert (G : forall m, gamma prec m = gamma prec m * Rabs 1) by (intros; rewrite Rabs_R1; ring). rewrite (G (_ + _)%nat). exact (rel_close prec ties Hp _ _ _ C1).
Qed.
Print Assumptions C124_transfer_self.

(** ** What the schedule decides: the order in which the segments are added, and nothing else *)
(** the bin k when the segments are added in this order *)
Definition bin_in_order (rnd : R -> R) (sd : sides) (c : config) (sc : scaling) (X : nat -> list cx) (n : nat) (order : list nat) (k : nat) : R :=
  let power z := rnd (rnd (fst z * fst z) + rnd (snd z * snd z)) in
  let mean := rnd (fold_left (fun s i => rnd (s + power (nth k (X i) (0, 0)))) order 0 / rnd (INR n)) in
  let both := match sd with TWOSIDED => mean | ONESIDED => if ((k =? 0) || (2 * k =? length (c_window c)))%nat then mean else 2 * mean end in
  match sc with DENSITY => rnd (both / rnd (c_fs c * c_s2 c)) | SPECTRUM => rnd (both / c_s1 c) | NONE => both end.
Lemma fold_map {A B C} (f : A -> C -> A) (g : B -> C) l : forall a, fold_left f (map g l) a = fold_left (fun s i => f s (g i)) l a.
Proof. induction l as [|b l IH]; intros a; [reflexivity|]. apply IH. Qed.
Lemma order_bins prec ties (Hp : (0 < prec)%Z) sd c sc X n order : ready c ->
  exists v, fl_normalize (nearest_flx prec ties) (fs_mul (nearest_flx prec ties)) (fs_div (nearest_flx prec ties)) c sc sd
     (map (fun k => nearest_flx prec ties (rsum_from (nearest_flx prec ties) 0 (map (fun i => fs_norm (nearest_flx prec ties) (nth k (X i) x0)) order) / nearest_flx prec ties (INR n))) (seq 0 (nbins sd c))) = Ok v /\
  length v = bins sd (length (c_window c)) /\ forall k, (k < bins sd (length (c_window c)))%nat -> nth k v 0 = bin_in_order (nearest_flx prec ties) sd c sc X n order k.
Proof.
  intros HR. pose proof (flx_rd prec ties Hp) as RD. set (rnd := nearest_flx prec ties) in *. set (l := map _ _).
  assert (Ll : length l = nbins sd c) by (unfold l; now rewrite map_length, seq_length).
  assert (Fl : forall y, In y l -> in_flx prec y) by (intros y Hy; unfold l in Hy; apply in_map_iff in Hy; destruct Hy as (k & <- & _); apply (rd_fmt _ _ _ _ RD)).
  assert (D : forall y, in_flx prec y -> fs_mul rnd 2 y = 2 * y /\ fs_mul rnd (1 / 2) (fs_mul rnd 2 y) = y) by (intros y Hy; exact (@dbl _ _ _ RD (dbl_flx prec) y Hy)).
  destruct (@normalize_nth R rnd (fs_mul rnd) (fs_div rnd) c sc sd l 0 (ready_usable c HR) Ll) as (v & Ev & Lv & Cv); [intros y Hy; now apply D, Fl|].
  exists v. rewrite <- (bins_nbins sd c HR). split; [exact Ev|]. split; [exact Lv|]. intros k Hk. rewrite (Cv k Hk).
  assert (Nl : nth k l 0 = rnd (fold_left (fun s i => rnd (s + fs_norm rnd (nth k (X i) x0))) order 0 / rnd (INR n))).
  { unfold l. rewrite (nth_map_default _ _ 0 0%nat) by (now rewrite seq_length). rewrite seq_nth by exact Hk. unfold rsum_from. now rewrite fold_map. }
  assert (Fk : in_flx prec (nth k l 0)) by (apply Fl, nth_In; now rewrite Ll).
  rewrite (proj1 (D _ Fk)). unfold finish, bin_in_order, unpaired. fold rnd. change (nth k (X ?i) (0, 0)) with (nth k (X i) x0). rewrite Nl. unfold fs_norm, fs_div, fs_mul.
  destruct sd; [|reflexivity]. destruct ((k =? 0) || (2 * k =? length (c_window c)))%nat; reflexivity.
Qed.
Theorem C124_schedules : forall (prec : Z) (ties : Z -> bool), (0 < prec)%Z -> let rnd := nearest_flx prec ties in
  forall (E : Type) (fft : list R -> list E -> outcome (list cx)) sd c sc (x : list E) X, ready c -> (length (c_window c) <= length x)%nat -> transforms fft sd c x X ->
  let n := count c (length x) in let gives v order := length v = bins sd (length (c_window c)) /\ forall k, (k < bins sd (length (c_window c)))%nat -> nth k v 0 = bin_in_order rnd sd c sc X n order k in
  (forall r, fl_welch rnd fft sd c sc x r -> exists v order, r = Ok v /\ Permutation order (seq 0 n) /\ gives v order) /\
  ((2 <= n)%nat -> c_nthreads c = n -> forall order, Permutation order (seq 0 n) -> exists v, fl_welch rnd fft sd c sc x (Ok v) /\ gives v order).
Proof.
  intros prec ties Hp rnd E fft sd c sc x X HR Hx HX n gives. pose proof (bins_nbins sd c HR) as EB.
  assert (HX' : forall i, (i < nsegments c (length x))%nat -> fft (c_window c) (slice c x i) = Ok (X i) /\ length (X i) = nbins sd c) by (rewrite EB; exact HX). split.
  - intros r H. destruct (@welch_some_order rnd E fft sd c x X (ready_usable c HR) Hx HX' sc r H) as (order & PO & ->).
    destruct (order_bins prec ties Hp sd c sc X n order HR) as (v & Ev & G). exists v, order. split; [exact Ev|]. split; [exact PO|exact G].
  - intros H2 Hn order PO. pose proof (@welch_all_orders rnd E fft sd c x X (ready_usable c HR) Hx HX' sc order Hn H2 PO) as W.
    destruct (order_bins prec ties Hp sd c sc X n order HR) as (v & Ev & G). exists v. split; [|exact G]. unfold averages in W. change (nsegments c (length x)) with n in W. change (nearest_flx prec ties) with rnd in Ev. rewrite Ev in W. exact W.
Qed.
Print Assumptions C124_schedules.

(** ** Wrong in binary64: results depend on the schedule, and the coherence may exceed 1 *)
(** detrend, window and two-point transform, each operation rounded *)
Definition dft2 (rnd : R -> R) (w x : list R) : outcome (list cx) :=
  match w, x with
  | [w0; w1], [a; b] => let m := rnd (rnd (a + b) / 2) in let p := rnd (rnd (a - m) * w0) in let q := rnd (rnd (b - m) * w1) in Ok [(rnd (p + q), 0); (rnd (p - q), 0)]
  | _, _ => UB
  end.
Definition boxcar2 (threads : nat) : config := {| c_fs := 1; c_window := [1; 1]; c_s1 := 4; c_s2 := 2; c_nperseg := 2; c_dflt := false; c_noverlap := 0; c_nthreads := threads |}.
Lemma boxcar2_ready t : ready (boxcar2 t). Proof. split; [reflexivity|]. split; [discriminate|cbn; lia]. Qed.
Definition h : R := 5 * bpow radix2 (-30).
Definition sig : list R := [/ 2; - / 2; h; - h; h; - h].
Section Binary64.
Variable ties : Z -> bool.
Notation rnd := (nearest_flx 53 ties).
Lemma d53 m e x : (Z.abs m <= 2 ^ 53)%Z -> x = IZR m * bpow radix2 e -> rnd x = x. Proof. intros H ->. now apply id53, dyadic53. Qed.
Lemma pair2 a : rnd a = a -> rnd (2 * a) = 2 * a -> rnd (- a) = - a -> dft2 rnd [1; 1] [a; - a] = Ok [(0, 0); (2 * a, 0)].
Proof.
  intros H1 H2 H3. assert (Z0 : rnd 0 = 0) by (apply (int53 ties 0); lia). unfold dft2. replace (a + - a) with 0 by ring. rewrite Z0. replace (0 / 2) with 0 by field.
  rewrite Z0. replace (a - 0) with a by ring. replace (- a - 0) with (- a) by ring. rewrite H1, H3, !Rmult_1_r, H1, H3. replace (a + - a) with 0 by ring. replace (a - - a) with (2 * a) by ring. now rewrite Z0, H2.
Qed.

Definition tr (i : nat) : list cx := match i with O => [(0, 0); (1, 0)] | _ => [(0, 0); (2 * h, 0)] end.
Lemma tr_ok t : transforms (dft2 rnd) ONESIDED (boxcar2 t) sig tr.
Proof.
  intros i Hi. change (count (boxcar2 t) (length sig)) with 3%nat in Hi.
  assert (P1 : dft2 rnd [1; 1] [/ 2; - / 2] = Ok [(0, 0); (1, 0)]).
  { rewrite pair2; [apply (f_equal Ok); replace (2 * / 2) with 1 by field; reflexivity|apply (d53 1 (-1)); [lia|cbn; lra]|apply (d53 1 0); [lia|cbn; lra]|apply (d53 (-1) (-1)); [lia|cbn; lra]]. }
  assert (P2 : dft2 rnd [1; 1] [h; - h] = Ok [(0, 0); (2 * h, 0)]).
  { rewrite pair2; [reflexivity|apply (d53 5 (-30)); [lia|reflexivity]|apply (d53 5 (-29)); [lia|unfold h; cbn; lra]|apply (d53 (-5) (-30)); [lia|unfold h; cbn; lra]]. }
  destruct i as [|[|[|i]]]; [| | |lia]; (split; [|reflexivity]); [exact P1|exact P2|exact P2].
Qed.
Lemma h2 : rnd (rnd (2 * h * (2 * h)) + rnd (0 * 0)) = 25 * bpow radix2 (-58).
Proof.
  assert (E : rnd (2 * h * (2 * h)) = 25 * bpow radix2 (-58)) by (rewrite (d53 25 (-58)); [unfold h; cbn; lra|lia|unfold h; cbn; lra]).
  rewrite E, Rmult_0_r, (int53 ties 0), Rplus_0_r by lia. apply (d53 25 (-58)); [lia|reflexivity].
Qed.
Lemma one2 : rnd (rnd (1 * 1) + rnd (0 * 0)) = 1.
Proof. rewrite Rmult_0_r, (int53 ties 0), Rmult_1_r, (int53 ties 1), Rplus_0_r by lia. apply (int53 ties 1). lia. Qed.
Lemma order_a t sc n : bin_in_order rnd ONESIDED (boxcar2 t) NONE tr n [0; 1; 2]%nat 1 = sc -> n = 3%nat -> sc = 6004799503160661 * bpow radix2 (-54).
Proof.
  intros <- ->. unfold bin_in_order. cbn [fold_left nth tr fst snd c_window boxcar2 length Nat.eqb Nat.mul Nat.add orb]. rewrite h2, one2, Rplus_0_l, (int53 ties 1) by lia.
  assert (E : rnd (1 + 25 * bpow radix2 (-58)) = 1) by (round_at (-52)%Z 4503599627370496%Z; cbn; lra). rewrite !E. replace (INR 3) with 3 by (cbn; lra). rewrite (int53 ties 3) by lia.
  now round_at (-54)%Z 6004799503160661%Z.
Qed.
Lemma order_b t sc n : bin_in_order rnd ONESIDED (boxcar2 t) NONE tr n [1; 2; 0]%nat 1 = sc -> n = 3%nat -> sc = 6004799503160663 * bpow radix2 (-54).
Proof.
  intros <- ->. unfold bin_in_order. cbn [fold_left nth tr fst snd c_window boxcar2 length Nat.eqb Nat.mul Nat.add orb]. rewrite h2, one2, Rplus_0_l.
  assert (E1 : rnd (25 * bpow radix2 (-58)) = 25 * bpow radix2 (-58)) by (apply (d53 25 (-58)); [lia|reflexivity]). rewrite E1.
  assert (E2 : rnd (25 * bpow radix2 (-58) + 25 * bpow radix2 (-58)) = 25 * bpow radix2 (-57)) by (rewrite (d53 25 (-57)); [cbn; lra|lia|cbn; lra]). rewrite E2.
  assert (E : rnd (25 * bpow radix2 (-57) + 1) = 4503599627370497 * bpow radix2 (-52)) by (now round_at (-52)%Z 4503599627370497%Z). rewrite E. replace (INR 3) with 3 by (cbn; lra). rewrite (int53 ties 3) by lia.
  now round_at (-54)%Z 6004799503160663%Z.
Qed.
(** with three threads, welch gives 0.33333333333333331 or 0.33333333333333343 in the bin 1 of the same signal *)
Theorem C124_same_result_refuted : exists v1 v2, fl_welch rnd (dft2 rnd) ONESIDED (boxcar2 3) NONE sig (Ok v1) /\
  fl_welch rnd (dft2 rnd) ONESIDED (boxcar2 3) NONE sig (Ok v2) /\ nth 1 v1 0 = 6004799503160661 * bpow radix2 (-54) /\ nth 1 v2 0 = 6004799503160663 * bpow radix2 (-54).
Proof.
  destruct (C124_schedules 53 ties ltac:(lia) R (dft2 rnd) ONESIDED (boxcar2 3) NONE sig tr (boxcar2_ready 3) ltac:(cbn; lia) (tr_ok 3)) as (_ & H).
  change (count (boxcar2 3) (length sig)) with 3%nat in H. specialize (H ltac:(lia) eq_refl).
  destruct (H [0; 1; 2]%nat ltac:(reflexivity)) as (v1 & W1 & _ & G1). destruct (H [1; 2; 0]%nat ltac:(exact (Permutation_sym (Permutation_cons_append [1; 2]%nat 0%nat)))) as (v2 & W2 & _ & G2).
  exists v1, v2. split; [exact W1|]. split; [exact W2|]. specialize (G1 1%nat ltac:(cbn; lia)). specialize (G2 1%nat ltac:(cbn; lia)). split.
  - exact (order_a 3 _ 3 (eq_sym G1) eq_refl).
  - exact (order_b 3 _ 3 (eq_sym G2) eq_refl).
Qed.
(** the coherence of the signal 9742.5, -9742.5 with itself is 1 + 2^-52 in the bin 1 *)
Definition tr1 (i : nat) : list cx := [(0, 0); (19485, 0)].
Lemma tr1_ok : transforms (dft2 rnd) ONESIDED (boxcar2 1) [19485 / 2; - (19485 / 2)] tr1.
Proof.
  intros i Hi. change (count (boxcar2 1) _) with 1%nat in Hi. destruct i; [|lia]. split; [|reflexivity]. change (dft2 rnd [1; 1] [19485 / 2; - (19485 / 2)] = Ok (tr1 0)).
  rewrite pair2; [apply (f_equal Ok); unfold tr1; replace (2 * (19485 / 2)) with 19485 by field; reflexivity|apply (d53 19485 (-1)); [lia|cbn; lra]|apply (d53 19485 0); [lia|cbn; lra]|apply (d53 (-19485) (-1)); [lia|cbn; lra]].
Qed.
Lemma tr1_bin n order : n = 1%nat -> order = [0%nat] -> bin_in_order rnd ONESIDED (boxcar2 1) NONE tr1 n order 1 = 379665225.
Proof.
  intros -> ->. unfold bin_in_order. cbn [fold_left nth tr1 fst snd c_window boxcar2 length Nat.eqb Nat.mul Nat.add orb INR].
  replace (19485 * 19485) with 379665225 by lra. rewrite Rmult_0_r, (int53 ties 0), Rplus_0_r, Rplus_0_l, (int53 ties 1), !(int53 ties 379665225) by lia.
  unfold Rdiv. rewrite Rinv_1, Rmult_1_r. apply (int53 ties 379665225). lia.
Qed.
Theorem C124_coherence_above_one_refuted : sym ties -> exists v, fl_coherence rnd 0 (dft2 rnd) ONESIDED (boxcar2 1) [19485 / 2; - (19485 / 2)] [19485 / 2; - (19485 / 2)] (Ok v) /\
  nth 1 v 0 = 1 + bpow radix2 (-52).
Proof.
  intros Hs. set (x := [19485 / 2; - (19485 / 2)]).
  assert (exists r, fl_welch rnd (dft2 rnd) ONESIDED (boxcar2 1) NONE x r) as (r & W).
  { eexists. apply fw_run; [discriminate|]. eapply fwi_run; [reflexivity|]. apply cs_sequential; [left; cbn; lia|reflexivity]. }
  destruct (C124_schedules 53 ties ltac:(lia) R (dft2 rnd) ONESIDED (boxcar2 1) NONE x tr1 (boxcar2_ready 1) ltac:(cbn; lia) tr1_ok) as (H & _).
  destruct (H r W) as (v & order & -> & PO & Lv & G). change (count (boxcar2 1) (length x)) with 1%nat in *. apply Permutation_length_1_inv in PO || (apply Permutation_sym, Permutation_length_1_inv in PO).
  specialize (G 1%nat ltac:(cbn; lia)). rewrite (tr1_bin _ _ eq_refl PO) in G. change (bins ONESIDED (length (c_window (boxcar2 1)))) with 2%nat in Lv.
  destruct v as [|v0 [|v1 [|? ?]]]; try discriminate Lv. cbn [nth] in G. subst v1.
  assert (C : fl_csd rnd 0 0 (dft2 rnd) (dft2 rnd) ONESIDED (boxcar2 1) NONE x x (Ok [(v0, 0); (379665225, 0)])).
  { apply (proj2 (C124_csd_self rnd (fun y => odd_flx 53 ties y Hs) R 0 (dft2 rnd) ONESIDED (boxcar2 1) NONE x _)). exists (Ok [v0; 379665225]). split; [exact W|reflexivity]. }
  pose proof (fco_run (eq_refl (length x)) C W W) as K. cbn [bind length Nat.eqb require transform1 map2] in K.
  eexists. split; [exact K|]. cbn [nth]. unfold fs_norm, fs_div. cbn [fst snd].
  rewrite Rmult_0_r, (int53 ties 0), Rplus_0_r, rr53 by lia.
  assert (E1 : rnd (379665225 * 379665225) = 4504552596071895 * bpow radix2 5) by (now round_at 5%Z 4504552596071895%Z). rewrite E1.
  assert (E2 : rnd (4504552596071895 * bpow radix2 5 / 379665225) = 6369725487513601 * bpow radix2 (-24)) by (now round_at (-24)%Z 6369725487513601%Z). rewrite E2.
  assert (E3 : rnd (6369725487513601 * bpow radix2 (-24) / 379665225) = 4503599627370497 * bpow radix2 (-52)) by (now round_at (-52)%Z 4503599627370497%Z). rewrite E3. cbn. lra.
Qed.
End Binary64.
Print Assumptions C124_same_result_refuted.
Print Assumptions C124_coherence_above_one_refuted.
(** the hypotheses are met: rounding to nearest even is symmetric and monotone; three segments of two samples, with and without threads *)
Lemma even_sym : sym (fun m => negb (Z.even m)).
Proof. intros m. replace (- (m + 1))%Z with (- m - 1)%Z by lia. rewrite Z.even_sub, Z.even_opp. now destruct (Z.even m). Qed.
Example C124_nonvacuous : let ties := fun m => negb (Z.even m) in let rnd := nearest_flx 53 ties in
  (sym ties /\ (forall a b, a <= b -> rnd a <= rnd b) /\ rnd 0 = 0 /\ (forall a, 1 <= a -> 0 < rnd a)) /\
  (forall t, ready (boxcar2 t) /\ (length (c_window (boxcar2 t)) <= length sig)%nat /\ transforms (dft2 rnd) ONESIDED (boxcar2 t) sig tr /\ count (boxcar2 t) (length sig) = 3%nat /\ nth 1 (tr 0) (0, 0) <> (0, 0)) /\
  (exists r, fl_welch rnd (dft2 rnd) ONESIDED (boxcar2 1) DENSITY sig r) /\ (exists r, fl_coherence rnd 0 (dft2 rnd) ONESIDED (boxcar2 1) sig sig r) /\
  (exists r, fl_tfestimate rnd 0 (dft2 rnd) ONESIDED (boxcar2 1) sig sig r).
Proof.
  intros ties rnd. pose proof (flx_rd 53 ties ltac:(lia)) as RD. pose proof even_sym as HS.
  assert (W : forall sc, exists r, fl_welch rnd (dft2 rnd) ONESIDED (boxcar2 1) sc sig r).
  { intros sc. eexists. apply fw_run; [discriminate|]. eapply fwi_run; [reflexivity|]. apply cs_sequential; [left; cbn; lia|reflexivity]. }
  assert (C : exists r, fl_csd rnd 0 0 (dft2 rnd) (dft2 rnd) ONESIDED (boxcar2 1) NONE sig sig r).
  { destruct (W NONE) as (r & H). eexists. apply (proj2 (C124_csd_self rnd (fun y => odd_flx 53 ties y HS) R 0 (dft2 rnd) ONESIDED (boxcar2 1) NONE sig _)). exists r. split; [exact H|reflexivity]. }
  destruct (W NONE) as (r & Hr), C as (q & Hq). split; [|split; [|split; [|split]]].
  - split; [exact HS|]. split; [apply (rd_mono _ _ _ _ RD)|]. split; [apply (int53 ties 0); lia|]. intros a Ha. apply Rlt_le_trans with (rnd 1); [unfold rnd; rewrite (int53 ties 1) by lia; lra|now apply (rd_mono _ _ _ _ RD)].
  - intros t. split; [apply boxcar2_ready|]. split; [cbn; lia|]. split; [apply tr_ok|]. split; [reflexivity|]. cbn [tr nth]. intros E. injection E as E. lra.
  - apply W.
  - eexists. eapply fco_run; [reflexivity|exact Hq|exact Hr|exact Hr].
  - eexists. eapply fte_run; [reflexivity|exact Hq|exact Hr].
Qed.
