(** * C126: the frequency axes fftfreq, rfftfreq and get_freqs in floating-point arithmetic *)
From Coq Require Import ZArith Reals List.
From Flocq Require Import Core Relative Mult_error.
From Verif Require Import Base Functional FunctionalProofs Fft FftFacts Spectral FloatArith FloatArithFacts FloatWindowsFacts PropFloatArith PropFloatVar PropFloatWindows PropFloatUnits FloatSpectralErr FloatSpectral PropFloatSpectral.
From Coq Require Import Lra Psatz Lia.
Open Scope R_scope.

(** ** Vocabulary: the model of Fft.v (fft.hpp:69-108) with every operation rounded; d is the time between two samples *)
Section Ops.
Variable rnd : R -> R.
Definition float_fftfreq : nat -> R -> outcome (list R) :=
  fftfreq 0 (fun a b => rnd (a * b)) (fun a b => rnd (a / b)) Rgtb (fun z => rnd (IZR z)) (fun x => rnd (x + 1)).
Definition float_rfftfreq : nat -> R -> outcome (list R) :=
  rfftfreq 0 (fun a b => rnd (a * b)) (fun a b => rnd (a / b)) Rgtb (fun z => rnd (IZR z)) (fun x => rnd (x + 1)).
End Ops.
(** the harmonic of the i-th bin of an FFT of n samples: 0, 1, .., then the negative ones *)
Definition harmonic (n i : nat) : Z := if (i <? (n + 1) / 2)%nat then Z.of_nat i else (Z.of_nat i - Z.of_nat n)%Z.

(** ** The computation *)
Section Run.
Variables (prec : Z) (ties : Z -> bool).
Hypothesis Hp : (0 < prec)%Z.
Notation rnd := (nearest_flx prec ties).
Let RD := flx_rd prec ties Hp.
Let Hinv := fun x => nearest_inv prec ties x Hp.
Lemma p0 : (0 < 2 ^ prec)%Z. Proof. apply Z.pow_pos_nonneg; lia. Qed.
Lemma intP z : (Z.abs z <= 2 ^ prec)%Z -> rnd (IZR z) = IZR z. Proof. intros H. apply (rd_id _ _ _ _ RD), flx_integer; assumption. Qed.
Lemma iota_run n : forall z, (- 2 ^ prec <= z)%Z -> (z + Z.of_nat n <= 2 ^ prec + 1)%Z -> iota (fun x => rnd (x + 1)) n (IZR z) = map (fun i => IZR (z + Z.of_nat i)) (seq 0 n).
Proof.
  induction n as [|n IH]; intros z H1 H2; [reflexivity|]. cbn [iota seq map]. rewrite Z.add_0_r. f_equal. rewrite <- plus_IZR. destruct n as [|n]; [reflexivity|].
  rewrite intP by lia. rewrite (IH (z + 1)%Z) by lia. rewrite <- (seq_shift (S n) 0), map_map. apply map_ext. intros i. f_equal. lia.
Qed.
Variables (n : nat) (d : R).
Hypothesis Hn : (1 <= n)%nat.
Hypothesis Hd : 0 < d.
Hypothesis Hbig : (Z.of_nat n <= 2 * 2 ^ prec + 1)%Z.
Let D := rnd (d * rnd (IZR (Z.of_nat n))).
Let val (z : Z) : R := rnd (IZR z / D).
Lemma nhalf : (Z.of_nat (n / 2) <= 2 ^ prec)%Z.
Proof. pose proof (Nat.div_mod n 2 ltac:(lia)). pose proof (Nat.mod_upper_bound n 2 ltac:(lia)). lia. Qed.
Lemma gt_ok : Rgtb d 0 = true. Proof. unfold Rgtb. destruct (Rlt_dec 0 d); [reflexivity|lra]. Qed.
Lemma fft_run : exists f, float_fftfreq rnd n d = Ok f /\ length f = n /\ (forall i, (i < n)%nat -> nth i f 0 = val (harmonic n i)) /\
  exists g, fftshift_inplace f = Ok g /\ length g = n /\ forall i, (i < n)%nat -> nth i g 0 = val (Z.of_nat i - Z.of_nat (n / 2)).
Proof.
  pose proof nhalf as N2. unfold float_fftfreq, fftfreq, require. destruct (Nat.ltb_spec 0 n); [|lia]. rewrite gt_ok. cbn zeta. rewrite quot2, ifftshift_inplace_spec, transform1_map.
  rewrite (intP (- Z.of_nat (n / 2))) by lia.
  pose proof (half_le n) as Hh. assert (Hodd : (n <= 2 * (n / 2) + 1)%nat) by (pose proof (Nat.div_mod n 2 ltac:(lia)); pose proof (Nat.mod_upper_bound n 2 ltac:(lia)); lia).
  rewrite (iota_run n) by lia. rewrite map_map. set (y := map _ _). assert (L : length y = n) by (unfold y; now rewrite map_length, seq_length).
  eexists. split; [reflexivity|]. split; [now rewrite rot_length|].
  assert (Y : forall j, (j < n)%nat -> nth j y 0 = val (Z.of_nat j - Z.of_nat (n / 2))).
  { intros j Hj. unfold y. rewrite (nth_indep _ 0 (rnd (IZR (- Z.of_nat (n / 2) + Z.of_nat 0) / D))) by (rewrite map_length, seq_length; exact Hj).
    rewrite (map_nth (fun i => rnd (IZR (- Z.of_nat (n / 2) + Z.of_nat i) / D))), seq_nth by exact Hj. unfold val. do 3 f_equal. lia. }
  split.
  - intros i Hi. rewrite rot_nth by (rewrite L; auto using half_le). rewrite L. unfold harmonic. rewrite half_up. set (h := (n / 2)%nat) in *.
    destruct (Nat.ltb_spec i (n - h)); rewrite Y by lia; f_equal; lia.
  - exists y. split; [|split; [exact L|exact Y]]. rewrite fftshift_inplace_spec, rot_length, L, half_up. rewrite <- L at 1. now rewrite rot_rot by (rewrite L; exact Hh).
Qed.
Lemma rfft_run : exists f, float_rfftfreq rnd n d = Ok f /\ length f = (n / 2 + 1)%nat /\ forall i, (i <= n / 2)%nat -> nth i f 0 = val (Z.of_nat i).
Proof.
  pose proof nhalf as N2. pose proof p0. unfold float_rfftfreq, rfftfreq, require. destruct (Nat.ltb_spec 0 n); [|lia]. rewrite gt_ok. rewrite transform1_map, (intP 0) by lia.
  rewrite (iota_run (n / 2 + 1)) by lia. rewrite map_map. eexists. split; [reflexivity|]. split; [now rewrite map_length, seq_length|]. intros i Hi.
  rewrite (nth_indep _ 0 (rnd (IZR (0 + Z.of_nat 0) / D))) by (rewrite map_length, seq_length; lia).
  now rewrite (map_nth (fun i => rnd (IZR (0 + Z.of_nat i) / D))), seq_nth by lia.
Qed.
Lemma npos : 0 < IZR (Z.of_nat n). Proof. apply IZR_lt. lia. Qed.
Lemma D_rel : rel (uro prec) 2 D (IZR (Z.of_nat n) * d).
Proof.
  rewrite Rmult_comm. apply (rel_rnd _ _ _ RD Hinv). apply (rel_mul _ _ _ RD 0 1); [apply (rel_0 _ _ _ RD)|apply (rel_rnd1 _ _ _ RD Hinv)].
Qed.
Lemma g_pos k : 0 < FloatArithFacts.g (uro prec) k. Proof. apply pow_lt. unfold uro. pose proof (bpow_ge_0 radix2 (- prec)). lra. Qed.
Lemma D_pos : 0 < D.
Proof.
  destruct D_rel as (r & [R1 R2] & ->). assert (0 < r) by (pose proof (Rinv_0_lt_compat _ (g_pos 2)); lra). pose proof npos. apply Rmult_lt_0_compat; [apply Rmult_lt_0_compat; assumption|assumption].
Qed.
Lemma val_rel z : rel (uro prec) 3 (val z) (IZR z / (IZR (Z.of_nat n) * d)).
Proof. apply (rel_rnd _ _ _ RD Hinv). apply (rel_div _ _ _ RD 0 2); [apply (rel_0 _ _ _ RD)|exact D_rel]. Qed.
Lemma val_mono y z : (y <= z)%Z -> val y <= val z.
Proof. intros H. apply (rd_mono _ _ _ _ RD). apply Rmult_le_compat_r; [left; apply Rinv_0_lt_compat, D_pos|now apply IZR_le]. Qed.
Lemma val_0 : val 0 = 0. Proof. unfold val. unfold Rdiv. rewrite Rmult_0_l. apply (rd_id _ _ _ _ RD), (rd_0 _ _ _ _ RD). Qed.
Lemma val_opp z : sym ties -> val (- z) = - val z.
Proof. intros H. unfold val. rewrite opp_IZR. unfold Rdiv. rewrite <- Ropp_mult_distr_l. now apply odd_flx. Qed.
(** consecutive harmonics up to 2^(prec - 1) do not collapse *)
Lemma val_next z : (Z.abs z * 2 <= 2 ^ prec)%Z -> (Z.abs (z + 1) * 2 <= 2 ^ prec)%Z -> val z < val (z + 1).
Proof.
  intros H1 H2. destruct (Rle_lt_or_eq_dec (val z) (val (z + 1))) as [|E]; [apply val_mono; lia|assumption|exfalso].
  pose proof D_pos as DP. pose proof (relative_error_N_FLX' radix2 prec Hp ties (IZR z / D)) as E1. pose proof (relative_error_N_FLX' radix2 prec Hp ties (IZR (z + 1) / D)) as E2.
  change (round radix2 (FLX_exp prec) (Znearest ties) (IZR z / D)) with (val z) in E1. change (round radix2 (FLX_exp prec) (Znearest ties) (IZR (z + 1) / D)) with (val (z + 1)) in E2.
  rewrite <- E in E2. set (r := val z) in *.
  assert (EU : u_ro radix2 prec = uro prec). { unfold u_ro, uro. replace (/ 2) with (bpow radix2 (-1)) by reflexivity. rewrite <- bpow_plus. f_equal. lia. }
  rewrite EU in *. set (u := uro prec) in *. assert (UP : 0 < u) by apply bpow_gt_0.
  assert (U1 : u * IZR (2 ^ prec) = 1). { unfold u, uro. rewrite (IZR_Zpower radix2) by lia. rewrite <- bpow_plus. now replace (- prec + prec)%Z with 0%Z by lia. }
  assert (T : Rabs (IZR (z + 1) / D - IZR z / D) <= u / (1 + u) * (Rabs (IZR (z + 1) / D) + Rabs (IZR z / D))).
  { replace (IZR (z + 1) / D - IZR z / D) with (- (r - IZR (z + 1) / D) + (r - IZR z / D)) by ring. eapply Rle_trans; [apply Rabs_triang|]. rewrite Rabs_Ropp. lra. }
  assert (AD : forall y, Rabs (IZR y / D) = IZR (Z.abs y) / D) by (intros; unfold Rdiv; rewrite Rabs_mult, abs_IZR, (Rabs_pos_eq (/ D)) by (left; now apply Rinv_0_lt_compat); reflexivity).
  replace (IZR (z + 1) / D - IZR z / D) with (IZR 1 / D) in T by (rewrite plus_IZR; field; lra). rewrite !AD in T. change (Z.abs 1) with 1%Z in T.
  apply (Rmult_le_compat_r D) in T; [|lra]. replace (1 / D * D) with 1 in T by (field; lra).
  replace (u / (1 + u) * (IZR (Z.abs (z + 1)) / D + IZR (Z.abs z) / D) * D) with (u / (1 + u) * IZR (Z.abs (z + 1) + Z.abs z)) in T by (rewrite plus_IZR; field; lra).
  assert (S1 : IZR (Z.abs (z + 1) + Z.abs z) <= IZR (2 ^ prec) - 1) by (rewrite <- minus_IZR; apply IZR_le; lia).
  apply (Rmult_le_compat_r (1 + u)) in T; [|lra]. replace (u / (1 + u) * IZR (Z.abs (z + 1) + Z.abs z) * (1 + u)) with (u * IZR (Z.abs (z + 1) + Z.abs z)) in T by (field; lra). nra.
Qed.
Lemma val_strict y z : (y < z)%Z -> (Z.abs y * 2 <= 2 ^ prec)%Z -> (Z.abs z * 2 <= 2 ^ prec)%Z -> val y < val z.
Proof.
  intros H H1 H2. apply Rle_lt_trans with (val (z - 1)); [apply val_mono; lia|]. replace z with (z - 1 + 1)%Z at 2 by lia. apply val_next; lia.
Qed.
Lemma D_exact : rnd (d * IZR (Z.of_nat n)) = d * IZR (Z.of_nat n) -> (Z.of_nat n <= 2 ^ prec)%Z -> D = IZR (Z.of_nat n) * d.
Proof. intros E H. unfold D. rewrite intP by lia. rewrite E. ring. Qed.
End Run.

(** ** fftfreq: three roundings, exactly antisymmetric, increasing once shifted *)
Theorem C126_fftfreq : forall (prec : Z) (ties : Z -> bool), (0 < prec)%Z -> sym ties -> let rnd := nearest_flx prec ties in
  forall (n : nat) (d : R), (1 <= n)%nat -> 0 < d -> (Z.of_nat n <= 2 * 2 ^ prec + 1)%Z ->
  exists f g, float_fftfreq rnd n d = Ok f /\ length f = n /\ fftshift_inplace f = Ok g /\ length g = n /\ nth 0 f 0 = 0 /\ nth (n / 2) g 0 = 0 /\
  (forall i, (i < n)%nat -> let exact := IZR (harmonic n i) / (IZR (Z.of_nat n) * d) in Rabs (nth i f 0 - exact) <= gamma prec 3 * Rabs exact) /\
  (forall i, (1 <= i)%nat -> (2 * i < n)%nat -> nth (n - i) f 0 = - nth i f 0) /\
  (forall i j, (i <= j < n)%nat -> nth i g 0 <= nth j g 0) /\
  ((Z.of_nat n <= 2 ^ prec)%Z -> forall i j, (i < j < n)%nat -> nth i g 0 < nth j g 0).
Proof.
  intros prec ties Hp Hs rnd n d Hn Hd Hb. destruct (fft_run prec ties Hp n d Hn Hd Hb) as (f & Ef & Lf & Cf & g & Eg & Lg & Cg).
  pose proof (Nat.div_mod n 2 ltac:(lia)) as DM. pose proof (Nat.mod_upper_bound n 2 ltac:(lia)) as MB. pose proof (half_up n) as HU.
  exists f, g. split; [exact Ef|]. split; [exact Lf|]. split; [exact Eg|]. split; [exact Lg|]. split; [|split; [|split; [|split; [|split]]]].
  - rewrite Cf by lia. replace (harmonic n 0) with 0%Z; [now apply val_0|]. unfold harmonic. destruct (Nat.ltb_spec 0 ((n + 1) / 2)); [reflexivity|lia].
  - rewrite Cg by lia. rewrite Z.sub_diag. now apply val_0.
  - intros i Hi exact. rewrite Cf by exact Hi. apply (rel_close prec ties Hp). now apply val_rel.
  - intros i H1 H2. rewrite !Cf by lia. replace (harmonic n (n - i)) with (- harmonic n i)%Z; [now apply val_opp|].
    unfold harmonic. destruct (Nat.ltb_spec i ((n + 1) / 2)); [|lia]. destruct (Nat.ltb_spec (n - i) ((n + 1) / 2)); lia.
  - intros i j Hij. rewrite !Cg by lia. apply val_mono; try assumption. lia.
  - intros Hb' i j Hij. rewrite !Cg by lia. apply val_strict; try assumption; lia.
Qed.
Print Assumptions C126_fftfreq.
(** ** rfftfreq: the same values without the negative harmonics; for an even n the last one is the opposite of the middle one of fftfreq *)
Theorem C126_rfftfreq : forall (prec : Z) (ties : Z -> bool), (0 < prec)%Z -> sym ties -> let rnd := nearest_flx prec ties in
  forall (n : nat) (d : R), (1 <= n)%nat -> 0 < d -> (Z.of_nat n <= 2 * 2 ^ prec + 1)%Z ->
  exists f h, float_fftfreq rnd n d = Ok f /\ float_rfftfreq rnd n d = Ok h /\ length h = (n / 2 + 1)%nat /\
  (forall i, (i <= n / 2)%nat -> let exact := IZR (Z.of_nat i) / (IZR (Z.of_nat n) * d) in Rabs (nth i h 0 - exact) <= gamma prec 3 * Rabs exact) /\
  (forall i, (2 * i < n)%nat -> nth i h 0 = nth i f 0) /\ (forall i, (2 * i = n)%nat -> nth i h 0 = - nth i f 0) /\
  (forall i j, (i <= j <= n / 2)%nat -> nth i h 0 <= nth j h 0) /\ ((Z.of_nat n <= 2 ^ prec)%Z -> forall i j, (i < j <= n / 2)%nat -> nth i h 0 < nth j h 0).
Proof.
  intros prec ties Hp Hs rnd n d Hn Hd Hb. destruct (fft_run prec ties Hp n d Hn Hd Hb) as (f & Ef & Lf & Cf & _). destruct (rfft_run prec ties Hp n d Hn Hd Hb) as (h & Eh & Lh & Ch).
  pose proof (Nat.div_mod n 2 ltac:(lia)) as DM. pose proof (Nat.mod_upper_bound n 2 ltac:(lia)) as MB. pose proof (half_up n) as HU.
  exists f, h. split; [exact Ef|]. split; [exact Eh|]. split; [exact Lh|]. split; [|split; [|split; [|split]]].
  - intros i Hi exact. rewrite Ch by exact Hi. apply (rel_close prec ties Hp). now apply val_rel.
  - intros i Hi. rewrite Ch, Cf by lia. unfold harmonic. destruct (Nat.ltb_spec i ((n + 1) / 2)); [reflexivity|lia].
  - intros i Hi. rewrite Ch, Cf by lia. unfold harmonic. destruct (Nat.ltb_spec i ((n + 1) / 2)); [lia|]. rewrite <- val_opp by assumption. do 4 f_equal. lia.
  - intros i j Hij. rewrite !Ch by lia. apply val_mono; try assumption. lia.
  - intros Hb' i j Hij. rewrite !Ch by lia. apply val_strict; try assumption; lia.
Qed.
Print Assumptions C126_rfftfreq.
(** ** exact when n d and its quotients are representable, e.g. n and d powers of two *)
Theorem C126_exact : forall (prec : Z) (ties : Z -> bool), (0 < prec)%Z -> let rnd := nearest_flx prec ties in
  forall (k : nat) (e : Z), (Z.of_nat k <= prec)%Z -> let n := (2 ^ k)%nat in
  exists f h, float_fftfreq rnd n (bpow radix2 e) = Ok f /\ float_rfftfreq rnd n (bpow radix2 e) = Ok h /\
  (forall i, (i < n)%nat -> nth i f 0 = IZR (harmonic n i) / (IZR (Z.of_nat n) * bpow radix2 e)) /\
  (forall i, (i <= n / 2)%nat -> nth i h 0 = IZR (Z.of_nat i) / (IZR (Z.of_nat n) * bpow radix2 e)).
Proof.
  intros prec ties Hp rnd k e Hk n. assert (Nz : Z.of_nat n = (2 ^ Z.of_nat k)%Z) by (unfold n; rewrite Nat2Z.inj_pow; reflexivity).
  assert (N1 : (1 <= n)%nat) by (assert (0 < 2 ^ Z.of_nat k)%Z by (apply Z.pow_pos_nonneg; lia); lia).
  assert (NP : (Z.of_nat n <= 2 ^ prec)%Z) by (rewrite Nz; apply Z.pow_le_mono_r; lia).
  pose proof (bpow_gt_0 radix2 e) as BP. assert (Hb : (Z.of_nat n <= 2 * 2 ^ prec + 1)%Z) by lia.
  destruct (fft_run prec ties Hp n _ N1 BP Hb) as (f & Ef & Lf & Cf & _). destruct (rfft_run prec ties Hp n _ N1 BP Hb) as (h & Eh & Lh & Ch).
  assert (Pow : IZR (Z.of_nat n) = bpow radix2 (Z.of_nat k)) by (rewrite Nz, (IZR_Zpower radix2) by lia; reflexivity).
  assert (ED : rnd (bpow radix2 e * rnd (IZR (Z.of_nat n))) = IZR (Z.of_nat n) * bpow radix2 e).
  { eapply D_exact; try eassumption. rewrite Pow, <- bpow_plus. apply (rd_id _ _ _ _ (flx_rd prec ties Hp)). apply generic_format_bpow. unfold FLX_exp. lia. }
  assert (V : forall z, (Z.abs z <= 2 ^ prec)%Z -> rnd (IZR z / (IZR (Z.of_nat n) * bpow radix2 e)) = IZR z / (IZR (Z.of_nat n) * bpow radix2 e)).
  { intros z Hz. apply (rd_id _ _ _ _ (flx_rd prec ties Hp)). rewrite Pow, <- bpow_plus. unfold Rdiv. rewrite <- bpow_opp. apply (mult_bpow_exact_FLX radix2 prec). now apply flx_integer. }
  unfold rnd in ED, V. exists f, h. split; [exact Ef|]. split; [exact Eh|]. pose proof (half_up n). pose proof (half_le n). split.
  - intros i Hi. rewrite Cf by exact Hi. setoid_rewrite ED. apply V. unfold harmonic. destruct (Nat.ltb_spec i ((n + 1) / 2)); lia.
  - intros i Hi. rewrite Ch by exact Hi. setoid_rewrite ED. apply V. lia.
Qed.
Print Assumptions C126_exact.
(** ** the axis of the spectra, spectral.hpp:318-325: the spacing 1 / fs is rounded too *)
Theorem C126_axis : forall (prec : Z) (ties : Z -> bool), (0 < prec)%Z -> let rnd := nearest_flx prec ties in
  forall (n : nat) (fs : R), (1 <= n)%nat -> 0 < fs -> (Z.of_nat n <= 2 * 2 ^ prec + 1)%Z ->
  exists f h, float_fftfreq rnd n (rnd (1 / fs)) = Ok f /\ float_rfftfreq rnd n (rnd (1 / fs)) = Ok h /\ length f = n /\ length h = (n / 2 + 1)%nat /\
  (forall i, (i < n)%nat -> let exact := IZR (harmonic n i) * fs / IZR (Z.of_nat n) in Rabs (nth i f 0 - exact) <= gamma prec 4 * Rabs exact) /\
  (forall i, (i <= n / 2)%nat -> let exact := IZR (Z.of_nat i) * fs / IZR (Z.of_nat n) in Rabs (nth i h 0 - exact) <= gamma prec 4 * Rabs exact).
Proof.
  intros prec ties Hp rnd n fs Hn Hf Hb. pose proof (flx_rd prec ties Hp) as RD. pose proof (fun x => nearest_inv prec ties x Hp) as Hinv.
  assert (R1 : rel (uro prec) 1 (rnd (1 / fs)) (1 / fs)) by apply (rel_rnd1 _ _ _ RD Hinv).
  assert (Hd : 0 < rnd (1 / fs)).
  { destruct R1 as (r & [A B] & ->). apply Rmult_lt_0_compat; [apply Rdiv_lt_0_compat; lra|]. pose proof (Rinv_0_lt_compat _ (g_pos prec 1)). lra. }
  destruct (fft_run prec ties Hp n _ Hn Hd Hb) as (f & Ef & Lf & Cf & _). destruct (rfft_run prec ties Hp n _ Hn Hd Hb) as (h & Eh & Lh & Ch).
  assert (A : forall z, rel (uro prec) 4 (rnd (IZR z / rnd (rnd (1 / fs) * rnd (IZR (Z.of_nat n))))) (IZR z * fs / IZR (Z.of_nat n))).
  { intros z. apply (rel_trans _ _ _ RD 3 1 _ (IZR z / (IZR (Z.of_nat n) * rnd (1 / fs)))); [now apply val_rel|].
    replace (IZR z * fs / IZR (Z.of_nat n)) with (IZR z / (IZR (Z.of_nat n) * (1 / fs))).
    2:{ assert (0 < IZR (Z.of_nat n)) by (apply IZR_lt; lia). field. lra. }
    apply (rel_div _ _ _ RD 0 1); [apply (rel_0 _ _ _ RD)|]. apply (rel_mul _ _ _ RD 0 1); [apply (rel_0 _ _ _ RD)|exact R1]. }
  exists f, h. split; [exact Ef|]. split; [exact Eh|]. split; [exact Lf|]. split; [exact Lh|]. split.
  - intros i Hi exact. rewrite Cf by exact Hi. apply (rel_close prec ties Hp), A.
  - intros i Hi exact. rewrite Ch by exact Hi. apply (rel_close prec ties Hp), A.
Qed.
Print Assumptions C126_axis.
(** ** bad arguments are rejected *)
Theorem C126_rejects : forall (rnd : R -> R) (n : nat) (d : R), n = O \/ d <= 0 -> float_fftfreq rnd n d = RequireFail /\ float_rfftfreq rnd n d = RequireFail.
Proof.
  intros rnd n d H. unfold float_fftfreq, float_rfftfreq, fftfreq, rfftfreq, require. destruct (Nat.ltb_spec 0 n); [|split; reflexivity].
  unfold Rgtb. destruct (Rlt_dec 0 d); [|split; reflexivity]. exfalso. destruct H; [lia|lra].
Qed.
Print Assumptions C126_rejects.

(** ** Beyond 2^(prec + 1) samples the counting of std::iota fails: every frequency of fftfreq<float>(33554440) is -1/2 (nearly) *)
Notation ne := (fun m => negb (Z.even m)).
Lemma iota_stuck' (succ : R -> R) x n : succ x = x -> iota succ n x = repeat x n.
Proof. intros H. induction n as [|n IH]; [reflexivity|]. cbn [iota repeat]. now rewrite H, IH. Qed.
Lemma rot_repeat {A} k (x : A) n : (k <= n)%nat -> rot k (repeat x n) = repeat x n.
Proof.
  intros H. unfold rot. assert (S : forall a b, repeat x (a + b) = repeat x a ++ repeat x b) by (intros; apply repeat_app).
  replace n with (k + (n - k))%nat by lia. rewrite S, skipn_app, firstn_app, repeat_length, Nat.sub_diag. cbn [skipn firstn]. rewrite app_nil_r, skipn_all2, firstn_all2 by (rewrite repeat_length; lia).
  cbn [app]. rewrite <- !S. f_equal. lia.
Qed.
Lemma map_rep {A B} (f : A -> B) x n : map f (repeat x n) = repeat (f x) n. Proof. induction n as [|n IH]; [reflexivity|]. cbn. now rewrite IH. Qed.
Definition m24 : Z := 16777220.
Lemma stays : nearest_flx 24 ne (IZR (- m24) + 1) = IZR (- m24).
Proof.
  replace (IZR (- m24) + 1) with (-16777219) by (unfold m24; cbn; lra).
  unfold nearest_flx, round, scaled_mantissa, cexp. rewrite (mag_unique radix2 (-16777219) 25) by (rewrite Rabs_left by lra; cbn; lra). unfold FLX_exp. change (25 - 24)%Z with 1%Z.
  replace (-16777219 * bpow radix2 (- (1))) with (-8388610 + / 2) by (cbn; lra).
  assert (F : Zfloor (-8388610 + / 2) = (-8388610)%Z) by (apply Zfloor_imp; rewrite plus_IZR; lra).
  unfold Znearest. rewrite F, Rcompare_Eq by (cbn; lra). cbn [Z.even negb]. unfold F2R, m24. cbn. lra.
Qed.
Lemma start : nearest_flx 24 ne (IZR (- m24)) = IZR (- m24).
Proof. rewrite (nearest_at 24 ne 1 (-8388610)); [unfold m24; cbn; lra|rewrite Rabs_left by (unfold m24; cbn; lra); unfold m24; cbn; lra|unfold m24; apply Rabs_def1; cbn; lra]. Qed.
Theorem C126_fftfreq_large_refuted : exists v, float_fftfreq (nearest_flx 24 ne) (Z.to_nat 33554440) 1 = Ok (repeat v (Z.to_nat 33554440)) /\ v < - (49 / 100).
Proof.
  set (N := Z.to_nat 33554440). assert (EN : Z.of_nat N = 33554440%Z) by (unfold N; rewrite Z2Nat.id; lia). clearbody N.
  unfold float_fftfreq, fftfreq, require. destruct (Nat.ltb_spec 0 N); [|lia]. unfold Rgtb. destruct (Rlt_dec 0 1); [|lra]. cbn zeta. rewrite EN. change (Z.quot 33554440 2) with m24.
  rewrite start, iota_stuck' by exact stays. rewrite transform1_map, ifftshift_inplace_spec. rewrite map_rep, repeat_length, rot_repeat by apply half_le. eexists. split; [reflexivity|].
  pose proof (flx_rd 24 ne ltac:(lia)) as RD. set (rnd := nearest_flx 24 ne) in *.
  assert (U : uro 24 <= / 1000) by (unfold uro; cbn; lra).
  assert (P : forall x, Rabs (rnd x - x) <= / 1000 * Rabs x). { intros x. pose proof (rd_err _ _ _ _ RD x). pose proof (Rabs_pos x). nra. }
  pose proof (P 33554440) as P1. rewrite (Rabs_pos_eq 33554440) in P1 by lra. apply Rabs_le_inv in P1.
  pose proof (P (1 * rnd 33554440)) as P2. rewrite (Rabs_pos_eq (1 * _)) in P2 by lra. apply Rabs_le_inv in P2. set (D := rnd (1 * rnd 33554440)) in *.
  assert (DB : 33000000 <= D <= 33700000) by lra.
  pose proof (P (IZR (- m24) / D)) as P3. assert (Q : IZR (- m24) / D <= - (495 / 1000)). { apply (Rmult_le_reg_r D); [lra|]. unfold Rdiv. rewrite Rmult_assoc, Rinv_l by lra. unfold m24. cbn. lra. }
  rewrite (Rabs_left (IZR (- m24) / D)) in P3 by lra. apply Rabs_le_inv in P3. lra.
Qed.
Print Assumptions C126_fftfreq_large_refuted.

(** the hypotheses are met: five samples, d = 2, binary64 with ties to even; the values are 0, 0.1, 0.2, -0.2, -0.1 within three roundings *)
Example C126_nonvacuous : sym ne /\ exists f, float_fftfreq (nearest_flx 53 ne) 5 2 = Ok f /\ length f = 5%nat /\ map (harmonic 5) (seq 0 5) = [0; 1; 2; -2; -1]%Z /\
  nth 4 f 0 = - nth 1 f 0 /\ Rabs (nth 1 f 0 - / 10) <= gamma 53 3 * / 10.
Proof.
  split; [exact even_sym|]. destruct (C126_fftfreq 53 ne ltac:(lia) even_sym 5 2 ltac:(lia) ltac:(lra) ltac:(lia)) as (f & g & Ef & Lf & _ & _ & _ & _ & C & A & _).
  exists f. split; [exact Ef|]. split; [exact Lf|]. split; [reflexivity|]. split; [exact (A 1%nat ltac:(lia) ltac:(lia))|]. specialize (C 1%nat ltac:(lia)). cbn zeta in C.
  change (harmonic 5 1) with 1%Z in C. change (Z.of_nat 5) with 5%Z in C. replace (1 / (5 * 2)) with (/ 10) in C by lra. rewrite (Rabs_pos_eq (/ 10)) in C by lra. exact C.
Qed.
