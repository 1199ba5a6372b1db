(** Sinusoids through the Welch estimates: bins of the windowed DFT of a tone (specification SpectralSpec.v). *)
From Coq Require Import ZArith Reals.
From Verif Require Import Base Spec SumLib CplxR Spectral SpectralSpec SpectralFacts SpectralFacts2 SpectralFacts3 SpectralFacts5 Plots2Facts.
From Coq Require Import Lra Psatz Lia.
Open Scope nat_scope.
Set Implicit Arguments.
Add Ring cxring : xring.

Lemma bin_add w s t m : bin w (fun k => xadd (s k) (t k)) m = xadd (bin w s m) (bin w t m).
Proof.
  unfold bin. rewrite <- (sum_add xring). apply sum_ext. intros k Hk. unfold smean. rewrite (sum_add xring). set (S1 := xsum s (length w)). set (S2 := xsum t (length w)).
  apply injective_projections; unfold xmul, xscale, xsub, xadd; cbn [fst snd]; ring.
Qed.
(** the transform of the window at an offset of d bins *)
Definition wft (w : list R) (d : Z) : cx := xsum (fun k => xscale (nth k w 0%R) (root (length w) (Z.of_nat k * d))) (length w).
(** exp(2 i pi j k / N) *)
Definition ph (N : nat) (j : Z) (k : nat) : cx := root N (- (j * Z.of_nat k)).
Lemma ph_mean N j : 1 <= N -> (0 < j < Z.of_nat N)%Z -> smean (ph N j) N = x0.
Proof.
  intros H Hj. unfold smean. replace (xsum (ph N j) N) with x0; [unfold xscale, x0; cbn; f_equal; ring|].
  symmetry. rewrite (sum_ext _ (fun k => root N ((- j) * Z.of_nat k))) by (intros k _; unfold ph; f_equal; lia).
  rewrite orthogonality by lia. destruct (Z.eqb_spec (- j) 0); [lia|]. destruct (Z.eqb_spec (- j) (Z.of_nat N)); [lia|]. reflexivity.
Qed.
Lemma bin_ph w j m : w <> [] -> (0 < j < Z.of_nat (length w))%Z -> bin w (ph (length w) j) m = wft w (Z.of_nat m - j).
Proof.
  intros Hw Hj. assert (1 <= length w) by (destruct w; [congruence|cbn; lia]). unfold bin, wft. rewrite ph_mean by assumption. apply sum_ext. intros k Hk.
  replace (Z.of_nat k * (Z.of_nat m - j))%Z with (- (j * Z.of_nat k) + Z.of_nat k * Z.of_nat m)%Z by lia. rewrite root_add by assumption. unfold ph.
  apply injective_projections; unfold xmul, xscale, xsub, x0; cbn [fst snd]; ring.
Qed.
Lemma wft_0 w : wft w 0 = xre (bigop Rplus 0%R w).
Proof.
  unfold wft. rewrite (sum_ext _ (fun k => xre (nth k w 0%R))). 2:{ intros k _. rewrite Z.mul_0_r, root_0. unfold xscale, x1, xre. cbn [fst snd]. f_equal; ring. }
  rewrite xsum_re. f_equal. induction w as [|a w IH] using rev_ind; [reflexivity|]. rewrite app_length. cbn [length]. rewrite Nat.add_1_r. cbn [nsum].
  rewrite app_nth2, Nat.sub_diag by lia. cbn [nth]. rewrite (rsum_ext _ (fun k => nth k w 0%R)) by (intros k Hk; now rewrite app_nth1). rewrite IH.
  clear. induction w as [|b w IH]; cbn [app bigop]; lra.
Qed.
Lemma wft_boxcar N b d : 1 <= N -> (- Z.of_nat N < d < 2 * Z.of_nat N)%Z -> d <> 0%Z -> d <> Z.of_nat N -> wft (repeat b N) d = x0.
Proof.
  intros H Hd H0 HN. unfold wft. rewrite repeat_length. rewrite (sum_ext _ (fun k => xmul (xre b) (root N (d * Z.of_nat k)))).
  - rewrite xsum_scale_l, orthogonality by assumption. destruct (Z.eqb_spec d 0); [lia|]. destruct (Z.eqb_spec d (Z.of_nat N)); [lia|]. cbn [orb]. ring.
  - intros k Hk. replace (nth k (repeat b N) 0%R) with b. 2:{ symmetry. rewrite (nth_indep _ 0%R b) by (now rewrite repeat_length). apply nth_repeat. }
    rewrite (Z.mul_comm d). unfold xscale, xmul, xre. cbn [fst snd]. f_equal; ring.
Qed.
Lemma wft_N w : 1 <= length w -> wft w (Z.of_nat (length w)) = wft w 0.
Proof. intros H. unfold wft. apply sum_ext. intros k _. rewrite (Z.mul_comm (Z.of_nat k)), root_mulZ, Z.mul_0_r, root_0 by exact H. reflexivity. Qed.
Lemma tri a b x y : (0 <= x)%R -> (0 <= y)%R -> (xnorm2 a <= x * x)%R -> (xnorm2 b <= y * y)%R -> (xnorm2 (xadd a b) <= (x + y) * (x + y))%R.
Proof.
  destruct a as [a1 a2], b as [b1 b2]. unfold xnorm2, xadd. cbn [fst snd]. intros Hx Hy H1 H2. set (D := (a1 * b1 + a2 * b2)%R).
  assert (Q : (D <= x * y)%R).
  { destruct (Rle_dec D 0) as [L|L]; [pose proof (Rmult_le_pos x y Hx Hy); lra|]. apply Rsqr_incr_0; unfold Rsqr; [|lra|now apply Rmult_le_pos].
    assert (D * D <= (a1 * a1 + a2 * a2) * (b1 * b1 + b2 * b2))%R. { unfold D. assert (0 <= (a1 * b2 - a2 * b1) * (a1 * b2 - a2 * b1))%R by apply Rle_0_sqr. nra. }
    assert ((a1 * a1 + a2 * a2) * (b1 * b1 + b2 * b2) <= (x * x) * (y * y))%R by (apply Rmult_le_compat; nra). nra. }
  unfold D in Q. nra.
Qed.
Lemma wft_le w d : (forall k, k < length w -> (0 <= nth k w 0)%R) -> (xnorm2 (wft w d) <= bigop Rplus 0%R w * bigop Rplus 0%R w)%R.
Proof.
  intros H. assert (E : bigop Rplus 0%R w = rsum (fun k => nth k w 0%R) (length w)).
  { pose proof (wft_0 w) as Q. unfold wft in Q. rewrite (sum_ext _ (fun k => xre (nth k w 0%R))) in Q. 2:{ intros k _. rewrite Z.mul_0_r, root_0. unfold xscale, x1, xre. cbn [fst snd]. f_equal; ring. }
    rewrite xsum_re in Q. apply (f_equal fst) in Q. cbn in Q. now symmetry. }
  rewrite E. unfold wft. set (N := length w) in *.
  enough (G : forall n, n <= N -> (0 <= rsum (fun k => nth k w 0) n)%R /\ (xnorm2 (xsum (fun k => xscale (nth k w 0%R) (root N (Z.of_nat k * d))) n) <= rsum (fun k => nth k w 0) n * rsum (fun k => nth k w 0) n)%R) by (apply (G N); lia).
  induction n as [|n IH]; intros Hn; cbn [nsum]; [split; [lra|unfold xnorm2, x0; cbn; lra]|]. destruct (IH ltac:(lia)) as (I1 & I2). specialize (H n ltac:(lia)). split; [lra|].
  apply tri; [exact I1|exact H|exact I2|]. rewrite xnorm2_xscale, xnorm2_root. lra.
Qed.

(** averages that do not depend on the segment *)
Lemma rsum_same (f : nat -> R) v n : (forall i, i < n -> f i = v) -> rsum f n = (INR n * v)%R.
Proof. induction n as [|n IH]; intros H; [cbn; ring|]. cbn [nsum]. rewrite IH by (intros; apply H; lia). rewrite H by lia. rewrite S_INR. ring. Qed.
Lemma xsum_same (f : nat -> cx) v n : (forall i, i < n -> f i = v) -> xsum f n = xscale (INR n) v.
Proof.
  induction n as [|n IH]; intros H; [unfold xscale, x0; cbn [nsum]; change (INR 0) with 0%R; unfold x0; f_equal; ring|]. cbn [nsum]. rewrite IH by (intros; apply H; lia). rewrite H by lia. rewrite S_INR.
  unfold xscale, xadd. cbn [fst snd]. f_equal; ring.
Qed.

Lemma ph_add N j a b : 1 <= N -> ph N j (a + b) = xmul (ph N j a) (ph N j b).
Proof. intros H. unfold ph. rewrite <- root_add by exact H. f_equal. lia. Qed.
Lemma ph_norm N j a : xnorm2 (ph N j a) = 1%R. Proof. apply xnorm2_root. Qed.
Lemma nth_gen {E} (f : nat -> E) d L i : i < L -> nth i (map f (seq 0 L)) d = f i.
Proof. intros H. rewrite (nth_indep _ d (f 0)) by (rewrite map_length, seq_length; exact H). rewrite map_nth, seq_nth by exact H. reflexivity. Qed.
Section Avg.
Variables (c : config) (L : nat).
Hypothesis V : valid c.
Hypothesis HL : length (c_window c) <= L.
Let N := length (c_window c).
Let N1 : 1 <= N. Proof. pose proof (v_window c V). unfold N. destruct (c_window c); [congruence|cbn; lia]. Qed.
Let ns := nsegs c L.
Let ns1 : INR ns <> 0%R. Proof. apply not_0_INR. unfold ns, nsegs. lia. Qed.
Lemma seg_in i k : i < ns -> k < N -> i * step_of c + k < L.
Proof. intros Hi Hk. pose proof (nsegs_fit c L i V HL Hi). unfold N in *. lia. Qed.
(** a complex tone: the average is that of any one segment *)
Lemma csample_tone A j i m : (0 < j < Z.of_nat N)%Z -> i < ns ->
  bin (c_window c) (csample c (map (fun t => xmul A (ph N j t)) (seq 0 L)) i) m = xmul (xmul A (ph N j (i * step_of c))) (wft (c_window c) (Z.of_nat m - j)).
Proof.
  intros Hj Hi. rewrite <- (@bin_ph (c_window c) j m (v_window c V) Hj). rewrite <- bin_scale. apply bin_ext. intros k Hk. unfold sample. rewrite nth_gen by (now apply seg_in).
  fold N. rewrite ph_add by exact N1. ring.
Qed.
Lemma cpsd_tone A j m : (0 < j < Z.of_nat N)%Z -> cpsd c (map (fun t => xmul A (ph N j t)) (seq 0 L)) m = (xnorm2 A * xnorm2 (wft (c_window c) (Z.of_nat m - j)))%R.
Proof.
  intros Hj. unfold psd_avg. rewrite map_length, seq_length. fold ns. rewrite (@rsum_same _ (xnorm2 A * xnorm2 (wft (c_window c) (Z.of_nat m - j)))%R).
  - field. exact ns1.
  - intros i Hi. rewrite csample_tone by assumption. rewrite !xnorm2_mul, ph_norm. ring.
Qed.
Lemma ccsd_tone A B j m : (0 < j < Z.of_nat N)%Z ->
  ccsd c (map (fun t => xmul A (ph N j t)) (seq 0 L)) (map (fun t => xmul B (ph N j t)) (seq 0 L)) m = xscale (xnorm2 (wft (c_window c) (Z.of_nat m - j))) (xmul (xconj A) B).
Proof.
  intros Hj. unfold csd_avg. rewrite map_length, seq_length. fold ns. rewrite (@xsum_same _ (xscale (xnorm2 (wft (c_window c) (Z.of_nat m - j))) (xmul (xconj A) B))).
  - rewrite xscale_xscale, Rinv_l by exact ns1. rewrite xscale_1. reflexivity.
  - intros i Hi. rewrite !csample_tone by assumption. set (W := wft _ _). set (P := ph N j (i * step_of c)). pose proof (ph_norm N j (i * step_of c)) as PN. fold P in PN.
    rewrite !xconj_mul. transitivity (xmul (xmul (xmul P (xconj P)) (xmul W (xconj W))) (xmul (xconj A) B)); [ring|]. rewrite !CplxR.xmul_conj, PN.
    apply injective_projections; unfold xmul, xscale, xre; cbn [fst snd]; ring.
Qed.
(** a real tone is the sum of two complex ones *)
Lemma real_tone A phi j t : 1 <= j -> j < N ->
  xre (A * cos (2 * PI * (INR j * INR t) / INR N + phi))%R =
  xadd (xmul (A / 2 * cos phi, A / 2 * sin phi)%R (ph N (Z.of_nat j) t)) (xmul (A / 2 * cos phi, - (A / 2 * sin phi))%R (ph N (Z.of_nat (N - j)) t)).
Proof.
  intros H1 H2. assert (E : ph N (Z.of_nat (N - j)) t = root N (Z.of_nat j * Z.of_nat t)).
  { unfold ph. replace (- (Z.of_nat (N - j) * Z.of_nat t))%Z with (Z.of_nat j * Z.of_nat t + Z.of_nat N * (- Z.of_nat t))%Z by (rewrite Nat2Z.inj_sub by lia; ring).
    rewrite root_add, root_mulZ by exact N1. ring. }
  rewrite E. unfold ph, root. assert (EA : ang N (- (Z.of_nat j * Z.of_nat t)) = (- ang N (Z.of_nat j * Z.of_nat t))%R) by (unfold ang; rewrite opp_IZR; unfold Rdiv; ring).
  rewrite EA, cos_neg, sin_neg. replace (2 * PI * (INR j * INR t) / INR N)%R with (ang N (Z.of_nat j * Z.of_nat t)) by (unfold ang; rewrite mult_IZR, <- !INR_IZR_INZ; reflexivity).
  set (a := ang N _). unfold xre, xadd, xmul. cbn [fst snd]. rewrite cos_plus. f_equal; field.
Qed.
Lemma rsample_tone A phi j i m : 1 <= j -> j < N -> i < ns ->
  bin (c_window c) (rsample c (map (fun t => A * cos (2 * PI * (INR j * INR t) / INR N + phi))%R (seq 0 L)) i) m =
  xadd (xmul (xmul (A / 2 * cos phi, A / 2 * sin phi)%R (ph N (Z.of_nat j) (i * step_of c))) (wft (c_window c) (Z.of_nat m - Z.of_nat j)))
       (xmul (xmul (A / 2 * cos phi, - (A / 2 * sin phi))%R (ph N (Z.of_nat (N - j)) (i * step_of c))) (wft (c_window c) (Z.of_nat m - Z.of_nat (N - j)))).
Proof.
  intros H1 H2 Hi. rewrite <- (@bin_ph (c_window c) (Z.of_nat j) m (v_window c V)) by (fold N; lia). rewrite <- (@bin_ph (c_window c) (Z.of_nat (N - j)) m (v_window c V)) by (fold N; lia).
  rewrite <- !bin_scale, <- bin_add. apply bin_ext. intros k Hk. unfold sample. rewrite nth_gen by (now apply seg_in). rewrite real_tone by assumption. fold N. rewrite !ph_add by exact N1. ring.
Qed.
End Avg.
