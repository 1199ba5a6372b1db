(** Proofs about Binning.v: the bin count selected by each estimator. *)
From Coq Require Import ZArith Reals List Permutation.
From Verif Require Import Base Functional FunctionalProofs Numeric RangeManips Stats StatsMoments Histogram StatsReal StatsRealFacts StatsRealFacts2 StatsVar StatsVarFacts Binning BinningFacts.
From Coq Require Import Lra Psatz Lia.
Open Scope nat_scope.
Set Implicit Arguments.

Lemma cbrt_spec x : (0 < x)%R -> (0 < cbrt x /\ cbrt x ^ 3 = x)%R.
Proof.
  intros H. unfold cbrt. destruct (Rlt_dec 0 x); [|contradiction]. split; [apply exp_pos|].
  replace (exp (ln x / 3) ^ 3)%R with (exp (ln x / 3) * (exp (ln x / 3) * exp (ln x / 3)))%R by ring. rewrite <- !exp_plus.
  replace (ln x / 3 + (ln x / 3 + ln x / 3))%R with (ln x) by field. now apply exp_ln.
Qed.
Lemma cube_le a b : (0 <= a)%R -> (0 <= b)%R -> ((a <= b)%R <-> (a ^ 3 <= b ^ 3)%R).
Proof.
  intros A B. split; intros H; [apply pow_incr; lra|]. destruct (Rle_dec a b) as [C|C]; [exact C|]. exfalso.
  assert (b < a)%R by lra. assert (E : (a ^ 3 - b ^ 3 = (a - b) * (a * a + a * b + b * b))%R) by ring.
  assert (0 < a * a)%R by nra. assert (0 <= a * b)%R by nra. assert (0 <= b * b)%R by nra. assert (0 < (a - b) * (a * a + a * b + b * b))%R by (apply Rmult_lt_0_compat; lra). lra.
Qed.
Lemma div_flip D t k : (0 < D)%R -> (0 < t)%R -> ((D <= k * (D / t))%R <-> (t <= k)%R).
Proof.
  intros HD Ht. split; intros H.
  - apply Rmult_le_reg_r with (D / t)%R; [apply Rdiv_lt_0_compat; lra|]. replace (t * (D / t))%R with D by (field; lra). exact H.
  - apply Rmult_le_compat_r with (r := (D / t)%R) in H; [|left; apply Rdiv_lt_0_compat; lra]. replace (t * (D / t))%R with D in H by (field; lra). exact H.
Qed.
Lemma sqrt_le_iff a k : (0 <= a)%R -> (0 <= k)%R -> ((sqrt a <= k)%R <-> (a <= k * k)%R).
Proof.
  intros A K. split; intros H.
  - rewrite <- (sqrt_sqrt a A). pose proof (sqrt_pos a). nra.
  - rewrite <- (sqrt_square k K). now apply sqrt_le_1_alt.
Qed.
Lemma len_pos (x : list R) v : In v x -> (1 <= INR (length x))%R.
Proof. destruct x; [intros []|]. intros _. change 1%R with (INR 1). apply le_INR. simpl. lia. Qed.
Lemma len64 (x : list R) : (Z.of_nat (length x) < 2 ^ 64)%Z -> (INR (length x) <= 2 ^ 64)%R.
Proof. intros H. rewrite INR_IZR_INZ, <- p64. apply IZR_le. lia. Qed.
Lemma pow_split a b : (2 ^ (a + b) = 2 ^ a * 2 ^ b)%R.
Proof. apply pow_add. Qed.
Lemma big60 : (2 ^ 59 <= 2 ^ 60 - 2)%R.
Proof. change 60 with (59 + 1). rewrite pow_add. pose proof (Rle_pow 2 1 59 ltac:(lra) ltac:(lia)). simpl (2 ^ 1)%R in *. lra. Qed.
Lemma nonempty_neb (x : list R) v : In v x -> negb (length x =? 0) = true.
Proof. destruct x; [intros []|]. reflexivity. Qed.
Lemma bw_unfold nan inf iqr m x v : In v x -> m <> AUTO -> bin_width nan inf iqr m x = bin_width_simple nan inf iqr m x.
Proof. intros H M. unfold bin_width. rewrite (nonempty_neb _ _ H). cbn [require]. destruct m; try reflexivity. congruence. Qed.

Section Methods.
Variables (nan inf : R) (iqr : list R -> R) (x : list R) (lo hi : R).
Hypothesis (L : lowest x lo) (H : highest x hi).
Let N := INR (length x).
Let D := (hi - lo)%R.
Lemma N1 : (1 <= N)%R.
Proof. exact (len_pos _ _ (proj1 L)). Qed.
Lemma bw m : m <> AUTO -> bin_width nan inf iqr m x = bin_width_simple nan inf iqr m x.
Proof. exact (@bw_unfold nan inf iqr m x lo (proj1 L)). Qed.
Lemma ptpD : ptp nan rlt Rminus x = D.
Proof. apply (ext_eq nan L H). Qed.

Hypothesis A : apart lo hi.
Lemma D0 : (0 < D)%R.
Proof. unfold D. pose proof (apart_lt (proj2 L _ (proj1 H)) A). lra. Qed.

(** selection for a width of the form D / t *)
Lemma select_ratio m t : bin_width nan inf iqr m x = Ok (D / t)%R -> (0 < t)%R -> (t <= 2 ^ 59)%R ->
  exists n l, histogram_bin_edges_auto nan inf iqr m x = Ok l /\ 1 <= n /\ equal_bins lo hi n l /\ forall k, n <= k <-> (t <= INR k)%R.
Proof.
  intros W Ht H59. pose proof D0 as HD. destruct (@select nan inf iqr m x lo hi (D / t)%R L H A W) as (n & l & E & H1 & B & K).
  - apply Rdiv_lt_0_compat; lra.
  - pose proof big60. apply div_flip; fold D; lra.
  - exists n, l. repeat (split; [assumption|]). intros k. rewrite K. apply div_flip; lra.
Qed.

Hypothesis Hlen : (Z.of_nat (length x) < 2 ^ 64)%Z.
Lemma N64 : (N <= 2 ^ 64)%R.
Proof. exact (len64 _ Hlen). Qed.
Lemma p2mono a b : a <= b -> (2 ^ a <= 2 ^ b)%R.
Proof. intros Q. apply Rle_pow; [lra|exact Q]. Qed.

Lemma sqrt_bins : exists n l, histogram_bin_edges_auto nan inf iqr SQRT x = Ok l /\ 1 <= n /\ equal_bins lo hi n l /\
  forall k, n <= k <-> length x <= k * k.
Proof.
  pose proof N1 as HN. pose proof N64 as H64. destruct (@select_ratio SQRT (sqrt N)) as (n & l & E & H1 & B & K).
  - rewrite bw by discriminate. cbn [bin_width_simple]. now rewrite ptpD.
  - apply sqrt_lt_R0. lra.
  - apply sqrt_le_iff; [lra|apply pow_le; lra|]. rewrite <- pow_add. pose proof (@p2mono 64 (59 + 59) ltac:(lia)). lra.
  - exists n, l. repeat (split; [assumption|]). intros k. rewrite K, sqrt_le_iff by (try apply pos_INR; lra). rewrite <- mult_INR. split; [apply INR_le|apply le_INR].
Qed.

Lemma rice_bins : exists n l, histogram_bin_edges_auto nan inf iqr RICE x = Ok l /\ 1 <= n /\ equal_bins lo hi n l /\
  forall k, n <= k <-> 8 * length x <= k ^ 3.
Proof.
  pose proof N1 as HN. pose proof N64 as H64. destruct (@cbrt_spec N ltac:(lra)) as [C1 C2]. destruct (@select_ratio RICE (2 * cbrt N)%R) as (n & l & E & H1 & B & K).
  - rewrite bw by discriminate. cbn [bin_width_simple]. rewrite ptpD. fold N. f_equal. field. lra.
  - lra.
  - apply cube_le; [lra|apply pow_le; lra|]. replace ((2 * cbrt N) ^ 3)%R with (2 ^ 3 * cbrt N ^ 3)%R by ring. rewrite C2. rewrite <- pow_mult.
    pose proof (@p2mono (3 + 64) (59 * 3) ltac:(lia)) as P. rewrite pow_add in P. pose proof (pow_lt 2 3 ltac:(lra)). nra.
  - exists n, l. repeat (split; [assumption|]). intros k. rewrite K, cube_le by (try apply pos_INR; lra). replace ((2 * cbrt N) ^ 3)%R with (8 * cbrt N ^ 3)%R by ring. rewrite C2.
    rewrite <- pow_INR. replace (8 * N)%R with (INR (8 * length x)) by (rewrite mult_INR; unfold N; simpl; ring). split; [apply INR_le|apply le_INR].
Qed.
Lemma log2_le y k : (0 < y)%R -> ((log2 y <= INR k)%R <-> (y <= 2 ^ k)%R).
Proof.
  intros Hy. unfold log2. pose proof ln_lt_2. assert (0 < ln 2)%R by lra. assert (E : (2 ^ k = exp (INR k * ln 2))%R) by (rewrite <- ln_pow by lra; rewrite exp_ln; [reflexivity|apply pow_lt; lra]).
  split; intros Q.
  - rewrite E. rewrite <- (exp_ln y Hy). apply (Rmult_le_compat_r (ln 2)) in Q; [|lra]. replace (ln y / ln 2 * ln 2)%R with (ln y) in Q by (field; lra).
    destruct Q as [Q|Q]; [left; now apply exp_increasing|right; now rewrite Q].
  - apply Rmult_le_reg_r with (ln 2); [lra|]. replace (ln y / ln 2 * ln 2)%R with (ln y) by (field; lra). rewrite <- (ln_exp (INR k * ln 2)), <- E.
    destruct Q as [Q| ->]; [left; now apply ln_increasing|lra].
Qed.
Lemma log2_mult a b : (0 < a)%R -> (0 < b)%R -> log2 (a * b) = (log2 a + log2 b)%R.
Proof. intros Ha Hb. unfold log2. rewrite ln_mult by assumption. pose proof ln_lt_2. field. lra. Qed.
Lemma log2_2 : log2 2 = 1%R.
Proof. unfold log2. pose proof ln_lt_2. field. lra. Qed.
Lemma log2_nonneg y : (1 <= y)%R -> (0 <= log2 y)%R.
Proof. intros Hy. unfold log2. pose proof ln_lt_2. apply Rmult_le_pos; [|left; apply Rinv_0_lt_compat; lra]. destruct Hy as [Q| <-]; [left; rewrite <- ln_1; now apply ln_increasing; lra|rewrite ln_1; lra]. Qed.

(** selection when the ratio is log2 of a number at least 1 and at most 2^(2^59) *)
Lemma select_log2 m y : bin_width nan inf iqr m x = Ok (D / log2 y)%R -> (2 <= y)%R -> (y <= 2 ^ 300)%R ->
  exists n l, histogram_bin_edges_auto nan inf iqr m x = Ok l /\ 1 <= n /\ equal_bins lo hi n l /\ forall k, n <= k <-> (y <= 2 ^ k)%R.
Proof.
  intros W Y1 Y2. destruct (@select_ratio m (log2 y) W) as (n & l & E & H1 & B & K).
  - unfold log2. pose proof ln_lt_2. apply Rdiv_lt_0_compat; [|lra]. rewrite <- ln_1. apply ln_increasing; lra.
  - apply log2_le in Y2; [|lra]. pose proof (@p2mono 9 59 ltac:(lia)) as P. replace (INR 300) with 300%R in Y2 by (rewrite INR_IZR_INZ; reflexivity). assert (2 ^ 9 = 512)%R by (simpl; lra). lra.
  - exists n, l. repeat (split; [assumption|]). intros k. rewrite K. apply log2_le. lra.
Qed.
Lemma sturges_bins : exists n l, histogram_bin_edges_auto nan inf iqr STURGES x = Ok l /\ 1 <= n /\ equal_bins lo hi n l /\
  forall k, n <= k <-> 2 * length x <= 2 ^ k.
Proof.
  pose proof N1 as HN. pose proof N64 as H64. destruct (@select_log2 STURGES (2 * N)%R) as (n & l & E & H1 & B & K).
  - rewrite bw by discriminate. cbn [bin_width_simple]. rewrite ptpD. fold N. rewrite log2_mult, log2_2 by lra. do 2 f_equal. ring.
  - lra.
  - pose proof (@p2mono (1 + 64) 300 ltac:(lia)) as P. rewrite pow_add in P. simpl (2 ^ 1)%R in P. lra.
  - exists n, l. repeat (split; [assumption|]). intros k. rewrite K. replace (2 * N)%R with (INR (2 * length x)) by (rewrite mult_INR; unfold N; simpl; ring).
    replace (2 ^ k)%R with (INR (2 ^ k)) by (rewrite pow_INR; simpl; f_equal; ring). split; [apply INR_le|apply le_INR].
Qed.

(** ** FD, for any non-negative interquartile range *)
Lemma fd_width : bin_width_simple nan inf iqr FD x = Ok (2 * iqr x / cbrt N)%R.
Proof. reflexivity. Qed.
Lemma scaled_cube (w q : R) (k : nat) : (0 <= w)%R -> (w ^ 3 = q)%R -> ((D <= INR k * w)%R <-> (D ^ 3 <= INR k ^ 3 * q)%R).
Proof.
  intros Hw <-. rewrite cube_le; [|left; exact D0|apply Rmult_le_pos; [apply pos_INR|exact Hw]]. now rewrite Rpow_mult_distr.
Qed.
Lemma fd_cube : (0 <= iqr x)%R -> (0 <= 2 * iqr x / cbrt N)%R /\ ((2 * iqr x / cbrt N) ^ 3 = 8 * iqr x ^ 3 / N)%R.
Proof.
  intros Q. pose proof N1 as HN. destruct (@cbrt_spec N ltac:(lra)) as [C1 C2]. split.
  - apply Rmult_le_pos; [lra|]. left. now apply Rinv_0_lt_compat.
  - rewrite <- C2 at 2. field. lra.
Qed.
Lemma cube_clear (a q : R) : (D ^ 3 <= a * (q / N))%R <-> (N * D ^ 3 <= a * q)%R.
Proof.
  pose proof N1 as HN. split; intros Q.
  - apply (Rmult_le_compat_l N) in Q; [|lra]. replace (N * (a * (q / N)))%R with (a * q)%R in Q by (field; lra). exact Q.
  - apply Rmult_le_reg_l with N; [lra|]. replace (N * (a * (q / N)))%R with (a * q)%R by (field; lra). exact Q.
Qed.
Lemma fd_bins : (0 < iqr x)%R -> (D <= (2 ^ 60 - 2) * (2 * iqr x / cbrt N))%R ->
  exists n l, histogram_bin_edges_auto nan inf iqr FD x = Ok l /\ 1 <= n /\ equal_bins lo hi n l /\
  forall k, n <= k <-> (N * (hi - lo) ^ 3 <= INR k ^ 3 * (8 * iqr x ^ 3))%R.
Proof.
  intros Q B60. pose proof N1 as HN. destruct (@cbrt_spec N ltac:(lra)) as [C1 C2]. destruct (@select nan inf iqr FD x lo hi (2 * iqr x / cbrt N)%R L H A) as (n & l & E & H1 & B & K).
  - rewrite bw by discriminate. reflexivity.
  - apply Rdiv_lt_0_compat; lra.
  - exact B60.
  - exists n, l. repeat (split; [assumption|]). intros k. rewrite K. destruct (fd_cube ltac:(lra)) as [F1 F2]. fold D. rewrite (scaled_cube k F1 F2). apply cube_clear.
Qed.
Lemma auto_bins : (0 < iqr x)%R -> (D <= (2 ^ 60 - 2) * (2 * iqr x / cbrt N))%R ->
  exists n l, histogram_bin_edges_auto nan inf iqr AUTO x = Ok l /\ 1 <= n /\ equal_bins lo hi n l /\
  forall k, n <= k <-> (N * (hi - lo) ^ 3 <= INR k ^ 3 * (8 * iqr x ^ 3))%R /\ 2 * length x <= 2 ^ k.
Proof.
  intros Q B60. pose proof N1 as HN. pose proof N64 as H64. pose proof D0 as HD. destruct (@cbrt_spec N ltac:(lra)) as [C1 C2].
  assert (W0 : (0 < 2 * iqr x / cbrt N)%R) by (apply Rdiv_lt_0_compat; lra).
  pose proof (log2_nonneg HN) as LN. assert (T : (log2 N + 1 <= 2 ^ 59)%R).
  { apply (@log2_le N 64) in H64; [|lra]. replace (INR 64) with 64%R in H64 by (rewrite INR_IZR_INZ; reflexivity). pose proof (@p2mono 9 59 ltac:(lia)). assert (2 ^ 9 = 512)%R by (simpl; lra). lra. }
  assert (W1 : (0 < D / (log2 N + 1))%R) by (apply Rdiv_lt_0_compat; lra).
  destruct (@select nan inf iqr AUTO x lo hi (Rmin (2 * iqr x / cbrt N) (D / (log2 N + 1)))%R L H A) as (n & l & E & H1 & B & K).
  - unfold bin_width. rewrite (nonempty_neb _ _ (proj1 L)). cbn [require bin_width_simple bind]. rewrite ptpD. fold N. unfold rzero. destruct (Req_EM_T (2 * iqr x / cbrt N) 0); [lra|reflexivity].
  - apply Rmin_glb_lt; lra.
  - unfold Rmin. destruct (Rle_dec _ _); [exact B60|]. pose proof big60. apply div_flip; fold D; lra.
  - exists n, l. repeat (split; [assumption|]). intros k. rewrite K. destruct (fd_cube ltac:(lra)) as [F1 F2]. fold D. rewrite <- (cube_clear (INR k ^ 3) (8 * iqr x ^ 3)), <- (scaled_cube k F1 F2).
    replace (2 * length x <= 2 ^ k) with (2 * length x <= 2 ^ k) by reflexivity.
    assert (S2 : (D <= INR k * (D / (log2 N + 1)))%R <-> 2 * length x <= 2 ^ k).
    { rewrite div_flip by lra. replace (log2 N + 1)%R with (log2 (2 * N)) by (rewrite log2_mult, log2_2 by lra; ring). rewrite log2_le by lra.
      replace (2 * N)%R with (INR (2 * length x)) by (rewrite mult_INR; unfold N; simpl; ring). replace (2 ^ k)%R with (INR (2 ^ k)) by (rewrite pow_INR; simpl; f_equal; ring). split; [apply INR_le|apply le_INR]. }
    rewrite <- S2. pose proof (pos_INR k) as HK. unfold Rmin. destruct (Rle_dec (2 * iqr x / cbrt N) (D / (log2 N + 1))) as [C|C].
    + split; [|tauto]. intros G. split; [exact G|]. apply Rle_trans with (1 := G). now apply Rmult_le_compat_l.
    + split; [|tauto]. intros G. split; [|exact G]. apply Rle_trans with (1 := G). apply Rmult_le_compat_l; lra.
Qed.
Lemma auto_zero : iqr x = 0%R -> histogram_bin_edges_auto nan inf iqr AUTO x = histogram_bin_edges_auto nan inf iqr STURGES x.
Proof.
  intros Q. assert (E : bin_width nan inf iqr AUTO x = bin_width nan inf iqr STURGES x).
  { unfold bin_width. rewrite (nonempty_neb _ _ (proj1 L)). cbn [require bin_width_simple bind]. rewrite Q. unfold rzero. destruct (Req_EM_T _ _) as [_|C]; [reflexivity|]. exfalso. apply C. unfold Rdiv. ring. }
  unfold histogram_bin_edges_auto. now rewrite E.
Qed.
Lemma fd_zero : iqr x = 0%R -> histogram_bin_edges_auto nan inf iqr FD x = Ok [lo; hi].
Proof.
  intros Q. rewrite (@single nan inf iqr FD x lo hi L H).
  - rewrite (edges_apart nan L H A). apply vec2.
  - rewrite bw by discriminate. cbn [bin_width_simple]. rewrite Q. f_equal. unfold Rdiv. ring.
Qed.
End Methods.
