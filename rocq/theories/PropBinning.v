(** C106: automatic choice of histogram bins.  Spec vocabulary (BinningFacts.v): [lowest]/[highest] smallest and largest datum,
    [equal_bins lo hi n l]: l is the list of the n+1 edges of n equal bins from lo to hi, [apart lo hi]: the two ends differ by
    more than the library's almost-equality tolerance.  "n <= k <-> P k for every k" says that n is the least number of bins with P.
    [central_moment] is the textbook moment; [iqr] is the interquartile range, any function. *)
From Coq Require Import ZArith Reals List.
From Verif Require Import Base Functional Numeric RangeManips Stats Histogram StatsReal StatsRealFacts StatsRealFacts2 Binning BinningFacts BinningFacts2 BinningFacts3.
From Coq Require Import Lra Psatz Lia.
Open Scope nat_scope.

(** square root rule: least n with n^2 >= N *)
Theorem C106_sqrt_partial : forall nan inf iqr (x : list R) lo hi, lowest x lo -> highest x hi -> apart lo hi ->
  (Z.of_nat (length x) < 2 ^ 64)%Z ->
  exists n l, histogram_bin_edges_auto nan inf iqr SQRT x = Ok l /\ 1 <= n /\ equal_bins lo hi n l /\
  forall k, n <= k <-> length x <= k * k.
Proof. intros. now apply sqrt_bins. Qed.
Print Assumptions C106_sqrt_partial.
(** Rice's rule: least n with n >= 2 N^(1/3) *)
Theorem C106_rice_partial : forall nan inf iqr (x : list R) lo hi, lowest x lo -> highest x hi -> apart lo hi ->
  (Z.of_nat (length x) < 2 ^ 64)%Z ->
  exists n l, histogram_bin_edges_auto nan inf iqr RICE x = Ok l /\ 1 <= n /\ equal_bins lo hi n l /\
  forall k, n <= k <-> 8 * length x <= k ^ 3.
Proof. intros. now apply rice_bins. Qed.
Print Assumptions C106_rice_partial.
(** Sturges' rule: least n with n >= 1 + log2 N *)
Theorem C106_sturges_partial : forall nan inf iqr (x : list R) lo hi, lowest x lo -> highest x hi -> apart lo hi ->
  (Z.of_nat (length x) < 2 ^ 64)%Z ->
  exists n l, histogram_bin_edges_auto nan inf iqr STURGES x = Ok l /\ 1 <= n /\ equal_bins lo hi n l /\
  forall k, n <= k <-> 2 * length x <= 2 ^ k.
Proof. intros. now apply sturges_bins. Qed.
Print Assumptions C106_sturges_partial.
(** Scott's rule: least n whose bins are no wider than (24 sqrt(pi) / N)^(1/3) s, s the standard deviation *)
Theorem C106_scott_partial : forall nan inf iqr (x : list R) lo hi s, lowest x lo -> highest x hi -> apart lo hi ->
  (Z.of_nat (length x) < 2 ^ 64)%Z -> (0 <= s)%R -> (s * s = central_moment 2 x)%R ->
  exists n l, histogram_bin_edges_auto nan inf iqr SCOTT x = Ok l /\ 1 <= n /\ equal_bins lo hi n l /\
  forall k, n <= k <-> (INR (length x) * (hi - lo) ^ 3 <= INR k ^ 3 * (24 * sqrt PI * s ^ 3))%R.
Proof. intros. now apply scott_bins. Qed.
Print Assumptions C106_scott_partial.
(** Freedman-Diaconis: least n whose bins are no wider than 2 iqr / N^(1/3); one bin when iqr = 0.
    The size hypothesis excludes counts that do not fit a vector (see C106_fd_refuted). *)
Theorem C106_fd_partial : forall nan inf (iqr : list R -> R) (x : list R) lo hi, lowest x lo -> highest x hi -> apart lo hi ->
  (Z.of_nat (length x) < 2 ^ 64)%Z ->
  (iqr x = 0%R -> histogram_bin_edges_auto nan inf iqr FD x = Ok [lo; hi]) /\
  ((0 < iqr x)%R -> (hi - lo <= (2 ^ 60 - 2) * (2 * iqr x / cbrt (INR (length x))))%R ->
   exists n l, histogram_bin_edges_auto nan inf iqr FD x = Ok l /\ 1 <= n /\ equal_bins lo hi n l /\
   forall k, n <= k <-> (INR (length x) * (hi - lo) ^ 3 <= INR k ^ 3 * (8 * iqr x ^ 3))%R).
Proof. intros. split; intros; [now apply fd_zero|now apply fd_bins]. Qed.
Print Assumptions C106_fd_partial.
(** Doane: a single bin for one or two data; otherwise least n >= 1 + log2 N + log2(1 + |g1| / sigma) *)
Theorem C106_doane_partial : forall nan inf iqr (x : list R) lo hi, lowest x lo -> highest x hi -> apart lo hi ->
  (Z.of_nat (length x) < 2 ^ 64)%Z ->
  (length x <= 2 -> histogram_bin_edges_auto nan inf iqr DOANE x = Ok [lo; hi]) /\
  (3 <= length x -> exists n l, histogram_bin_edges_auto nan inf iqr DOANE x = Ok l /\ 1 <= n /\ equal_bins lo hi n l /\
   let N := INR (length x) in
   let g1 := (central_moment 3 x / sqrt (central_moment 2 x ^ 3))%R in
   let sigma := sqrt (6 * (N - 2) / ((N + 1) * (N + 3))) in
   forall k, n <= k <-> (2 * N * (1 + Rabs g1 / sigma) <= 2 ^ k)%R).
Proof.
  intros nan inf iqr x lo hi L H A Hl. split; [now apply doane_two|]. intros H3. destruct (doane_bins nan inf iqr L H A Hl H3) as (n & l & E & H1 & B & K).
  exists n, l. repeat (split; [assumption|]). cbv zeta. intros k. rewrite K. unfold skewness, sigma_g1. rewrite mult_INR, !plus_INR, minus_INR by lia.
  simpl (INR 1). simpl (INR 2). simpl (INR 3). replace (1 + 1 + 1)%R with 3%R by ring. replace (1 + 1)%R with 2%R by ring. reflexivity.
Qed.
Print Assumptions C106_doane_partial.
(** AUTO: the larger of the Freedman-Diaconis and the Sturges counts; Sturges when iqr = 0. *)
Theorem C106_auto_partial : forall nan inf (iqr : list R -> R) (x : list R) lo hi, lowest x lo -> highest x hi -> apart lo hi ->
  (Z.of_nat (length x) < 2 ^ 64)%Z ->
  (iqr x = 0%R -> histogram_bin_edges_auto nan inf iqr AUTO x = histogram_bin_edges_auto nan inf iqr STURGES x) /\
  ((0 < iqr x)%R -> (hi - lo <= (2 ^ 60 - 2) * (2 * iqr x / cbrt (INR (length x))))%R ->
   exists n l, histogram_bin_edges_auto nan inf iqr AUTO x = Ok l /\ 1 <= n /\ equal_bins lo hi n l /\
   forall k, n <= k <-> (INR (length x) * (hi - lo) ^ 3 <= INR k ^ 3 * (8 * iqr x ^ 3))%R /\ 2 * length x <= 2 ^ k).
Proof. intros. split; intros; [eapply auto_zero; eassumption|now apply auto_bins]. Qed.
Print Assumptions C106_auto_partial.
(** Doane never takes fewer bins than Sturges *)
Theorem C106_doane_sturges : forall nan inf iqr (x : list R) lo hi, lowest x lo -> highest x hi -> apart lo hi ->
  (Z.of_nat (length x) < 2 ^ 64)%Z -> 3 <= length x ->
  exists d s, histogram_bin_edges_auto nan inf iqr DOANE x = Ok d /\ histogram_bin_edges_auto nan inf iqr STURGES x = Ok s /\ length s <= length d.
Proof.
  intros nan inf iqr x lo hi L H A Hl H3. destruct (doane_bins nan inf iqr L H A Hl H3) as (n & l & E & H1 & [B1 _] & K).
  destruct (sturges_bins nan inf iqr L H A Hl) as (n' & l' & E' & H1' & [B1' _] & K'). exists l, l'. split; [exact E|]. split; [exact E'|].
  rewrite B1, B1'. apply Nat.add_le_mono_r. apply K'. apply INR_le. rewrite mult_INR, pow_INR. replace (INR 2) with 2%R by (simpl; ring).
  destruct (@sg_lower x H3) as [S0 _]. pose proof (proj1 (K n) (le_n n)) as Q. pose proof (N1 L) as HN. pose proof (Rabs_pos (skewness x)) as G0.
  assert (U : (0 <= Rabs (skewness x) / sigma_g1 x)%R) by (apply Rmult_le_pos; [exact G0|left; now apply Rinv_0_lt_compat]). nra.
Qed.
Print Assumptions C106_doane_sturges.
(** no data: the single bin [0, 1]; constant data: the single bin [v - 1/2, v + 1/2], for every method *)
Theorem C106_degenerate : forall nan inf (iqr : list R -> R) m,
  histogram_bin_edges_auto nan inf iqr m [] = Ok [0%R; 1%R] /\
  forall x v, x <> [] -> (forall u, In u x -> u = v) -> iqr x = 0%R ->
    histogram_bin_edges_auto nan inf iqr m x = Ok [(v - 1 / 2)%R; (v + 1 / 2)%R].
Proof.
  intros nan inf iqr m. split; [exact (vec2 0 1)|]. intros x v Hx C Q. assert (I : In v x) by (destruct x as [|y r]; [congruence|]; left; apply C; now left).
  apply constant_bins; [| |exact Q]; (split; [exact I|]); intros u Hu; rewrite (C u Hu); lra.
Qed.
Print Assumptions C106_degenerate.

(** FINDING: data that are almost equal but not equal get the widened range (smallest - 1/2, largest + 1/2) while the bin width is
    still computed from their tiny spread.  When the spread is at most 2^-64 the number of bins does not fit std::size_t and the
    conversion is undefined behaviour: e.g. the two data 0 and 2^-70. *)
Theorem C106_close_refuted :
  (forall nan inf iqr m (x : list R) lo hi, lowest x lo -> highest x hi -> (lo < hi)%R -> (hi - lo <= / 2 ^ 64)%R -> ~ apart lo hi ->
    m = SQRT \/ m = RICE \/ m = STURGES -> histogram_bin_edges_auto nan inf iqr m x = UB) /\
  (forall nan inf iqr, histogram_bin_edges_auto nan inf iqr SQRT [0; / 2 ^ 70]%R = UB).
Proof.
  split; [intros; eapply close_ub; eassumption|]. intros. assert (P : (0 < / 2 ^ 70)%R) by (apply Rinv_0_lt_compat, pow_lt; lra).
  assert (M : forall a b, a <= b -> (/ 2 ^ b <= / 2 ^ a)%R) by (intros a b Q; apply Rinv_le_contravar; [apply pow_lt; lra|apply Rle_pow; [lra|exact Q]]).
  pose proof (M 64 70 ltac:(lia)). pose proof (M 53 70 ltac:(lia)).
  apply (@close_ub nan inf iqr SQRT [0; / 2 ^ 70]%R 0%R (/ 2 ^ 70)%R); try lra; try tauto.
  - split; [now left|]. intros u [<- | [<- | []]]; lra.
  - split; [right; now left|]. intros u [<- | [<- | []]]; lra.
  - intros A. unfold apart in A. cbv zeta in A. destruct (Req_EM_T 0 0); [|lra]. lra.
Qed.
Print Assumptions C106_close_refuted.
(** FINDING: an interquartile range more than 2^65 times smaller than the range of the data (an outlier) is undefined behaviour too. *)
Theorem C106_fd_refuted : forall nan inf (iqr : list R -> R) (x : list R) lo hi, lowest x lo -> highest x hi -> apart lo hi ->
  (0 < iqr x)%R -> (2 ^ 65 * iqr x < hi - lo)%R -> histogram_bin_edges_auto nan inf iqr FD x = UB.
Proof. intros. eapply fd_ub; eassumption. Qed.
Print Assumptions C106_fd_refuted.

(** five data from 0 to 4: the square root rule takes three bins, Sturges' rule four *)
Example C106_nonvacuous : exists l l', histogram_bin_edges_auto 0 0 (fun _ => 0%R) SQRT [0; 1; 4; 2; 3]%R = Ok l /\ length l = 4 /\
  histogram_bin_edges_auto 0 0 (fun _ => 0%R) STURGES [0; 1; 4; 2; 3]%R = Ok l' /\ length l' = 5 /\ nth_error l' 1 = Some 1%R.
Proof.
  assert (L : lowest [0; 1; 4; 2; 3]%R 0%R) by (split; [now left|]; intros u Hu; cbn in Hu; intuition lra).
  assert (H : highest [0; 1; 4; 2; 3]%R 4%R) by (split; [cbn; intuition|]; intros u Hu; cbn in Hu; intuition lra).
  assert (A : apart 0 4).
  { unfold apart. cbv zeta. destruct (Req_EM_T 0 0); [|lra]. apply Rlt_le_trans with 1%R; [|lra]. rewrite <- Rinv_1. apply Rinv_lt_contravar; [rewrite Rmult_1_l; apply pow_lt; lra|]. apply Rlt_pow_R1; [lra|lia]. }
  destruct (C106_sqrt_partial 0 0 (fun _ => 0%R) _ _ _ L H A ltac:(simpl; lia)) as (n & l & E & H1 & [B1 B2] & K).
  destruct (C106_sturges_partial 0 0 (fun _ => 0%R) _ _ _ L H A ltac:(simpl; lia)) as (n' & l' & E' & H1' & [B1' B2'] & K').
  exists l, l'. split; [exact E|]. cbn [length] in K, K'. assert (N3 : n = 3).
  { pose proof (proj2 (K 3) ltac:(simpl; lia)). destruct (Nat.eq_dec n 3); [assumption|]. pose proof (proj1 (K 2) ltac:(lia)). simpl in *. lia. }
  assert (N4 : n' = 4).
  { pose proof (proj2 (K' 4) ltac:(simpl; lia)). destruct (Nat.eq_dec n' 4); [assumption|]. pose proof (proj1 (K' 3) ltac:(lia)). simpl in *. lia. }
  subst. split; [lia|]. split; [exact E'|]. split; [lia|]. rewrite (B2' 1 ltac:(lia)). f_equal. simpl. field.
Qed.
