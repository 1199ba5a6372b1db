(** Proofs about Binning.v: Scott, Doane, degenerate data. *)
From Coq Require Import ZArith Reals List Permutation.
From Verif Require Import Base Functional FunctionalProofs Numeric RangeManips Stats StatsMoments Histogram StatsReal StatsRealFacts StatsRealFacts2 StatsVar StatsVarFacts Binning BinningFacts BinningFacts2.
From Coq Require Import Lra Psatz Lia.
Open Scope nat_scope.
Set Implicit Arguments.

Lemma total_ge1 (f : R -> R) x u : (forall v, (0 <= f v)%R) -> In u x -> (f u <= total (map f x))%R.
Proof.
  intros F. induction x as [|y x IH]; intros I; [destruct I|]. cbn [map]. rewrite total_cons. pose proof (total_nonneg f x (fun v _ => F v)). pose proof (F y).
  destruct I as [-> | I]; [lra|]. specialize (IH I). lra.
Qed.
Lemma total_ge2 (f : R -> R) x u v : (forall w, (0 <= f w)%R) -> In u x -> In v x -> u <> v -> (f u + f v <= total (map f x))%R.
Proof.
  intros F. induction x as [|y x IH]; intros I J NE; [destruct I|]. cbn [map]. rewrite total_cons. pose proof (F y).
  destruct I as [-> | I], J as [-> | J].
  - congruence.
  - pose proof (total_ge1 f x v F J). lra.
  - pose proof (total_ge1 f x u F I). lra.
  - specialize (IH I J NE). lra.
Qed.
Lemma total_sq (f : R -> R) x : (forall w, (0 <= f w)%R) -> (total (map (fun u => f u * f u)%R x) <= total (map f x) * total (map f x))%R.
Proof.
  intros F. induction x as [|y x IH]; cbn [map]; [unfold total; simpl; lra|]. rewrite !total_cons. pose proof (total_nonneg f x (fun v _ => F v)). pose proof (F y). cbv beta in *. nra.
Qed.
(** the variance is at least (hi - lo)^2 / (2 N) *)
Lemma cm2_lower x lo hi : lowest x lo -> highest x hi -> (lo < hi)%R -> ((hi - lo) * (hi - lo) <= 2 * INR (length x) * central_moment 2 x)%R.
Proof.
  intros L H LT. pose proof (BinningFacts2.len_pos _ _ (proj1 L)) as HN. unfold central_moment. set (m := average x).
  pose proof (@total_ge2 (fun u => (u - m) ^ 2)%R x lo hi (fun w => pow2_ge_0 (w - m)) (proj1 L) (proj1 H) ltac:(lra)) as T. cbv beta in T.
  rewrite avg_map. replace (2 * INR (length x) * (total (map (fun u : R => ((u - m) ^ 2)%R) x) / INR (length x)))%R with (2 * total (map (fun u : R => ((u - m) ^ 2)%R) x))%R by (field; lra).
  pose proof (pow2_ge_0 ((lo - m) + (hi - m))) as P. nra.
Qed.
Lemma cm4_upper x : x <> [] -> (central_moment 4 x <= INR (length x) * (central_moment 2 x * central_moment 2 x))%R.
Proof.
  intros Hx. unfold central_moment. set (m := average x). rewrite !avg_map. pose proof (StatsRealFacts.len_pos Hx) as HN.
  pose proof (total_sq (fun u => (u - m) ^ 2)%R x (fun w => pow2_ge_0 (w - m))) as T. cbv beta in T.
  rewrite (total_ext (fun u => (u - m) ^ 4)%R (fun u => (u - m) ^ 2 * (u - m) ^ 2)%R x) by (intros; ring).
  set (a := total (map (fun u : R => ((u - m) ^ 2 * (u - m) ^ 2)%R) x)) in *. set (b := total (map (fun u : R => ((u - m) ^ 2)%R) x)) in *.
  replace (INR (length x) * (b / INR (length x) * (b / INR (length x))))%R with (b * b / INR (length x))%R by (field; lra).
  apply Rmult_le_compat_r; [left; now apply Rinv_0_lt_compat|exact T].
Qed.
Lemma abs_le_sq a b : (0 <= b)%R -> (a * a <= b * b)%R -> (Rabs a <= b)%R.
Proof. intros Hb Q. apply Rsqr_le_abs_0 in Q. now rewrite (Rabs_pos_eq b Hb) in Q. Qed.

Section M.
Variables (nan inf : R) (iqr : list R -> R) (x : list R) (lo hi : R).
Hypothesis (L : lowest x lo) (H : highest x hi) (A : apart lo hi) (Hlen : (Z.of_nat (length x) < 2 ^ 64)%Z).
Let N := INR (length x).
Let D := (hi - lo)%R.
Lemma nonnil : x <> [].
Proof. intros E. rewrite E in L. destruct L as [[] _]. Qed.
Lemma lohi : (lo < hi)%R.
Proof. exact (apart_lt (proj2 L _ (proj1 H)) A). Qed.
Lemma sd_big s : (0 <= s)%R -> (s * s = central_moment 2 x)%R -> (0 < s /\ D <= 2 ^ 33 * s)%R.
Proof.
  intros S0 S2. pose proof lohi as LT. pose proof (cm2_lower L H LT) as C. rewrite <- S2 in C. fold N D in C. assert (HD : (0 < D)%R) by (unfold D; lra).
  pose proof (N1 L) as HN. pose proof (N64 _ Hlen) as H64. fold N in HN, H64.
  assert (SP : (0 < s)%R) by (destruct S0 as [|<-]; [assumption|]; nra). split; [exact SP|].
  assert (E : (2 * 2 ^ 64 <= 2 ^ 33 * 2 ^ 33)%R) by (rewrite <- pow_add; pose proof (@p2mono (1 + 64) (33 + 33) ltac:(lia)) as P; rewrite (pow_add 2 1 64) in P; simpl (2 ^ 1)%R in P; lra).
  assert (0 < 2 ^ 33)%R by (apply pow_lt; lra). rewrite <- (Rabs_pos_eq D) by lra. apply abs_le_sq; [nra|]. set (q := (2 ^ 33)%R) in *.
  apply Rle_trans with (1 := C). replace (q * s * (q * s))%R with (q * q * (s * s))%R by ring. apply Rmult_le_compat_r; [nra|]. lra.
Qed.

Lemma scott_bins s : (0 <= s)%R -> (s * s = central_moment 2 x)%R ->
  exists n l, histogram_bin_edges_auto nan inf iqr SCOTT x = Ok l /\ 1 <= n /\ equal_bins lo hi n l /\
  forall k, n <= k <-> (N * (hi - lo) ^ 3 <= INR k ^ 3 * (24 * sqrt PI * s ^ 3))%R.
Proof.
  intros S0 S2. destruct (sd_big S0 S2) as [SP SB]. pose proof lohi as LT. pose proof (N1 L) as HN. pose proof (N64 _ Hlen) as H64. fold N in HN, H64.
  assert (PI3 : (1 <= sqrt PI)%R) by (rewrite <- sqrt_1; apply sqrt_le_1_alt; pose proof PI_RGT_0; pose proof PI2_1; lra).
  assert (CP : (0 < 24 * sqrt PI / N)%R) by (apply Rdiv_lt_0_compat; lra). destruct (cbrt_spec CP) as [C1 C2]. set (w := (cbrt (24 * sqrt PI / N) * s)%R).
  assert (W3 : (w ^ 3 = 24 * sqrt PI * s ^ 3 / N)%R) by (unfold w; rewrite Rpow_mult_distr, C2; field; lra).
  assert (W0 : (0 < w)%R) by (apply Rmult_lt_0_compat; lra).
  destruct (@std_facts nan inf 0 x nonnil) as (s' & E1 & P1 & Q1 & _); [pose proof nonnil; destruct x; [congruence|simpl length; lia]|].
  assert (Es : s' = s).
  { assert (Q : (s' * s' = s * s)%R) by (rewrite Q1, S2; unfold central_moment; rewrite avg_map, Z.sub_0_r, <- INR_IZR_INZ; reflexivity). nra. }
  subst s'. destruct (@select nan inf iqr SCOTT x lo hi w L H A) as (n & l & E & H1 & B & K).
  - rewrite (bw nan inf iqr L) by discriminate. cbn [bin_width_simple]. rewrite E1. reflexivity.
  - exact W0.
  - apply Rle_trans with (2 ^ 59 * w)%R; [|apply Rmult_le_compat_r; [lra|exact big60]].
    assert (P59 : (0 < 2 ^ 59)%R) by (apply pow_lt; lra). apply cube_le; [lra|nra|]. rewrite Rpow_mult_distr, W3. fold D.
    assert (D3 : (D ^ 3 <= 2 ^ 99 * s ^ 3)%R) by (apply Rle_trans with ((2 ^ 33 * s) ^ 3)%R; [apply pow_incr; unfold D; split; [lra|exact SB]|rewrite Rpow_mult_distr, <- pow_mult; apply Rle_refl]).
    apply Rmult_le_reg_l with N; [lra|]. replace (N * ((2 ^ 59) ^ 3 * (24 * sqrt PI * s ^ 3 / N)))%R with ((2 ^ 59) ^ 3 * (24 * sqrt PI * s ^ 3))%R by (field; lra).
    assert (S3 : (0 < s ^ 3)%R) by (apply pow_lt; lra). assert (T1 : (N * D ^ 3 <= 2 ^ 64 * (2 ^ 99 * s ^ 3))%R) by (apply Rmult_le_compat; [lra|apply pow_le; unfold D; lra|exact H64|exact D3]).
    apply Rle_trans with (1 := T1). rewrite <- Rmult_assoc, <- pow_add, <- pow_mult. apply Rmult_le_compat; [apply pow_le; lra|lra|apply p2mono; lia|]. nra.
  - exists n, l. repeat (split; [assumption|]). intros k. rewrite K. rewrite (@scaled_cube x lo hi L H A w _ k (Rlt_le _ _ W0) W3). apply (@cube_clear x lo hi L).
Qed.

Definition skewness := (central_moment 3 x / sqrt (central_moment 2 x ^ 3))%R.
Definition sigma_g1 := sqrt (6 * INR (length x - 2) / INR ((length x + 1) * (length x + 3))).
Lemma g_bound : (Rabs skewness <= 2 ^ 32)%R.
Proof.
  pose proof lohi as LT. pose proof (cm2_lower L H LT) as C. pose proof (N1 L) as HN. pose proof (N64 _ Hlen) as H64. fold N in HN, H64, C.
  assert (M2 : (0 < central_moment 2 x)%R).
  { assert (Q : (0 < (hi - lo) * (hi - lo))%R) by (apply Rmult_lt_0_compat; lra). assert (Z : (0 < 2 * N * central_moment 2 x)%R) by lra. set (c := central_moment 2 x) in *. nra. }
  pose proof (pearson nonnil) as PE. pose proof (cm4_upper nonnil) as C4. fold N in C4. unfold skewness. set (m2 := central_moment 2 x) in *. set (m3 := central_moment 3 x) in *. set (m4 := central_moment 4 x) in *.
  assert (M3 : (0 < m2 ^ 3)%R) by (apply pow_lt; lra). pose proof (sqrt_lt_R0 _ M3) as SQ. pose proof (sqrt_sqrt (m2 ^ 3) (Rlt_le _ _ M3)) as SS.
  apply abs_le_sq; [apply pow_le; lra|]. rewrite <- pow_add. change (32 + 32) with 64. set (r := sqrt (m2 ^ 3)) in *.
  replace (m3 / r * (m3 / r))%R with (m3 * m3 / (r * r))%R by (field; lra). rewrite SS. apply Rmult_le_reg_r with (m2 ^ 3)%R; [exact M3|].
  replace (m3 * m3 / m2 ^ 3 * m2 ^ 3)%R with (m3 * m3)%R by (field; lra). assert (m2 * m4 <= m2 * (N * (m2 * m2)))%R by (apply Rmult_le_compat_l; lra).
  assert (N * m2 ^ 3 <= 2 ^ 64 * m2 ^ 3)%R by (apply Rmult_le_compat_r; lra). replace (m2 * (N * (m2 * m2)))%R with (N * m2 ^ 3)%R in * by ring. lra.
Qed.
Lemma sg_lower : 3 <= length x -> (0 < sigma_g1 /\ 1 <= sigma_g1 * N)%R.
Proof.
  intros H3. unfold sigma_g1. rewrite mult_INR, !plus_INR, minus_INR by lia. fold N. assert (N3 : (3 <= N)%R) by (unfold N; replace 3%R with (INR 3) by (simpl; lra); now apply le_INR).
  simpl (INR 1). simpl (INR 2). simpl (INR 3). replace (1 + 1 + 1)%R with 3%R by ring. replace (1 + 1)%R with 2%R by ring.
  assert (P : (0 < (N + 1) * (N + 3))%R) by nra. assert (Q : (/ (N * N) <= 6 * (N - 2) / ((N + 1) * (N + 3)))%R).
  { apply Rmult_le_reg_r with (N * N * ((N + 1) * (N + 3)))%R; [apply Rmult_lt_0_compat; nra|].
    replace (/ (N * N) * (N * N * ((N + 1) * (N + 3))))%R with ((N + 1) * (N + 3))%R by (field; lra).
    replace (6 * (N - 2) / ((N + 1) * (N + 3)) * (N * N * ((N + 1) * (N + 3))))%R with (6 * (N - 2) * (N * N))%R by (field; lra). nra. }
  assert (R0 : (0 < / (N * N))%R) by (apply Rinv_0_lt_compat; nra). split; [apply sqrt_lt_R0; lra|].
  assert (S1 : (/ N <= sqrt (6 * (N - 2) / ((N + 1) * (N + 3))))%R).
  { rewrite <- (sqrt_square (/ N)) by (left; apply Rinv_0_lt_compat; lra). apply sqrt_le_1_alt. rewrite <- Rinv_mult_distr by lra. exact Q. }
  apply (Rmult_le_compat_r N) in S1; [|lra]. rewrite Rinv_l in S1 by lra. exact S1.
Qed.
Lemma doane_bins : 3 <= length x ->
  exists n l, histogram_bin_edges_auto nan inf iqr DOANE x = Ok l /\ 1 <= n /\ equal_bins lo hi n l /\
  forall k, n <= k <-> (2 * N * (1 + Rabs skewness / sigma_g1) <= 2 ^ k)%R.
Proof.
  intros H3. destruct (sg_lower H3) as [S0 S1]. pose proof g_bound as G. pose proof lohi as LT. pose proof (cm2_lower L H LT) as C. pose proof (N1 L) as HN. pose proof (N64 _ Hlen) as H64. fold N in HN, H64, C.
  assert (M2 : (0 < central_moment 2 x)%R).
  { assert (Q : (0 < (hi - lo) * (hi - lo))%R) by (apply Rmult_lt_0_compat; lra). assert (Z : (0 < 2 * N * central_moment 2 x)%R) by lra. set (c := central_moment 2 x) in *. nra. }
  pose proof (Rabs_pos skewness) as G0. assert (U : (0 <= Rabs skewness / sigma_g1)%R) by (apply Rmult_le_pos; [exact G0|left; now apply Rinv_0_lt_compat]).
  assert (V : (Rabs skewness / sigma_g1 <= 2 ^ 32 * 2 ^ 64)%R).
  { unfold Rdiv. apply Rmult_le_compat; [exact G0|left; now apply Rinv_0_lt_compat|exact G|]. apply Rle_trans with N; [|exact H64].
    apply Rmult_le_reg_l with sigma_g1; [exact S0|]. rewrite Rinv_r by lra. exact S1. }
  apply (@select_log2 nan inf iqr x lo hi L H A DOANE (2 * N * (1 + Rabs skewness / sigma_g1))%R).
  - rewrite (bw nan inf iqr L) by discriminate. cbn [bin_width_simple]. destruct (length x <=? 2) eqn:E2; [apply Nat.leb_le in E2; lia|]. unfold skew_nan.
    rewrite (@rmoment_all nan inf 2 x nonnil ltac:(lia)), (skew_eq nan inf nonnil). cbn [bind]. unfold rzero. destruct (Req_EM_T (central_moment 2 x) 0); [lra|].
    rewrite (ptpD nan L H). fold skewness. fold sigma_g1. fold N. rewrite !log2_mult, log2_2 by nra. reflexivity.
  - nra.
  - assert (E : (2 ^ 32 * 2 ^ 64 = 2 ^ 96)%R) by (rewrite <- pow_add; reflexivity). rewrite E in V.
    assert (T : (1 + Rabs skewness / sigma_g1 <= 2 ^ 97)%R) by (change 97 with (1 + 96); rewrite pow_add; pose proof (@p2mono 0 96 ltac:(lia)) as P; simpl (2 ^ 0)%R in P; simpl (2 ^ 1)%R; lra).
    apply Rle_trans with (2 * 2 ^ 64 * 2 ^ 97)%R; [apply Rmult_le_compat; lra|]. replace (2 * 2 ^ 64)%R with (2 ^ 65)%R by (change 65 with (1 + 64); rewrite pow_add; simpl (2 ^ 1)%R; ring).
    rewrite <- pow_add. apply p2mono. lia.
Qed.
Lemma doane_two : length x <= 2 -> histogram_bin_edges_auto nan inf iqr DOANE x = Ok [lo; hi].
Proof.
  intros H2. rewrite (@single nan inf iqr DOANE x lo hi L H).
  - rewrite (edges_apart nan L H A). apply vec2.
  - rewrite (bw nan inf iqr L) by discriminate. cbn [bin_width_simple]. apply Nat.leb_le in H2. now rewrite H2.
Qed.
End M.

(** constant data *)
Lemma constant_bins nan inf iqr m x v : lowest x v -> highest x v -> iqr x = 0%R ->
  histogram_bin_edges_auto nan inf iqr m x = Ok [(v - 1 / 2)%R; (v + 1 / 2)%R].
Proof.
  intros L H Q. rewrite (@single nan inf iqr m x v v L H).
  - rewrite (edges_close nan L H); [apply vec2|]. intros A. apply apart_lt in A; lra.
  - assert (Hx : x <> []) by (intros E; rewrite E in L; destruct L as [[] _]). pose proof (N1 L) as HN. destruct (@cbrt_spec (INR (length x)) ltac:(lra)) as [C1 _].
    assert (P0 : ptp nan rlt Rminus x = 0%R) by (rewrite (ptpD nan L H); lra).
    assert (EQ : forall u w, In u x -> In w x -> u = w) by (intros u w Hu Hw; apply Rle_antisym; eapply Rle_trans; try (apply H; eassumption); apply L; assumption).
    assert (V0 : central_moment 2 x = 0%R).
    { unfold central_moment. destruct (@std_facts nan inf 0 x Hx) as (s & _ & S0 & S2 & _ & SZ & _); [destruct x; [congruence|simpl length; lia]|]. apply SZ in EQ. subst s.
      rewrite avg_map. rewrite Z.sub_0_r, <- INR_IZR_INZ in S2. rewrite <- S2. ring. }
    unfold bin_width. rewrite (nonempty_neb _ _ (proj1 L)). cbn [require]. destruct m; cbn [bin_width_simple bind].
    + destruct (@std_facts nan inf 0 x Hx) as (s & E & S0 & S2 & _ & SZ & _); [destruct x; [congruence|simpl length; lia]|]. apply SZ in EQ. subst s. rewrite E. cbn [bind]. f_equal. ring.
    + rewrite P0. f_equal. unfold Rdiv. ring.
    + rewrite P0. f_equal. unfold Rdiv. ring.
    + rewrite P0. f_equal. unfold Rdiv. ring.
    + rewrite Q. f_equal. unfold Rdiv. ring.
    + destruct (length x <=? 2); [reflexivity|]. unfold skew_nan. rewrite (@rmoment_all nan inf 2 x Hx ltac:(lia)), (skew_eq nan inf Hx), V0. cbn [bind]. unfold rzero. destruct (Req_EM_T 0 0); [reflexivity|lra].
    + rewrite Q, P0. unfold rzero. destruct (Req_EM_T _ _) as [_|C]; [|exfalso; apply C; unfold Rdiv; ring]. f_equal. unfold Rdiv. ring.
Qed.

(** nearly equal but different data *)
Lemma close_ub nan inf iqr m x lo hi : lowest x lo -> highest x hi -> (lo < hi)%R -> (hi - lo <= / 2 ^ 64)%R -> ~ apart lo hi ->
  m = SQRT \/ m = RICE \/ m = STURGES -> histogram_bin_edges_auto nan inf iqr m x = UB.
Proof.
  intros L H LT S NA M. pose proof (N1 L) as HN. destruct (@cbrt_spec (INR (length x)) ltac:(lra)) as [C1 C2].
  assert (exists w, bin_width nan inf iqr m x = Ok w /\ (0 < w <= hi - lo)%R) as (w & W & W0 & W1).
  { assert (R : forall t, (1 <= t)%R -> (0 < (hi - lo) / t <= hi - lo)%R).
    { intros t Ht. split; [apply Rdiv_lt_0_compat; lra|]. apply Rmult_le_reg_r with t; [lra|]. replace ((hi - lo) / t * t)%R with (hi - lo)%R by (field; lra). nra. }
    destruct M as [-> | [-> | ->]]; (rewrite (bw nan inf iqr L) by discriminate); cbn [bin_width_simple]; rewrite (ptpD nan L H); eexists; (split; [reflexivity|]).
    - apply R. rewrite <- sqrt_1. apply sqrt_le_1_alt. exact HN.
    - replace (1 / 2 * (hi - lo) / cbrt (INR (length x)))%R with ((hi - lo) / (2 * cbrt (INR (length x))))%R by (field; lra). apply R.
      assert (1 <= cbrt (INR (length x)))%R; [|lra]. apply cube_le; [lra|lra|]. rewrite C2. lra.
    - apply R. pose proof (log2_nonneg HN). lra. }
  apply (@overflow nan inf iqr m x w); [intros E; rewrite E in L; destruct L as [[] _]|exact W|exact W0|]. rewrite (edges_close nan L H NA). cbn [fst snd].
  assert (P : (0 < 2 ^ 64)%R) by (apply pow_lt; lra). assert (2 ^ 64 * w <= 1)%R; [|lra]. apply Rle_trans with (2 ^ 64 * / 2 ^ 64)%R; [apply Rmult_le_compat_l; lra|]. rewrite Rinv_r; lra.
Qed.
(** the overflow of the Freedman-Diaconis count *)
Lemma fd_ub nan inf iqr x lo hi : lowest x lo -> highest x hi -> apart lo hi -> (0 < iqr x)%R -> (2 ^ 65 * iqr x < hi - lo)%R ->
  histogram_bin_edges_auto nan inf iqr FD x = UB.
Proof.
  intros L H A Q B. pose proof (N1 L) as HN. destruct (@cbrt_spec (INR (length x)) ltac:(lra)) as [C1 C2].
  assert (G : (1 <= cbrt (INR (length x)))%R) by (apply cube_le; [lra|lra|]; rewrite C2; lra).
  apply (@overflow nan inf iqr FD x (2 * iqr x / cbrt (INR (length x)))%R); [intros E; rewrite E in L; destruct L as [[] _]| | |].
  - rewrite (bw nan inf iqr L) by discriminate. reflexivity.
  - apply Rdiv_lt_0_compat; lra.
  - rewrite (edges_apart nan L H A). cbn [fst snd]. apply Rle_lt_trans with (2 := B). change 65 with (64 + 1). rewrite pow_add. simpl (2 ^ 1)%R. assert (0 < 2 ^ 64)%R by (apply pow_lt; lra).
    set (p := (2 ^ 64)%R) in *. replace (p * (2 * 1) * iqr x)%R with (p * (2 * iqr x))%R by ring. apply Rmult_le_compat_l; [lra|].
    apply Rmult_le_reg_r with (cbrt (INR (length x))); [lra|]. replace (2 * iqr x / cbrt (INR (length x)) * cbrt (INR (length x)))%R with (2 * iqr x)%R by (field; lra). nra.
Qed.
