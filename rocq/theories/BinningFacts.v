(** Proofs about Binning.v: least number of equal bins. *)
From Coq Require Import ZArith Reals List Permutation.
From Verif Require Import Base Functional FunctionalProofs Numeric RangeManips Stats StatsMoments Histogram StatsReal StatsRealFacts StatsRealFacts2 StatsVar StatsVarFacts Binning.
From Coq Require Import Lra Psatz Lia.
Open Scope nat_scope.
Set Implicit Arguments.

(** ** Specification vocabulary *)
(** the smallest and the largest value of the data *)
Definition lowest (x : list R) (v : R) : Prop := In v x /\ forall u, In u x -> (v <= u)%R.
Definition highest (x : list R) (v : R) : Prop := In v x /\ forall u, In u x -> (u <= v)%R.
(** the edges of n equal bins from lo to hi *)
Definition equal_bins (lo hi : R) (n : nat) (l : list R) : Prop :=
  length l = n + 1 /\ forall i, i <= n -> nth_error l i = Some (lo + INR i * ((hi - lo) / INR n))%R.
(** lo and hi differ by more than half an ulp-like tolerance: relative 2^-53, or absolute 2^-53 when one is zero or both are tiny *)
Definition apart (lo hi : R) : Prop :=
  let m := Rmax (Rabs lo) (Rabs hi) in
  if Req_EM_T lo 0 then (/ 2 ^ 53 < hi - lo)%R
  else if Req_EM_T hi 0 then (/ 2 ^ 53 < hi - lo)%R
  else if Rlt_dec m (/ 2 ^ 53) then (/ 2 ^ 53 < hi - lo)%R
  else (/ 2 ^ 53 * m < hi - lo)%R.

(** ** Extrema *)
Lemma rlt_true a b : rlt a b = true <-> (a < b)%R.
Proof. unfold rlt. destruct (Rlt_dec a b); split; intros; try assumption; try reflexivity; try discriminate. contradiction. Qed.
Lemma rlt_false a b : rlt a b = false <-> (b <= a)%R.
Proof. unfold rlt. destruct (Rlt_dec a b); split; intros; try discriminate; try reflexivity; try lra. Qed.
Lemma rmin_spec r : forall x, let m := min_element rlt x r in In m (x :: r) /\ forall u, In u (x :: r) -> (m <= u)%R.
Proof.
  induction r as [|y r IH]; intros x; cbn [min_element].
  - split; [now left|]. intros u [-> | []]. lra.
  - destruct (rlt y x) eqn:E.
    + destruct (IH y) as [A B]. split; [now right|]. apply rlt_true in E. intros u [-> | H]; [|now apply B]. specialize (B y (or_introl eq_refl)). lra.
    + destruct (IH x) as [A B]. apply rlt_false in E. split; [destruct A as [A|A]; [now left|right; now right]|].
      intros u [-> | [-> | H]]; [now apply B; left| |now apply B; right]. specialize (B x (or_introl eq_refl)). lra.
Qed.
Lemma rmax_spec r : forall x, let m := max_element rlt x r in In m (x :: r) /\ forall u, In u (x :: r) -> (u <= m)%R.
Proof.
  induction r as [|y r IH]; intros x; cbn [max_element].
  - split; [now left|]. intros u [-> | []]. lra.
  - destruct (rlt x y) eqn:E.
    + destruct (IH y) as [A B]. split; [now right|]. apply rlt_true in E. intros u [-> | H]; [|now apply B]. specialize (B y (or_introl eq_refl)). lra.
    + destruct (IH x) as [A B]. apply rlt_false in E. split; [destruct A as [A|A]; [now left|right; now right]|].
      intros u [-> | [-> | H]]; [now apply B; left| |now apply B; right]. specialize (B x (or_introl eq_refl)). lra.
Qed.
Lemma minmax_spec r : forall a b, minmax_element rlt a b r = (min_element rlt a r, max_element rlt b r).
Proof.
  induction r as [|y r IH]; intros a b; cbn [minmax_element min_element max_element]; [reflexivity|]. rewrite IH. f_equal.
  assert (E : (if rlt y b then b else y) = (if rlt b y then y else b)) by (unfold rlt; destruct (Rlt_dec y b), (Rlt_dec b y); lra).
  now rewrite E.
Qed.
Lemma lowest_unique x a b : lowest x a -> lowest x b -> a = b.
Proof. intros [A1 A2] [B1 B2]. apply A2 in B1. apply B2 in A1. lra. Qed.
Lemma highest_unique x a b : highest x a -> highest x b -> a = b.
Proof. intros [A1 A2] [B1 B2]. apply A2 in B1. apply B2 in A1. lra. Qed.
Lemma ext_eq nan x lo hi : lowest x lo -> highest x hi ->
  amin nan rlt x = lo /\ amax nan rlt x = hi /\ ptp nan rlt Rminus x = (hi - lo)%R.
Proof.
  intros L H. destruct x as [|y r]; [destruct L as [[] _]|]. cbn [amin amax ptp]. rewrite minmax_spec.
  assert (E1 : min_element rlt y r = lo) by (apply (@lowest_unique (y :: r)); [exact (rmin_spec r y)|exact L]).
  assert (E2 : max_element rlt y r = hi) by (apply (@highest_unique (y :: r)); [exact (rmax_spec r y)|exact H]).
  rewrite E1, E2. repeat split.
Qed.

(** ** almost_equal *)
Lemma rmax2_eq a b : rmax2 a b = Rmax a b.
Proof. unfold rmax2, Rmax. destruct (Rlt_dec a b), (Rle_dec a b); lra. Qed.
Lemma raeq_apart lo hi : (lo <= hi)%R -> (raeq lo hi = false <-> apart lo hi).
Proof.
  intros H. unfold raeq, apart. cbv zeta. rewrite rmax2_eq. replace (Rabs (lo - hi)) with (hi - lo)%R by (rewrite Rabs_left1; lra).
  change rtol with (/ 2 ^ 53)%R. unfold rzero. destruct (Req_EM_T lo 0); [cbn [orb]; rewrite Bool.negb_false_iff; apply rlt_true|].
  destruct (Req_EM_T hi 0); [cbn [orb]; rewrite Bool.negb_false_iff; apply rlt_true|]. cbn [orb]. unfold rlt at 1.
  destruct (Rlt_dec (Rmax (Rabs lo) (Rabs hi)) (/ 2 ^ 53)); rewrite Bool.negb_false_iff; apply rlt_true.
Qed.
Lemma tol_pos : (0 < / 2 ^ 53)%R.
Proof. apply Rinv_0_lt_compat. apply pow_lt. lra. Qed.
Lemma raeq_refl v : raeq v v = true.
Proof.
  destruct (raeq v v) eqn:E; [reflexivity|]. apply raeq_apart in E; [|lra]. unfold apart in E. cbv zeta in E. pose proof tol_pos as T.
  set (t := (/ 2 ^ 53)%R) in *. destruct (Req_EM_T v 0); [lra|]. destruct (Rlt_dec _ _); [lra|].
  pose proof (Rmax_l (Rabs v) (Rabs v)). pose proof (Rabs_pos v). assert (0 <= t * Rmax (Rabs v) (Rabs v))%R by (apply Rmult_le_pos; lra). lra.
Qed.
Lemma apart_lt lo hi : (lo <= hi)%R -> apart lo hi -> (lo < hi)%R.
Proof. intros H A. destruct H as [H| ->]; [exact H|]. apply raeq_apart in A; [|lra]. now rewrite raeq_refl in A. Qed.

Lemma edges_apart nan x lo hi : lowest x lo -> highest x hi -> apart lo hi -> edges_of nan x = (lo, hi).
Proof.
  intros L H A. destruct (ext_eq nan L H) as (E1 & E2 & _). unfold edges_of, outer_edges. destruct x as [|y r]; [destruct L as [[] _]|].
  rewrite E1, E2. assert (lo <= hi)%R by (apply L; apply H). apply raeq_apart in A; [|assumption]. now rewrite A.
Qed.
Lemma edges_close nan x lo hi : lowest x lo -> highest x hi -> ~ apart lo hi -> edges_of nan x = (lo - 1 / 2, hi + 1 / 2)%R.
Proof.
  intros L H A. destruct (ext_eq nan L H) as (E1 & E2 & _). unfold edges_of, outer_edges. destruct x as [|y r]; [destruct L as [[] _]|].
  rewrite E1, E2. assert (lo <= hi)%R by (apply L; apply H). destruct (raeq lo hi) eqn:E; [reflexivity|]. apply raeq_apart in E; tauto.
Qed.

(** ** linspace and ceil *)
Lemma linspace_bins lo hi n : 1 <= n -> equal_bins lo hi n (linspace Rplus Rminus Rmult Rdiv INR lo hi (n + 1)).
Proof.
  intros Hn. unfold equal_bins, linspace. destruct n as [|n]; [lia|]. replace (S n + 1) with (S (S n)) by lia. cbv zeta. rewrite !transform1_map, map_map. unfold RangeManips.iota.
  replace (S (S n) - 1) with (S n) by lia. split; [now rewrite !map_length, seq_length|]. intros i Hi. rewrite map_map, nth_error_map.
  rewrite nth_error_nth' with (d := 0) by (rewrite seq_length; lia). rewrite seq_nth by lia. cbn [option_map plus]. f_equal. ring.
Qed.
Lemma rceil_spec r : (IZR (rceil r) - 1 < r <= IZR (rceil r))%R.
Proof. unfold rceil. rewrite opp_IZR. destruct (base_Int_part (- r)) as [A B]. lra. Qed.
Lemma rceil_le r z : (rceil r <= z)%Z <-> (r <= IZR z)%R.
Proof.
  destruct (rceil_spec r) as [A B]. split; intros H.
  - apply IZR_le in H. lra.
  - apply Z.lt_succ_r. apply lt_IZR. rewrite succ_IZR. lra.
Qed.

Lemma p60 : IZR (2 ^ 60) = (2 ^ 60)%R.
Proof. symmetry. exact (pow_IZR 2 60). Qed.
Lemma p64 : IZR (2 ^ 64) = (2 ^ 64)%R.
Proof. symmetry. exact (pow_IZR 2 64). Qed.
(** The generic selection: for a positive width w, the least n with n*w >= hi - lo. *)
Lemma select nan inf iqr m x lo hi w : lowest x lo -> highest x hi -> apart lo hi ->
  bin_width nan inf iqr m x = Ok w -> (0 < w)%R -> (hi - lo <= (2 ^ 60 - 2) * w)%R ->
  exists n l, histogram_bin_edges_auto nan inf iqr m x = Ok l /\ 1 <= n /\ equal_bins lo hi n l /\
    forall k, n <= k <-> (hi - lo <= INR k * w)%R.
Proof.
  intros L H A W Hw HK. assert (LT := apart_lt (proj2 L _ (proj1 H)) A). unfold histogram_bin_edges_auto. destruct x as [|y r] eqn:Ex; [destruct L as [[] _]|].
  rewrite <- Ex in *. clear Ex. rewrite (edges_apart nan L H A), W. cbn [bind]. unfold rzero. destruct (Req_EM_T w 0); [lra|].
  set (c := rceil ((hi - lo) / w)). assert (Cpos : (1 <= c)%Z).
  { destruct (Z_lt_le_dec c 1) as [C|C]; [|exact C]. exfalso. assert (C' : (c <= 0)%Z) by lia. apply rceil_le in C'. assert (0 < (hi - lo) / w)%R by (apply Rdiv_lt_0_compat; lra). lra. }
  assert (Chi : (c <= 2 ^ 60 - 2)%Z).
  { apply rceil_le. apply Rmult_le_reg_r with w; [exact Hw|]. unfold Rdiv. rewrite Rmult_assoc, Rinv_l, Rmult_1_r by lra.
    rewrite minus_IZR, p60. exact HK. }
  assert (S64 : (c + 1 < 2 ^ 64)%Z) by lia.
  assert (B : ((0 <=? c) && (c <? 2 ^ 64))%Z = true) by (rewrite Bool.andb_true_iff, Z.leb_le, Z.ltb_lt; lia). rewrite B.
  unfold vec_linspace. rewrite Z.mod_small by lia. assert (B2 : (c + 1 <=? 2 ^ 60 - 1)%Z = true) by (apply Z.leb_le; lia). rewrite B2.
  exists (Z.to_nat c). eexists. split; [reflexivity|]. split; [lia|]. split.
  - replace (Z.to_nat (c + 1)) with (Z.to_nat c + 1) by lia. apply linspace_bins. lia.
  - intros k. rewrite INR_IZR_INZ. transitivity (c <= Z.of_nat k)%Z; [lia|]. unfold c. rewrite rceil_le. split; intros Q.
    + apply (Rmult_le_compat_r w) in Q; [|lra]. unfold Rdiv in Q. rewrite Rmult_assoc, Rinv_l, Rmult_1_r in Q by lra. exact Q.
    + apply Rmult_le_reg_r with w; [exact Hw|]. unfold Rdiv. rewrite Rmult_assoc, Rinv_l, Rmult_1_r by lra. exact Q.
Qed.
(** width 0: a single bin; size conversion overflow *)
Lemma single nan inf iqr m x lo hi : lowest x lo -> highest x hi ->
  bin_width nan inf iqr m x = Ok 0%R ->
  histogram_bin_edges_auto nan inf iqr m x = vec_linspace (fst (edges_of nan x)) (snd (edges_of nan x)) 2.
Proof.
  intros L H W. unfold histogram_bin_edges_auto. destruct x as [|y r] eqn:Ex; [destruct L as [[] _]|]. rewrite <- Ex in *. destruct (edges_of nan x). rewrite W. cbn [bind fst snd].
  unfold rzero. destruct (Req_EM_T 0 0); [reflexivity|lra].
Qed.
Lemma vec2 a b : vec_linspace a b 2 = Ok [a; b].
Proof. unfold vec_linspace. change (2 <=? 2 ^ 60 - 1)%Z with true. cbv iota. change (Z.to_nat 2) with 2%nat. unfold linspace. cbn -[Rdiv]. apply (f_equal Ok). replace (a + (b - a) / 1 * 0)%R with a by (field; lra). replace (a + (b - a) / 1 * 1)%R with b by (field; lra). reflexivity. Qed.
Lemma overflow nan inf iqr m x w : x <> [] -> bin_width nan inf iqr m x = Ok w -> (0 < w)%R ->
  (2 ^ 64 * w < snd (edges_of nan x) - fst (edges_of nan x))%R -> histogram_bin_edges_auto nan inf iqr m x = UB.
Proof.
  intros Hx W Hw HK. unfold histogram_bin_edges_auto. destruct x as [|y r] eqn:Ex; [congruence|]. rewrite <- Ex in *. destruct (edges_of nan x) as [a b]. cbn [fst snd] in HK.
  rewrite W. cbn [bind]. unfold rzero. destruct (Req_EM_T w 0); [lra|]. set (c := rceil ((b - a) / w)).
  assert (C : (c <? 2 ^ 64)%Z = false).
  { apply Z.ltb_ge. destruct (Z_le_gt_dec (2 ^ 64) c) as [Q|Q]; [exact Q|]. exfalso. assert (Q' : (c <= 2 ^ 64)%Z) by lia. apply rceil_le in Q'.
    apply (Rmult_le_compat_r w) in Q'; [|lra]. unfold Rdiv in Q'. rewrite Rmult_assoc, Rinv_l, Rmult_1_r in Q' by lra.
    rewrite p64 in Q'. lra. }
  rewrite C, Bool.andb_false_r. reflexivity.
Qed.
