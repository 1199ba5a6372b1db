(** Properties C26-C30 (mean, covariance, variance, moments, covariance matrix; scicpp/core/stats.hpp) and C71 (pow<n>). *)
From Coq Require Import ZArith Permutation.
From Verif Require Import Base Functional FunctionalProofs Spec Numeric NumericFacts BaseFl FlFacts Equal Maths Stats StatsOrder
  StatsMoments StatsVar StatsVarFacts ComplexField.
From Coq Require Import Lqa.
Open Scope nat_scope.

(** C26.  fmean: the model of mean on doubles (exact arithmetic plus NaN and infinities). *)
Theorem C26_mean : forall x : list Qc,
  (x <> [] -> fmean (map Fin x) = Fin (qsum x / qn (length x))%Qc) /\ fmean [] = NaN.
Proof. intros x. split; [exact (fmean_fin x)|reflexivity]. Qed.
Print Assumptions C26_mean.
(** every filter: nanmean (not_nan), tmean (Trim) are the mean of the selected elements; NaN if there is none *)
Theorem C26_mean_filtered : forall (a : list fl) (p : fl -> bool), fmean_filter a p = fmean (filter p a).
Proof. exact fmean_filter_eq. Qed.
Print Assumptions C26_mean_filtered.
Theorem C26_mean_bounds : forall (x : list Qc) lo hi, x <> [] ->
  amin NaN flt (map Fin x) = Fin lo -> amax NaN flt (map Fin x) = Fin hi ->
  exists m, fmean (map Fin x) = Fin m /\ (lo <= m)%Qc /\ (m <= hi)%Qc.
Proof.
  intros x lo hi Hx Hlo Hhi. exists (qmean x). split; [exact (fmean_fin x Hx)|]. apply qmean_bounds; [exact Hx|].
  intros v Hv. destruct (amax_amin_ptp (map Fin x)) as ((_ & M) & (_ & N) & _).
  - destruct x; simpl; congruence.
  - rewrite Forall_forall. intros y Hy. apply in_map_iff in Hy. destruct Hy as (q & <- & _). discriminate.
  - assert (I : In (Fin v) (map Fin x)) by (now apply in_map).
    specialize (M _ I). specialize (N _ I). rewrite Hhi in M. rewrite Hlo in N. unfold fleP in M, N.
    assert (T : forall a b, fle (Fin a) (Fin b) = true -> (a <= b)%Qc).
    { intros a b. unfold fle. simpl. destruct (qltb_spec a b); simpl; [intros _; now apply Qclt_le_weak|]. 
      destruct (qeqb_spec a b); [intros _; subst; apply Qcle_refl|discriminate]. }
    auto.
Qed.
Print Assumptions C26_mean_bounds.
Theorem C26_average : forall (x w : list Qc) (c : Qc),
  (length x = length w -> x <> [] -> qsum w <> Q2Qc 0 ->
   faverage (map Fin x) (map Fin w) = Ok (Fin (qsum (map (fun p => fst p * snd p) (combine x w)) / qsum w)%Qc)) /\
  (length x <> length w -> faverage (map Fin x) (map Fin w) = Ok NaN) /\
  (x <> [] -> c <> Q2Qc 0 -> faverage (map Fin x) (map Fin (repeat c (length x))) = Ok (fmean (map Fin x))).
Proof.
  intros x w c. split; [exact (faverage_fin x w)|]. split; [|exact (faverage_const x c)].
  intros H. unfold faverage, average. rewrite !map_length, (proj2 (Nat.eqb_neq _ _) H). cbn [negb]. now rewrite orb_true_r.
Qed.
Print Assumptions C26_average.
(** FINDING: for an integer element type the mean is an integer division *)
Theorem C26_mean_integer_refuted : mean 0%Z 0%Z Z.add Z.quot Z.of_nat true [1; 2]%Z = 1%Z.
Proof. reflexivity. Qed.
Print Assumptions C26_mean_integer_refuted.
Example C26_nonvacuous : this (unfin (fmean_filter [Fin (qz 1); NaN; Fin (qz 4)] not_nan)) = (5 # 2)%Q.
Proof. reflexivity. Qed.

(** C27.  dev_sum x y = sum_i (x_i - mean x)(y_i - mean y); cov_value ddof x y = dev_sum/(n - ddof), +inf when n <= ddof. *)
Theorem C27_covariance : forall ddof x y,
  (length x = length y -> x <> [] -> fcovariance ddof (map Fin x) (map Fin y) = Ok (cov_value ddof x y)) /\
  fcovariance ddof [] [] = Ok NaN /\
  (length x <> length y -> fcovariance ddof (map Fin x) (map Fin y) = RequireFail).
Proof. exact covariance_two_pass. Qed.
Print Assumptions C27_covariance.
Theorem C27_variance : forall ddof x, x <> [] ->
  fvar ddof (map Fin x) = Ok (cov_value ddof x x) /\
  ((ddof < Z.of_nat (length x))%Z -> exists v, cov_value ddof x x = Fin v /\ (0 <= v)%Qc /\
     v = (qsum (map (fun u => (u - qmean x) * (u - qmean x)) x) / qz (Z.of_nat (length x) - ddof))%Qc /\
     (forall c, fvar ddof (map Fin (map (fun u => u + c)%Qc x)) = Ok (Fin v)) /\
     (forall k, fvar ddof (map Fin (map (fun u => k * u)%Qc x)) = Ok (Fin (k * k * v)%Qc))) /\
  ((Z.of_nat (length x) <= ddof)%Z -> fvar ddof (map Fin x) = Ok PInf).
Proof. exact var_properties. Qed.
Print Assumptions C27_variance.
(** complex data: the second factor is conjugated; the variance is real and non-negative *)
Theorem C27_covariance_complex : forall nan inf ddof x y, length x = length y -> x <> [] ->
  ccovariance nan inf ddof x y =
  Ok (if (Z.of_nat (length x) - ddof <=? 0)%Z then inf else cdiv (cdev_sum x y) (cofz (Z.of_nat (length x) - ddof))).
Proof. exact ccovariance_spec. Qed.
Print Assumptions C27_covariance_complex.
Theorem C27_variance_complex : forall nan inf ddof x, x <> [] -> (ddof < Z.of_nat (length x))%Z ->
  var c0 c1 nan inf cadd csub cmul cdiv cconj cofn cofz false (fun z => (fst z, 0%Qc)) ddof x =
  Ok (qsum (map (fun u => cnorm2 (csub u (cmean x))) x) / qz (Z.of_nat (length x) - ddof), 0)%Qc /\
  (0 <= qsum (map (fun u => cnorm2 (csub u (cmean x))) x) / qz (Z.of_nat (length x) - ddof))%Qc.
Proof. exact cvar_spec. Qed.
Print Assumptions C27_variance_complex.
Example C27_nonvacuous : (0 < Z.of_nat (length [qz 1; qz 2; qz 6]))%Z /\ cov_value 1 [qz 1; qz 2; qz 6] [qz 1; qz 2; qz 6] = Fin (qz 7).
Proof. split; [reflexivity|]. apply (f_equal Fin). apply Qc_is_canon. reflexivity. Qed.

(** C28 (and tvar, C29's Trim for order 2): any filter, same selected positions in both arrays, selected values finite, and no
    32 consecutive unselected elements (or a short array with at least one selected element). *)
Theorem C28_nancov_partial : forall p ddof a b,
  same_selection p a b -> finite_selection p a -> finite_selection p b -> dense p a ->
  fcov_filter ddof a b p = fcov_filter ddof (filter p a) (filter p b) f_all.
Proof. exact covariance_selected. Qed.
Print Assumptions C28_nancov_partial.
Theorem C28_nanvar_partial : forall p ddof a, finite_selection p a -> dense p a ->
  fvar_filter ddof a p = fvar_filter ddof (filter p a) f_all.
Proof. exact variance_selected. Qed.
Print Assumptions C28_nanvar_partial.
(** FINDING: one block of the recursion without valid element turns the whole result into NaN *)
Theorem C28_nanvar_block_of_nans_refuted : forall (d : list Qc) ddof, length d = 64 -> (ddof < 64)%Z ->
  fvar_filter ddof (repeat NaN 64 ++ map Fin d) not_nan = Ok (NaN, 64) /\
  exists v, fvar_filter ddof (filter not_nan (repeat NaN 64 ++ map Fin d)) f_all = Ok (Fin v, 64).
Proof. exact nanvar_poisoned. Qed.
Print Assumptions C28_nanvar_block_of_nans_refuted.
(** FINDING: NaNs at different positions: the block means use each array's own valid elements, not the common ones.
    The only common position holds (2, 1), so the covariance over the common positions is 0; the code returns -1/2. *)
Theorem C28_nancov_positions_refuted :
  fcov_filter 0 [Fin (qz 1); Fin (qz 2); NaN] [NaN; Fin (qz 1); Fin (qz 3)] not_nan = Ok (Fin (Q2Qc (- (1 # 2))), 1) /\
  fcov_filter 0 [Fin (qz 2)] [Fin (qz 1)] f_all = Ok (Fin (Q2Qc 0), 1).
Proof. split; vm_compute; apply f_equal, f_equal2; try reflexivity; apply f_equal, Qc_is_canon; reflexivity. Qed.
Print Assumptions C28_nancov_positions_refuted.
(** all-NaN input: +inf where the variance of the remaining (empty) data is NaN *)
Theorem C28_nanvar_all_nan_refuted : forall n,
  fvar_filter 0 (repeat NaN (S n)) not_nan = Ok (PInf, 0) /\ fvar_filter 0 (filter not_nan (repeat NaN (S n))) f_all = Ok (NaN, 0).
Proof. exact nanvar_all_nan. Qed.
Print Assumptions C28_nanvar_all_nan_refuted.
Example C28_nonvacuous : let a := [Fin (qz 1); NaN; Fin (qz 3)] in
  finite_selection not_nan a /\ dense not_nan a /\ fvar_filter 0 a not_nan = Ok (Fin (qz 1), 2).
Proof.
  split; [|split].
  - intros u [<-|[<-|[<-|[]]]]; try discriminate; eauto.
  - left. split; [simpl; lia|]. exists (Fin (qz 1)). split; [now left|reflexivity].
  - vm_compute. apply f_equal, f_equal2; [|reflexivity]. apply f_equal, Qc_is_canon; reflexivity.
Qed.

(** C29 *)
Theorem C29_moment : forall n x, x <> [] ->
  fmoment 0 (map Fin x) f_all = Ok f1 /\ fmoment 1 (map Fin x) f_all = Ok f0 /\
  (2 <= n -> fmoment n (map Fin x) f_all = Ok (Fin (qmean (map (fun v => rpow (Q2Qc 1) Qcmult (v - qmean x)%Qc n) x)))).
Proof.
  intros n x Hx. split; [reflexivity|]. split; [reflexivity|]. intros Hn. destruct (Nat.eq_dec n 2) as [->|]; [exact (moment_2 x Hx)|].
  apply moment_all; [lia|exact Hx].
Qed.
Print Assumptions C29_moment.
Theorem C29_nanmoment_partial : forall n a w, filter not_nan a = map Fin w -> w <> [] -> finite_selection not_nan a ->
  (3 <= n -> fmoment n a not_nan = Ok (Fin (qmean (map (fun v => rpow (Q2Qc 1) Qcmult (v - qmean w)%Qc n) w)))) /\
  (dense not_nan a -> fmoment 2 a not_nan = Ok (Fin (qmean (map (fun v => rpow (Q2Qc 1) Qcmult (v - qmean w)%Qc 2) w)))).
Proof.
  intros n a w Hw Hne Ha. split; [intros Hn; exact (nanmoment n a Hn Ha w Hw Hne)|]. intros HD.
  change (fmoment 2 a not_nan) with (omap fst (fvar_filter 0 a not_nan)). rewrite variance_selected by assumption. rewrite Hw.
  exact (moment_2 w Hne).
Qed.
Print Assumptions C29_nanmoment_partial.
(** FINDING: the filter is applied a second time, to the powers of the deviations: with limits the wrong elements are kept.
    tmoment<3>({1,2,3,100}, [0,10]) is (0+1)/2 instead of ((-1)+0+1)/3 = 0. *)
Theorem C29_trim_filter_refuted :
  let p := f_trim fle flt (Fin (qz 0)) (Fin (qz 10)) true true in
  let a := [Fin (qz 1); Fin (qz 2); Fin (qz 3); Fin (qz 100)] in
  fmoment 3 a p = Ok (Fin (Q2Qc (1 # 2))) /\
  filter p a = map Fin [qz 1; qz 2; qz 3] /\ fmoment 3 (filter p a) f_all = Ok (Fin (Q2Qc 0)).
Proof.
  split; [|split].
  - vm_compute. apply f_equal, f_equal, Qc_is_canon; reflexivity.
  - reflexivity.
  - vm_compute. apply f_equal, f_equal, Qc_is_canon; reflexivity.
Qed.
Print Assumptions C29_trim_filter_refuted.
Example C29_nonvacuous : fmoment 3 [Fin (qz 0); NaN; Fin (qz 0); Fin (qz 3)] not_nan = Ok (Fin (qz 2)).
Proof. vm_compute. apply f_equal, f_equal, Qc_is_canon; reflexivity. Qed.

(** C30 *)
Theorem C30_cov_matrix : forall ddof x y, length x = length y -> (ddof < Z.of_nat (length x))%Z -> x <> [] ->
  exists vx c vy, fcovmat ddof (map Fin x) (map Fin y) f_all = Ok (Fin vx, Fin c, Fin c, Fin vy) /\
    fvar ddof (map Fin x) = Ok (Fin vx) /\ fvar ddof (map Fin y) = Ok (Fin vy) /\ fcovariance ddof (map Fin x) (map Fin y) = Ok (Fin c) /\
    (c * c <= vx * vy)%Qc /\ (0 <= vx)%Qc /\ (0 <= vy)%Qc.
Proof. exact cov_matrix. Qed.
Print Assumptions C30_cov_matrix.
(** complex data: the matrix is Hermitian, its entries are the covariances in the two orders and the variances *)
Theorem C30_cov_matrix_hermitian : forall nan inf ddof x y, length x = length y -> x <> [] -> (ddof < Z.of_nat (length x))%Z ->
  exists vx c vy, ccovmat nan inf ddof x y = Ok (vx, c, cconj c, vy) /\
    cvar nan inf ddof x = Ok vx /\ cvar nan inf ddof y = Ok vy /\
    ccovariance nan inf ddof x y = Ok c /\ ccovariance nan inf ddof y x = Ok (cconj c).
Proof. exact ccov_matrix. Qed.
Print Assumptions C30_cov_matrix_hermitian.
Example C30_nonvacuous : exists vx c vy, fcovmat 1 (map Fin [qz 1; qz 2; qz 6]) (map Fin [qz 2; qz 2; qz 5]) f_all = Ok (Fin vx, Fin c, Fin c, Fin vy).
Proof. destruct (C30_cov_matrix 1 [qz 1; qz 2; qz 6] [qz 2; qz 2; qz 5]) as (vx & c & vy & H & _); [reflexivity|reflexivity|discriminate|eauto]. Qed.

(** C71: pow<n> *)
Theorem C71_pow_nonnegative_partial : forall (T : Type) (one : T) (mul : T -> T -> T),
  (forall x y z, mul x (mul y z) = mul (mul x y) z) -> (forall x, mul one x = x) -> (forall x, mul x one = x) ->
  forall (n : nat) x, upow one mul (Z.of_nat n) x = rpow one mul x n.
Proof. intros T one mul A L R n x. rewrite upow_spec by assumption. now rewrite Z.abs_eq, Nat2Z.id by lia. Qed.
Print Assumptions C71_pow_nonnegative_partial.
(** FINDING: the sign of a negative exponent is ignored *)
Theorem C71_pow_negative_refuted : forall (T : Type) (one : T) (mul : T -> T -> T),
  (forall x y z, mul x (mul y z) = mul (mul x y) z) -> (forall x, mul one x = x) -> (forall x, mul x one = x) ->
  forall (n : nat) x, upow one mul (- Z.of_nat n) x = rpow one mul x n.
Proof. intros T one mul A L R n x. rewrite upow_spec by assumption. now rewrite Z.abs_opp, Z.abs_eq, Nat2Z.id by lia. Qed.
Print Assumptions C71_pow_negative_refuted.
Example C71_nonvacuous : upow 1%Z Z.mul 5 3%Z = 243%Z /\ upow 1%Z Z.mul (-5) 3%Z = 243%Z.
Proof. split; reflexivity. Qed.
