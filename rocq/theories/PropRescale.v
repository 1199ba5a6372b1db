(** C130: statistics of joined, shifted, rescaled and added data.  fmean, fvar, fcovariance: mean, var and covariance on doubles (exact arithmetic plus NaN and
    infinities); median, quantile, iqr: for every nth_element that meets its contract; qn: the rational number of a natural number. *)
From Coq Require Import ZArith Permutation Sorted.
From Verif Require Import Base Functional FunctionalProofs Spec Numeric NumericFacts BaseFl FlFacts Equal Maths Stats StatsOrder
  StatsMoments StatsVar StatsVarFacts StatsQuantile RescaleFacts.
From Coq Require Import Lqa.
Open Scope nat_scope.

(** Joining two data sets of n and m elements: the mean is the weighted mean, and sums of squares (and products) of deviations add up, plus n m/(n+m) times
    the squared distance of the means. *)
Theorem C130_join : forall (ddof : Z) (x1 y1 x2 y2 : list Qc), x1 <> [] -> x2 <> [] -> length x1 = length y1 -> length x2 = length y2 ->
  (ddof < Z.of_nat (length x1))%Z -> (ddof < Z.of_nat (length x2))%Z ->
  let n := qn (length x1) in let m := qn (length x2) in let d := qz ddof in
  exists mx1 my1 mx2 my2 v1 v2 v c1 c2 c,
    fmean (map Fin x1) = Fin mx1 /\ fmean (map Fin y1) = Fin my1 /\ fmean (map Fin x2) = Fin mx2 /\ fmean (map Fin y2) = Fin my2 /\
    fmean (map Fin (x1 ++ x2)) = Fin ((n * mx1 + m * mx2) / (n + m))%Qc /\
    fvar ddof (map Fin x1) = Ok (Fin v1) /\ fvar ddof (map Fin x2) = Ok (Fin v2) /\ fvar ddof (map Fin (x1 ++ x2)) = Ok (Fin v) /\
    ((n + m - d) * v = (n - d) * v1 + (m - d) * v2 + n * m / (n + m) * ((mx1 - mx2) * (mx1 - mx2)))%Qc /\
    fcovariance ddof (map Fin x1) (map Fin y1) = Ok (Fin c1) /\ fcovariance ddof (map Fin x2) (map Fin y2) = Ok (Fin c2) /\
    fcovariance ddof (map Fin (x1 ++ x2)) (map Fin (y1 ++ y2)) = Ok (Fin c) /\
    ((n + m - d) * c = (n - d) * c1 + (m - d) * c2 + n * m / (n + m) * ((mx1 - mx2) * (my1 - my2)))%Qc.
Proof.
  intros ddof x1 y1 x2 y2 N1 N2 E1 E2 D1 D2 n m d.
  assert (Y1 : y1 <> []) by (intros ->; destruct x1; cbn in *; congruence). assert (Y2 : y2 <> []) by (intros ->; destruct x2; cbn in *; congruence).
  assert (N : x1 ++ x2 <> []) by (destruct x1; cbn; congruence). assert (E : length (x1 ++ x2) = length (y1 ++ y2)) by (rewrite !app_length; lia).
  assert (D : (ddof < Z.of_nat (length (x1 ++ x2)))%Z) by (rewrite app_length; lia).
  assert (Z1 : (n - d)%Qc = qz (Z.of_nat (length x1) - ddof)) by (unfold n, d; rewrite qn_qz, <- qz_minus; reflexivity).
  assert (Z2 : (m - d)%Qc = qz (Z.of_nat (length x2) - ddof)) by (unfold m, d; rewrite qn_qz, <- qz_minus; reflexivity).
  assert (Z3 : (n + m - d)%Qc = qz (Z.of_nat (length (x1 ++ x2)) - ddof)) by (unfold n, m, d; rewrite <- qn_add, <- app_length, qn_qz, <- qz_minus; reflexivity).
  pose proof (qz_ne _ (proj2 (Z.lt_0_sub _ _) D1)) as P1. pose proof (qz_ne _ (proj2 (Z.lt_0_sub _ _) D2)) as P2. pose proof (qz_ne _ (proj2 (Z.lt_0_sub _ _) D)) as P3.
  pose proof (qn_ne _ N) as Q. rewrite app_length, qn_add in Q. fold n m in Q. pose proof (qn_ne _ N1) as Qn. fold n in Qn. pose proof (qn_ne _ N2) as Qm. fold m in Qm.
  assert (J : forall y1 y2, length x1 = length y1 -> length x2 = length y2 -> dev_sum (x1 ++ x2) (y1 ++ y2) = (dev_sum x1 y1 + dev_sum x2 y2 + n * m / (n + m) * ((qmean x1 - qmean x2) * (qmean y1 - qmean y2)))%Qc).
  { intros u w Hu Hw. rewrite join_dev by assumption. rewrite qn_add. fold n m. unfold Qcdiv. ring. }
  pose proof (J x1 x2 eq_refl eq_refl) as Jv. pose proof (J y1 y2 E1 E2) as Jc.
  set (w1 := qz (Z.of_nat (length x1) - ddof)) in *. set (w2 := qz (Z.of_nat (length x2) - ddof)) in *. set (w3 := qz (Z.of_nat (length (x1 ++ x2)) - ddof)) in *.
  exists (qmean x1), (qmean y1), (qmean x2), (qmean y2), (dev_sum x1 x1 / w1)%Qc, (dev_sum x2 x2 / w2)%Qc, (dev_sum (x1 ++ x2) (x1 ++ x2) / w3)%Qc,
    (dev_sum x1 y1 / w1)%Qc, (dev_sum x2 y2 / w2)%Qc, (dev_sum (x1 ++ x2) (y1 ++ y2) / w3)%Qc.
  split; [exact (fmean_fin x1 N1)|]. split; [exact (fmean_fin y1 Y1)|]. split; [exact (fmean_fin x2 N2)|]. split; [exact (fmean_fin y2 Y2)|].
  split. { rewrite (fmean_fin _ N). f_equal. unfold qmean. rewrite app_length, qsum_app, qn_add. fold n m. field. auto. }
  split; [exact (var_fin ddof x1 D1 N1)|]. split; [exact (var_fin ddof x2 D2 N2)|]. split; [exact (var_fin ddof _ D N)|].
  rewrite Z1, Z2, Z3. split; [rewrite Jv; field; auto|]. split; [exact (cov_fin ddof x1 y1 E1 D1 N1)|]. split; [exact (cov_fin ddof x2 y2 E2 D2 N2)|]. split; [exact (cov_fin ddof _ _ E D N)|].
  rewrite Jc. field. auto.
Qed.
Print Assumptions C130_join.

(** The covariance is symmetric and bilinear and ignores shifts; the variance of a sum is the sum of the variances plus twice the covariance. *)
Theorem C130_bilinear : forall (ddof : Z) (x z y : list Qc), x <> [] -> length x = length z -> length x = length y -> (ddof < Z.of_nat (length x))%Z ->
  let sum := map Fin (map (fun p => fst p + snd p)%Qc (combine x z)) in
  exists cxy czy cxz vx vz,
    fcovariance ddof (map Fin x) (map Fin y) = Ok (Fin cxy) /\ fcovariance ddof (map Fin z) (map Fin y) = Ok (Fin czy) /\
    fcovariance ddof (map Fin x) (map Fin z) = Ok (Fin cxz) /\ fvar ddof (map Fin x) = Ok (Fin vx) /\ fvar ddof (map Fin z) = Ok (Fin vz) /\
    fcovariance ddof (map Fin y) (map Fin x) = Ok (Fin cxy) /\
    fcovariance ddof sum (map Fin y) = Ok (Fin (cxy + czy)%Qc) /\
    fvar ddof sum = Ok (Fin (vx + (cxz + cxz) + vz)%Qc) /\
    (forall k a l b, fcovariance ddof (map Fin (map (fun u => k * u + a)%Qc x)) (map Fin (map (fun v => l * v + b)%Qc y)) = Ok (Fin (k * l * cxy)%Qc)) /\
    (forall b, fcovariance ddof (map Fin x) (map Fin (repeat b (length x))) = Ok (Fin 0%Qc)).
Proof.
  intros ddof x z y N Ez Ey D sum. subst sum. fold (addl x z).
  assert (Nz : z <> []) by (intros ->; destruct x; cbn in *; congruence). assert (Ny : y <> []) by (intros ->; destruct x; cbn in *; congruence).
  pose proof (addl_length x z Ez) as L. assert (Na : addl x z <> []) by (intros E; rewrite E in L; destruct x; cbn in *; congruence).
  pose proof (qz_ne _ (proj2 (Z.lt_0_sub _ _) D)) as P. pose proof (qn_ne x N) as Q. set (w := qz (Z.of_nat (length x) - ddof)) in *.
  exists (dev_sum x y / w)%Qc, (dev_sum z y / w)%Qc, (dev_sum x z / w)%Qc, (dev_sum x x / w)%Qc, (dev_sum z z / w)%Qc.
  split; [apply cov_fin; assumption|]. split; [unfold w; rewrite Ez; apply cov_fin; congruence|]. split; [apply cov_fin; assumption|]. split; [apply var_fin; assumption|]. split; [unfold w; rewrite Ez; apply var_fin; congruence|].
  split; [rewrite cov_fin by congruence; rewrite <- Ey; fold w; rewrite !dev_plain by congruence; rewrite (prods_comm y x), <- Ey; do 2 f_equal; unfold Qcdiv; ring|].
  split; [rewrite cov_fin by congruence; rewrite L; fold w; rewrite !dev_plain by congruence; rewrite L, prods_addl, qsum_addl, <- ?Ez by congruence; do 2 f_equal; unfold Qcdiv; ring|].
  split. { rewrite var_fin by congruence. rewrite L. fold w. rewrite !dev_plain by congruence. rewrite L, prods_addl, (prods_comm x (addl x z)), (prods_comm z (addl x z)), !prods_addl, qsum_addl, (prods_comm z x), <- ?Ez by congruence. do 2 f_equal. unfold Qcdiv. ring. }
  split.
  - intros k a l b. rewrite cov_fin; rewrite ?map_length; try assumption; [|now apply ne_map]. fold w. rewrite !dev_plain; rewrite ?map_length; try assumption; [|now apply ne_map].
    rewrite prods_affine, !qsum_affine, <- Ey by assumption. do 2 f_equal. field. auto.
  - intros b. rewrite cov_fin by (rewrite ?repeat_length; auto). fold w. rewrite dev_plain by (rewrite ?repeat_length; auto).
    assert (A1 : prods x (repeat b (length x)) = (b * qsum x)%Qc) by (unfold prods; clear; induction x as [|u x IH]; cbn [repeat length combine map qsum fst snd]; [ring|rewrite IH; ring]).
    assert (A2 : qsum (repeat b (length x)) = (qn (length x) * b)%Qc) by (clear; induction x as [|u x IH]; cbn [repeat length qsum]; [change (qn 0) with 0%Qc; ring|rewrite IH, qn_S; ring]).
    rewrite A1, A2. do 2 f_equal. field. auto.
Qed.
Print Assumptions C130_bilinear.

(** Means, medians, quantiles (every interpolation mode) and interquartile ranges follow a change of origin and of unit; the median also a change of sign. *)
Theorem C130_affine : forall f, nth_element_contract f -> forall (x : list Qc) (k c : Qc), x <> [] ->
  let x' := map (fun u => k * u + c)%Qc x in
  (exists v, fmean (map Fin x) = Fin v /\ fmean (map Fin x') = Fin (k * v + c)%Qc) /\
  (exists v, median NaN flt fadd fdiv (Fin (qz 2)) f (map Fin x) = Ok (Fin v) /\ (k <> 0%Qc -> median NaN flt fadd fdiv (Fin (qz 2)) f (map Fin x') = Ok (Fin (k * v + c)%Qc))) /\
  ((0 < k)%Qc -> forall m q, (0 <= q)%Qc -> (q <= 1)%Qc ->
     exists v, quantile f m (map Fin x) q = Ok (Fin v) /\ quantile f m (map Fin x') q = Ok (Fin (k * v + c)%Qc)) /\
  ((0 < k)%Qc -> forall m p0 p1, (0 <= p0)%Qc -> (p0 <= qz 100)%Qc -> (0 <= p1)%Qc -> (p1 <= qz 100)%Qc ->
     exists v, iqr_const f m (map Fin x) p0 p1 = Ok (Fin v) /\ iqr_const f m (map Fin x') p0 p1 = Ok (Fin (k * v)%Qc)).
Proof.
  intros f C x k c N x'.
  assert (S : exists s, sorted_version (map Fin x) (map Fin s)).
  { destruct (sorted_version_exists (map Fin x)) as (s0 & P & So); [apply is_num_map|]. exists (map unfin s0).
    rewrite <- unfin_fin; [split; assumption|]. rewrite Forall_forall. intros u Hu. apply (Permutation_in _ (Permutation_sym P)) in Hu. apply in_map_iff in Hu. destruct Hu as (q & <- & _). now exists q. }
  destruct S as (s & P & So). pose proof (Permutation_length P) as L. rewrite !map_length in L.
  assert (Ns : s <> []) by (intros ->; destruct x; cbn in *; congruence).
  assert (Px : Permutation x s).
  { apply (Permutation_map unfin) in P. rewrite !map_map in P. cbn in P. now rewrite !map_id in P. }
  set (g := fun u => (k * u + c)%Qc) in *. assert (P' : Permutation (map Fin x') (map Fin (map g s))) by (unfold x'; now apply Permutation_map, Permutation_map).
  assert (Nx : x' <> []) by (now apply ne_map).
  assert (G : forall i, i < length s -> nth i (map g s) 0%Qc = g (nth i s 0%Qc)).
  { intros i Hi. rewrite (nth_indep _ 0%Qc (g 0%Qc)) by (now rewrite map_length). apply map_nth. }
  assert (Q : (0 < k)%Qc -> forall m q, (0 <= q)%Qc -> (q <= 1)%Qc -> exists v, quantile f m (map Fin x) q = Ok (Fin v) /\ quantile f m (map Fin x') q = Ok (Fin (k * v + c)%Qc)).
  { intros Hk m q H0 H1. assert (S' : sorted_version (map Fin x') (map Fin (map g s))) by (split; [exact P'|now apply sorted_up]).
    eexists. split; [exact (quantile_exact f C _ s (conj P So) m q H0 H1 Ns)|].
    rewrite (quantile_exact f C _ _ S' m q H0 H1) by (now apply ne_map). rewrite map_length. do 2 f_equal.
    set (h := quantile_interp_index m (q * qn (length s - 1))%Qc).
    destruct (index_range s m q H0 H1) as [R0 R1]. fold h in R0, R1. destruct (trunc_lt_next h _ R0 R1) as [Hk1 Hk2].
    assert (1 <= length s) by (destruct s; [congruence|simpl; lia]).
    destruct (almost_equal _ _ _); [rewrite G by lia; reflexivity|]. unfold interp_stat. fold (qtrunc h).
    destruct (Nat.eq_dec (qtrunc h) (length s - 1)) as [E|E].
    - assert (Z : (h - qn (qtrunc h) = 0)%Qc) by (rewrite (Hk2 E), E at 1; ring). rewrite Z, G by lia. unfold g. ring.
    - rewrite !G by lia. unfold g. ring. }
  split.
  { exists (qmean x). split; [exact (fmean_fin x N)|]. rewrite (fmean_fin x' Nx). f_equal. unfold qmean, x'. rewrite map_length. unfold g. rewrite qsum_affine. pose proof (qn_ne x N). field. exact H. }
  split; [|split; [exact Q|]].
  - assert (Nm : map Fin x <> []) by (now apply ne_map). assert (Nm' : map Fin x' <> []) by (now apply ne_map).
    assert (F : forall (s : list Qc) i, i < length s -> nth i (map Fin s) NaN = Fin (nth i s 0%Qc)).
    { intros t i Hi. rewrite (nth_indep _ NaN (Fin 0%Qc)) by (now rewrite map_length). apply map_nth. }
    assert (Ls : 1 <= length s) by (destruct s; [congruence|simpl; lia]).
    assert (Lh : length s / 2 < length s) by (apply Nat.div_lt; lia).
    assert (Ev : Nat.odd (length s) = false -> 1 <= length s / 2).
    { intros Ho. destruct (Nat.odd (length s)) eqn:Eo; [discriminate|]. apply Nat.div_le_lower_bound; [lia|]. destruct (length s) as [|[|n]]; [lia|discriminate|lia]. }
    set (v := if Nat.odd (length s) then nth (length s / 2) s 0%Qc else ((nth (length s / 2 - 1) s 0 + nth (length s / 2) s 0) / qz 2)%Qc).
    exists v. split.
    + rewrite (median_spec f _ _ C (is_num_map x) (conj P So) Nm), map_length, L. unfold v. destruct (Nat.odd (length s)) eqn:Eo; [now rewrite F by lia|]. specialize (Ev eq_refl).
      rewrite !F by lia. reflexivity.
    + intros Hk. assert (Z2 : qz 2 <> 0%Qc) by discriminate.
      assert (HF : forall a b, @Ok fl (fdiv (fadd (Fin (g a)) (Fin (g b))) (Fin (qz 2))) = Ok (Fin (k * ((a + b) / qz 2) + c)%Qc)).
      { intros a b. change (fdiv (fadd (Fin (g a)) (Fin (g b))) (Fin (qz 2))) with (Fin ((g a + g b) / qz 2)%Qc). do 2 f_equal. unfold g.
        replace c with ((1 + 1) * c / qz 2)%Qc at 3 by (replace (qz 2) with (1 + 1)%Qc by (apply Qc_is_canon; reflexivity); field; discriminate). field. exact Z2. }
      destruct (Qclt_le_dec 0 k) as [Kp|Kn].
      * rewrite (median_spec f _ (map Fin (map g s)) C (is_num_map x') (conj P' (sorted_up k c s Kp So)) Nm'), map_length. unfold x'. rewrite map_length, L. unfold v. fold g.
        destruct (Nat.odd (length s)) eqn:Eo; [rewrite F by (rewrite map_length; lia); now rewrite G by lia|]. specialize (Ev eq_refl).
        rewrite !F, !G by (rewrite ?map_length; lia). apply (HF (nth (length s / 2 - 1) s 0%Qc) (nth (length s / 2) s 0%Qc)).
      * assert (Kn' : (k < 0)%Qc) by (destruct (Qcle_lt_or_eq _ _ Kn); [assumption|congruence]).
        assert (Pr : Permutation (map Fin x') (map Fin (rev (map g s)))) by (eapply perm_trans; [exact P'|apply Permutation_map, Permutation_rev]).
        rewrite (median_spec f _ (map Fin (rev (map g s))) C (is_num_map x') (conj Pr (sorted_down k c s Kn' So)) Nm'), map_length. unfold x'. rewrite map_length, L. unfold v. fold g.
        assert (R : forall i, i < length s -> nth i (rev (map g s)) 0%Qc = g (nth (length s - S i) s 0%Qc)).
        { intros i Hi. rewrite rev_nth by (now rewrite map_length). rewrite map_length. apply G. lia. }
        destruct (Nat.odd (length s)) eqn:Eo.
        -- rewrite F by (rewrite rev_length, map_length; lia). rewrite R by lia. apply Nat.odd_spec in Eo. destruct Eo as (h & Eh).
           assert (H2 : length s / 2 = h) by (rewrite Eh; symmetry; apply (Nat.div_unique _ 2 h 1); lia). replace (length s - S (length s / 2)) with (length s / 2) by lia. reflexivity.
        -- specialize (Ev eq_refl). rewrite !F, !R by (rewrite ?rev_length, ?map_length; lia).
           assert (Ee : Nat.even (length s) = true) by (rewrite <- Nat.negb_odd, Eo; reflexivity). apply Nat.even_spec in Ee. destruct Ee as (h & Eh).
           assert (H2 : length s / 2 = h) by (rewrite Eh, Nat.mul_comm; apply Nat.div_mul; lia).
           replace (length s - S (length s / 2 - 1)) with (length s / 2) by lia. replace (length s - S (length s / 2)) with (length s / 2 - 1) by lia.
           rewrite (HF (nth (length s / 2) s 0%Qc) (nth (length s / 2 - 1) s 0%Qc)). rewrite (Qcplus_comm (nth (length s / 2) s 0%Qc)). reflexivity.
  - intros Hk m p0 p1 A0 A1 B0 B1. assert (I : (0 < / qz 100)%Qc) by reflexivity. assert (Z : ~ (qz 100 = 0)%Qc) by discriminate.
    assert (B : forall p, (0 <= p)%Qc -> (p <= qz 100)%Qc -> (0 <= p / qz 100)%Qc /\ (p / qz 100 <= 1)%Qc).
    { intros p H0 H1. split; unfold Qcdiv.
      - replace 0%Qc with (0 * / qz 100)%Qc by ring. apply Qcmult_le_compat_r; [exact H0|now apply Qclt_le_weak].
      - replace 1%Qc with (qz 100 * / qz 100)%Qc by (field; exact Z). apply Qcmult_le_compat_r; [exact H1|now apply Qclt_le_weak]. }
    destruct (B p0 A0 A1) as (a0 & a1). destruct (B p1 B0 B1) as (b0 & b1).
    destruct (Q Hk m _ a0 a1) as (v0 & V0 & W0). destruct (Q Hk m _ b0 b1) as (v1 & V1 & W1).
    exists (v1 - v0)%Qc. unfold iqr_const, percentile. rewrite V0, V1, W0, W1. cbn [bind]. unfold fsub. cbn [fneg fadd]. split; do 2 f_equal; ring.
Qed.
Print Assumptions C130_affine.

Example C130_nonvacuous : nth_element_contract (fun _ v => isort v) /\
  median NaN flt fadd fdiv (Fin (qz 2)) (fun _ v => isort v) (map Fin [qz 5; qz 1; qz 2]) = Ok (Fin (qz 2)) /\
  median NaN flt fadd fdiv (Fin (qz 2)) (fun _ v => isort v) (map Fin (map (fun u => qz (-3) * u + qz 1)%Qc [qz 5; qz 1; qz 2])) = Ok (Fin (qz (-5))) /\
  fvar 0 (map Fin [qz 1; qz 3; qz 5; qz 5]) = Ok (Fin (Q2Qc (11 # 4))).
Proof. split; [|vm_compute; repeat split; do 2 f_equal; apply Qc_is_canon; reflexivity]. exact nth_element_contract_inhabited. Qed.
