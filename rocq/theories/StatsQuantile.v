(** Quantiles: proofs about quantile_inplace (Stats.v) *)
From Coq Require Import ZArith Permutation Sorted.
From Coq Require PrimFloat.
From Verif Require Import Base Functional FunctionalProofs Spec Numeric BaseFl FlFacts Equal EqualFacts RangeManips RangeFacts Stats StatsOrder.
Open Scope nat_scope.

(** *** Specification: piecewise linear interpolation of the sorted data at real position h *)
Definition interp_stat (s : list Qc) (h : Qc) : Qc :=
  let k := Z.to_nat (qfloor h) in
  (nth k s 0 + (h - qn k) * (nth (k + 1) s 0 - nth k s 0))%Qc.
(** the fuzzy "is an integer" test answers yes only for integers *)
Definition snap_free (h : Qc) : Prop :=
  almost_equal 1 (Fin (qz (nearbyint h))) (Fin h) = true -> exists k : Z, h = qz k.

(** *** arithmetic *)
Lemma qtrunc_spec h : (0 <= h)%Qc -> (qn (qtrunc h) <= h)%Qc /\ (h < qn (qtrunc h) + 1)%Qc.
Proof.
  intros H. unfold qtrunc. rewrite qn_qz, Z2Nat.id by (now apply qfloor_nonneg). apply qfloor_spec.
Qed.
Lemma qfloor_qz z : qfloor (qz z) = z.
Proof. apply qfloor_unique; qc_lra. Qed.
Lemma qfloor_mono x y : (x <= y)%Qc -> (qfloor x <= qfloor y)%Z.
Proof.
  intros H. destruct (qfloor_spec x), (qfloor_spec y).
  assert (A : (qz (qfloor x) < qz (qfloor y + 1))%Qc) by (rewrite qz_add; change (qz 1) with 1%Qc; qc_lra).
  apply qz_lt in A. lia.
Qed.
Lemma qceil_spec x : (x <= qz (qceil x))%Qc /\ (qz (qceil x) < x + 1)%Qc.
Proof. unfold qceil. destruct (qfloor_spec (- x)). rewrite qz_opp. split; qc_lra. Qed.
Lemma qceil_mono x y : (x <= y)%Qc -> (qceil x <= qceil y)%Z.
Proof. intros H. unfold qceil. assert (qfloor (- y) <= qfloor (- x))%Z by (apply qfloor_mono; qc_lra). lia. Qed.
Lemma qceil_qz z : qceil (qz z) = z.
Proof. unfold qceil. rewrite <- qz_opp, qfloor_qz. lia. Qed.

Definition half : Qc := Q2Qc (1 # 2).
Lemma half_eq : (half + half = 1)%Qc. Proof. apply Qc_is_canon. reflexivity. Qed.

Lemma nearbyint_cases x :
  ((x - qz (qfloor x) < half)%Qc /\ nearbyint x = qfloor x) \/
  ((half < x - qz (qfloor x))%Qc /\ nearbyint x = (qfloor x + 1)%Z) \/
  ((x - qz (qfloor x) = half)%Qc /\ Z.Even (nearbyint x) /\ (nearbyint x = qfloor x \/ nearbyint x = (qfloor x + 1)%Z)).
Proof.
  unfold nearbyint. destruct (x - qz (qfloor x) ?= Q2Qc (1 # 2))%Qc eqn:E; unfold Qccompare in E.
  - apply Qeq_alt in E. right; right. split; [now apply Qc_is_canon|].
    destruct (Z.even (qfloor x)) eqn:Ev; [apply Z.even_spec in Ev; auto|].
    split; [|now right]. apply Z.even_spec. rewrite Z.even_add, Ev. reflexivity.
  - apply Qlt_alt in E. left. split; [exact E|reflexivity].
  - apply Qgt_alt in E. right; left. split; [exact E|reflexivity].
Qed.
Lemma nearbyint_qz z : nearbyint (qz z) = z.
Proof.
  destruct (nearbyint_cases (qz z)) as [[H E]|[[H E]|[H E]]]; rewrite qfloor_qz in *.
  - exact E.
  - exfalso. replace (qz z - qz z)%Qc with 0%Qc in H by ring. vm_compute in H. discriminate.
  - exfalso. replace (qz z - qz z)%Qc with 0%Qc in H by ring. apply Qc_eq_iff in H. vm_compute in H. discriminate.
Qed.
Lemma nearbyint_mono x y : (x <= y)%Qc -> (nearbyint x <= nearbyint y)%Z.
Proof.
  intros H. assert (F := qfloor_mono x y H).
  destruct (Z.eq_dec (qfloor x) (qfloor y)) as [E|E].
  - destruct (nearbyint_cases x) as [[Hx Ex]|[[Hx Ex]|[Hx [Vx Ex]]]], (nearbyint_cases y) as [[Hy Ey]|[[Hy Ey]|[Hy [Vy Ey]]]];
      rewrite E in *; try lia; try (exfalso; qc_lra).
    destruct Vx, Vy. lia.
  - destruct (nearbyint_cases x) as [[Hx Ex]|[[Hx Ex]|[Hx [Vx Ex]]]], (nearbyint_cases y) as [[Hy Ey]|[[Hy Ey]|[Hy [Vy Ey]]]]; lia.
Qed.

(** *** The index *)
Lemma interp_index_mono m x y : (x <= y)%Qc -> (quantile_interp_index m x <= quantile_interp_index m y)%Qc.
Proof.
  intros H. destruct m; simpl.
  - rewrite <- qz_le. now apply qfloor_mono.
  - rewrite <- qz_le. now apply qceil_mono.
  - rewrite <- qz_le. now apply nearbyint_mono.
  - assert (H1 := qfloor_mono x y H). assert (H2 := qceil_mono x y H). rewrite qz_le in H1, H2. fold half.
    assert (0 < half)%Qc by reflexivity. qc_nra.
  - exact H.
Qed.
Lemma interp_index_qz m z : quantile_interp_index m (qz z) = qz z.
Proof.
  destruct m; simpl; rewrite ?qfloor_qz, ?qceil_qz, ?nearbyint_qz; try reflexivity. fold half.
  replace (half * (qz z + qz z))%Qc with ((half + half) * qz z)%Qc by ring. rewrite half_eq. ring.
Qed.
Lemma interp_index_range m h N : (0 <= h)%Qc -> (h <= qn N)%Qc ->
  (0 <= quantile_interp_index m h)%Qc /\ (quantile_interp_index m h <= qn N)%Qc.
Proof.
  intros H0 HN. apply (interp_index_mono m) in H0. apply (interp_index_mono m) in HN.
  change 0%Qc with (qz 0) in H0. rewrite interp_index_qz in H0. rewrite qn_qz, interp_index_qz in HN. split; assumption.
Qed.

(** *** interp_stat *)
Definition qsorted (s : list Qc) : Prop := forall i j, i <= j -> j < length s -> (nth i s 0 <= nth j s 0)%Qc.

Lemma interp_stat_nat s k : interp_stat s (qn k) = nth k s 0%Qc.
Proof. unfold interp_stat. rewrite qn_qz, qfloor_qz, Nat2Z.id, <- qn_qz. ring. Qed.

Lemma trunc_lt_next h N : (0 <= h)%Qc -> (h <= qn N)%Qc -> qtrunc h <= N /\ (qtrunc h = N -> h = qn N).
Proof.
  intros H0 HN. destruct (qtrunc_spec h H0) as [A B].
  assert (C : (qn (qtrunc h) <= qn N)%Qc) by qc_lra. rewrite <- qn_le in C. split; [exact C|].
  intros E. rewrite E in A. apply Qcle_antisym; assumption.
Qed.

Lemma interp_stat_seg s h : qsorted s -> (0 <= h)%Qc -> (h <= qn (length s - 1))%Qc -> s <> [] ->
  let k := qtrunc h in (nth k s 0 <= interp_stat s h)%Qc /\ (k + 1 < length s -> (interp_stat s h <= nth (k + 1) s 0)%Qc) /\
    (k + 1 < length s \/ interp_stat s h = nth k s 0%Qc).
Proof.
  intros HS H0 HN Hne k. assert (1 <= length s) by (destruct s; [congruence|simpl; lia]).
  destruct (trunc_lt_next h _ H0 HN) as [Hk He]. fold k in Hk, He.
  destruct (qtrunc_spec h H0) as [A B]. fold k in A, B.
  unfold interp_stat. fold (qtrunc h). fold k.
  destruct (Nat.eq_dec k (length s - 1)) as [E|E].
  - assert (Hh : h = qn k) by (rewrite E; auto). rewrite Hh.
    replace (qn k - qn k)%Qc with 0%Qc by ring.
    replace (nth k s 0 + 0 * (nth (k + 1) s 0 - nth k s 0))%Qc with (nth k s 0%Qc) by ring.
    split; [apply Qcle_refl|]. split; [lia|now right].
  - assert (Hle : (nth k s 0 <= nth (k + 1) s 0)%Qc) by (apply HS; lia).
    revert Hle. generalize (nth k s 0%Qc) as u. generalize (nth (k+1) s 0%Qc) as v. intros v u Hle.
    split; [qc_nra|]. split; [intros _; qc_nra|left; lia].
Qed.

Lemma interp_stat_mono s h1 h2 : qsorted s -> s <> [] -> (0 <= h1)%Qc -> (h1 <= h2)%Qc -> (h2 <= qn (length s - 1))%Qc ->
  (interp_stat s h1 <= interp_stat s h2)%Qc.
Proof.
  intros HS Hne H0 H12 HN.
  assert (H02 : (0 <= h2)%Qc) by qc_lra. assert (H1N : (h1 <= qn (length s - 1))%Qc) by qc_lra.
  destruct (interp_stat_seg s h1 HS H0 H1N Hne) as (A1 & B1 & C1).
  destruct (interp_stat_seg s h2 HS H02 HN Hne) as (A2 & B2 & C2).
  assert (K : qtrunc h1 <= qtrunc h2).
  { unfold qtrunc. apply Z2Nat.inj_le; [now apply qfloor_nonneg|now apply qfloor_nonneg|now apply qfloor_mono]. }
  destruct (Nat.eq_dec (qtrunc h1) (qtrunc h2)) as [E|E].
  - destruct C1 as [C1|C1]; [|rewrite C1, E; exact A2].
    destruct (qtrunc_spec h1 H0). destruct (qtrunc_spec h2 H02).
    unfold interp_stat. fold (qtrunc h1) (qtrunc h2). rewrite <- E.
    assert (Hle : (nth (qtrunc h1) s 0 <= nth (qtrunc h1 + 1) s 0)%Qc) by (apply HS; lia).
    revert Hle. generalize (nth (qtrunc h1) s 0%Qc) as u. generalize (nth (qtrunc h1 + 1) s 0%Qc) as v. intros v u Hle.
    qc_nra.
  - destruct (trunc_lt_next h2 _ H02 HN) as [Hk _].
    assert (L : qtrunc h1 + 1 < length s) by lia.
    eapply Qcle_trans; [apply B1; exact L|]. eapply Qcle_trans; [|exact A2]. apply HS; lia.
Qed.

(** *** flerp on finite values *)
Lemma fle_fin a b : fle (Fin a) (Fin b) = qleb a b.
Proof.
  unfold fle. simpl. destruct (qltb_spec a b), (qeqb_spec a b), (qleb_spec a b); simpl; try reflexivity; exfalso; try (subst; qc_lra).
  all: apply n0; apply Qcle_antisym; qc_lra.
Qed.
Lemma flerp_fin a b t : flerp (Fin a) (Fin b) (Fin t) = Fin (a + t * (b - a))%Qc.
Proof.
  rewrite <- qlerp_affine. unfold flerp, qlerp, lerp, f0, f1. rewrite !fle_fin. simpl flt. simpl feq.
  change (Q2Qc 0) with 0%Qc. change (Q2Qc 1) with 1%Qc.
  destruct (_ || _); [reflexivity|]. destruct (qeqb t 1); [reflexivity|]. unfold fsub. simpl.
  fold (b - a)%Qc. destruct (Bool.eqb _ _); [destruct (qltb b _)|destruct (qltb _ b)]; reflexivity.
Qed.

(** *** quantile *)
Lemma is_num_map s : Forall is_num (map Fin s).
Proof. rewrite Forall_forall. intros x Hx. apply in_map_iff in Hx. destruct Hx as (y & <- & _). unfold is_num. discriminate. Qed.

Section Quantile.
Variable f : nat -> list fl -> list fl.
Hypothesis HC : nth_element_contract f.
Variables (a : list fl) (s : list Qc).
Hypothesis HS : sorted_version a (map Fin s).

Lemma len_as : length a = length s.
Proof. destruct HS as [P _]. apply Permutation_length in P. now rewrite map_length in P. Qed.
Lemma a_num : Forall is_num a.
Proof. destruct HS as [P _]. eapply Forall_perm; [apply Permutation_sym; exact P|apply is_num_map]. Qed.
Lemma s_sorted : qsorted s.
Proof.
  destruct HS as [_ S]. clear -S. induction s as [|x l IH]; intros i j Hij Hj; [simpl in Hj; lia|].
  inversion S; subst. destruct i, j; simpl in *; try lia.
  - apply Qcle_refl.
  - rewrite Forall_forall in H2. specialize (H2 (Fin (nth j l 0%Qc))).
    assert (I : In (Fin (nth j l 0%Qc)) (map Fin l)) by (apply in_map, nth_In; lia).
    specialize (H2 I). unfold fleP in H2. rewrite fle_fin in H2. now apply qleb_le.
  - apply IH; [assumption|lia|lia].
Qed.

Lemma select n : n < length s -> exists r, f n a = r /\ nth_error r n = Some (Fin (nth n s 0%Qc)) /\
  (n = 0 \/ exists x t, firstn n r = x :: t /\ max_element flt x t = Fin (nth (n - 1) s 0%Qc)).
Proof.
  intros Hn. destruct (nth_element_selects f a (map Fin s) n HC a_num HS) as (x & E1 & E2 & E3 & E4); [now rewrite len_as|].
  exists (f n a). split; [reflexivity|].
  assert (Hnth : forall k, k < length s -> nth_error (map Fin s) k = Some (Fin (nth k s 0%Qc))).
  { intros k Hk. rewrite nth_error_map, (nth_error_nth' s 0%Qc Hk). reflexivity. }
  rewrite Hnth in E2 by exact Hn. injection E2 as <-. split; [exact E1|].
  destruct n as [|n]; [now left|right].
  destruct (firstn (S n) (f (S n) a)) as [|y t] eqn:Ef; [simpl in E4; lia|]. exists y, t. split; [reflexivity|].
  specialize (E3 y t eq_refl). rewrite Hnth in E3 by lia. now injection E3.
Qed.

Lemma index_range m q : (0 <= q)%Qc -> (q <= 1)%Qc ->
  (0 <= quantile_interp_index m (q * qn (length s - 1)))%Qc /\
  (quantile_interp_index m (q * qn (length s - 1)) <= qn (length s - 1))%Qc.
Proof. intros H0 H1. assert (N := qn_nonneg (length s - 1)). apply interp_index_range; qc_nra. Qed.

Lemma quantile_exact m q : (0 <= q)%Qc -> (q <= 1)%Qc -> s <> [] ->
  let h := quantile_interp_index m (q * qn (length s - 1))%Qc in
  quantile f m a q = Ok (Fin (if almost_equal 1 (Fin (qz (nearbyint h))) (Fin h)
                              then nth (qtrunc h) s 0%Qc else interp_stat s h)).
Proof.
  intros H0 H1 Hne h. destruct (index_range m q H0 H1) as [R0 R1]. fold h in R0, R1.
  assert (L1 : 1 <= length s) by (destruct s; [congruence|simpl; lia]).
  unfold quantile, quantile_inplace, require.
  rewrite (proj2 (qleb_le 0 q) H0), (proj2 (qleb_le q 1) H1). cbn [andb]. rewrite !len_as.
  destruct (Nat.eqb_spec (length s) 0) as [E|_]; [lia|].
  destruct (Nat.eqb_spec (length s) 1) as [E|E].
  - assert (Hh : h = qn 0).
    { rewrite E in R1. change (1 - 1) with 0 in R1. rewrite qn_0 in *. now apply Qcle_antisym. }
    rewrite Hh, interp_stat_nat. unfold qtrunc. rewrite qn_qz, qfloor_qz. simpl Z.to_nat.
    destruct HS as [P _]. destruct s as [|x [|y l]]; try (simpl in E; lia).
    simpl in P. apply Permutation_sym, Permutation_length_1_inv in P. rewrite P. destruct (almost_equal _ _ _); reflexivity.
  - fold h. destruct (almost_equal 1 (Fin (qz (nearbyint h))) (Fin h)) eqn:Ea.
    + destruct (trunc_lt_next h _ R0 R1) as [Hk _].
      rewrite Nat.min_l by lia. destruct (select (qtrunc h)) as (r & -> & Hr & _); [lia|].
      unfold at_ub. now rewrite Hr.
    + assert (Hni : qtrunc h <> length s - 1).
      { intros C. destruct (trunc_lt_next h _ R0 R1) as [_ Hh]. rewrite (Hh C), qn_qz, nearbyint_qz in Ea.
        unfold almost_equal in Ea. rewrite fp_equal_refl in Ea by apply tol64_nonneg. discriminate. }
      destruct (trunc_lt_next h _ R0 R1) as [Hk _].
      rewrite Nat.min_l by lia. destruct (select (qtrunc h + 1)) as (r & -> & Hr & Hm); [lia|].
      destruct Hm as [Hm|(x & t & Ef & Em)]; [lia|]. rewrite Ef, Em. unfold at_ub. rewrite Hr. cbn [bind].
      rewrite flerp_fin. do 2 f_equal. unfold interp_stat. fold (qtrunc h).
      replace (qtrunc h + 1 - 1) with (qtrunc h) by lia. reflexivity.
Qed.

Lemma quantile_cases m q : (0 <= q)%Qc -> (q <= 1)%Qc -> s <> [] ->
  let h := quantile_interp_index m (q * qn (length s - 1))%Qc in
  quantile f m a q = Ok (Fin (interp_stat s h)) \/
  (~ snap_free h /\ quantile f m a q = Ok (Fin (nth (qtrunc h) s 0%Qc))).
Proof.
  intros H0 H1 Hne h. rewrite (quantile_exact m q H0 H1 Hne). fold h.
  destruct (index_range m q H0 H1) as [R0 R1]. fold h in R0, R1.
  destruct (almost_equal 1 (Fin (qz (nearbyint h))) (Fin h)) eqn:Ea; [|now left].
  destruct (Qc_eq_dec h (qn (qtrunc h))) as [Ez|Ez].
  * left. do 2 f_equal. rewrite Ez at 2. now rewrite interp_stat_nat.
  * right. split; [|reflexivity]. intros SF. destruct (SF Ea) as [k Hk']. apply Ez.
    unfold qtrunc. rewrite Hk', qfloor_qz, qn_qz, Z2Nat.id; [reflexivity|].
    rewrite Hk' in R0. change 0%Qc with (qz 0) in R0. now rewrite <- qz_le in R0.
Qed.

Lemma quantile_snap_free m q : (0 <= q)%Qc -> (q <= 1)%Qc -> s <> [] ->
  snap_free (quantile_interp_index m (q * qn (length s - 1))%Qc) ->
  quantile f m a q = Ok (Fin (interp_stat s (quantile_interp_index m (q * qn (length s - 1))%Qc))).
Proof. intros H0 H1 Hne SF. destruct (quantile_cases m q H0 H1 Hne) as [H|[H _]]; [exact H|contradiction]. Qed.
End Quantile.

Lemma snap_free_qz z : snap_free (qz z).
Proof. intros _. eauto. Qed.
Lemma snap_free_integer_modes m h : m = LOWER \/ m = HIGHER \/ m = NEAREST -> snap_free (quantile_interp_index m h).
Proof. intros [->|[->| ->]]; apply snap_free_qz. Qed.

(** a half-integer below 2^52 is not mistaken for an integer *)
Lemma snap_free_half k : (0 <= k)%Z -> (k + 1 < 2 ^ 52)%Z -> snap_free (qz k + half)%Qc.
Proof.
  intros H0 HM Ha. exfalso.
  assert (Hf : qfloor (qz k + half) = k).
  { apply qfloor_unique; [|]; assert (0 < half)%Qc by reflexivity; assert (half < 1)%Qc by reflexivity; qc_lra. }
  unfold almost_equal in Ha. apply (fp_equal_finite _ _ _ (tol64_nonneg 1)) in Ha.
  assert (Hr : nearbyint (qz k + half) = k \/ nearbyint (qz k + half) = (k + 1)%Z).
  { destruct (nearbyint_cases (qz k + half)) as [[_ E]|[[_ E]|[_ [_ E]]]]; rewrite Hf in E; lia. }
  assert (Hk : (0 <= qz k)%Qc) by (change 0%Qc with (qz 0); exact (proj1 (qz_le 0 k) H0)).
  assert (Hk2 : (qz k + 1 < qz (2 ^ 52))%Qc).
  { change 1%Qc with (qz 1). rewrite <- qz_add, <- qz_lt. lia. }
  assert (Ht : (tol64 1 * qz (2 ^ 52) = half)%Qc) by (apply Qc_is_canon; reflexivity).
  assert (Hh : (0 < half)%Qc) by reflexivity. assert (Hh1 := half_eq).
  assert (Htp : (0 < tol64 1)%Qc) by reflexivity.
  assert (Ht1 : (tol64 1 < half)%Qc) by reflexivity.
  set (r := nearbyint (qz k + half)) in *.
  assert (Hd : qabsv (qz r - (qz k + half)) = half).
  { destruct Hr as [-> | ->].
    - replace (qz k - (qz k + half))%Qc with (- half)%Qc by ring. reflexivity.
    - rewrite qz_add. change (qz 1) with 1%Qc. rewrite <- half_eq.
      replace (qz k + (half + half) - (qz k + half))%Qc with half by ring. reflexivity. }
  rewrite Hd in Ha.
  assert (Hrb : (0 <= qz r)%Qc /\ (qz r <= qz k + 1)%Qc).
  { destruct Hr as [-> | ->]; rewrite ?qz_add; change (qz 1) with 1%Qc; split; qc_lra. }
  destruct Hrb as [Hrb1 Hrb2].
  destruct (qabsv_spec (qz r)) as [[_ E1]|[C _]]; [|exfalso; clear -C Hrb1; qc_lra].
  destruct (qabsv_spec (qz k + half)) as [[_ E2]|[C _]]; [|exfalso; clear -C Hk Hh; qc_lra].
  rewrite E1, E2 in Ha. set (t := tol64 1) in *. clearbody t. clear Hd Hr Hf HM H0 E1 E2. revert Ha Hk Hk2 Ht Hh Hh1 Htp Ht1 Hrb1 Hrb2. generalize half as hf. intros hf Ha Hk Hk2 Ht Hh Hh1 Htp Ht1 Hrb1 Hrb2.
  destruct (_ || _) eqn:Ec.
  - qc_lra.
  - assert (Hlim : forall z, (z <= qz k + 1)%Qc -> (hf <= t * z)%Qc -> z = qz (2 ^ 52)%Z).
    { intros z Hz Hle. assert (z <= qz (2 ^ 52)%Z)%Qc by qc_lra. apply Qcle_antisym; [assumption|].
      apply Qcnot_lt_le. intros Hlt. assert (t * z < t * qz (2 ^ 52)%Z)%Qc by qc_nra. qc_lra. }
    destruct Ha as [Ha|Ha].
    + apply Hlim in Ha; qc_lra.
    + apply Hlim in Ha; qc_lra.
Qed.

(** *** Statements about the data, for any implementation of nth_element *)
Definition mode_position (m : QuantileInterp) (h p : Qc) : Prop :=
  match m with
  | LOWER => exists k : Z, p = qz k /\ (p <= h)%Qc /\ (h < p + 1)%Qc
  | HIGHER => exists k : Z, p = qz k /\ (h <= p)%Qc /\ (p < h + 1)%Qc
  | NEAREST => exists k : Z, p = qz k /\ (p - half <= h)%Qc /\ (h <= p + half)%Qc
  | MIDPOINT => exists lo hi : Z, (qz lo <= h)%Qc /\ (h < qz lo + 1)%Qc /\ (h <= qz hi)%Qc /\ (qz hi < h + 1)%Qc /\
                                  p = ((qz lo + qz hi) * half)%Qc
  | LINEAR => p = h
  end.
Lemma index_position m h : mode_position m h (quantile_interp_index m h).
Proof.
  destruct m; simpl.
  - exists (qfloor h). destruct (qfloor_spec h). auto.
  - exists (qceil h). destruct (qceil_spec h). auto.
  - exists (nearbyint h). split; [reflexivity|]. destruct (qfloor_spec h). assert (Hh := half_eq).
    destruct (nearbyint_cases h) as [[H1 E]|[[H1 E]|[H1 [_ [E|E]]]]]; rewrite E, ?qz_add; change (qz 1) with 1%Qc;
      split; qc_lra.
  - exists (qfloor h), (qceil h). destruct (qfloor_spec h), (qceil_spec h). repeat split; auto. fold half. ring.
  - reflexivity.
Qed.

Lemma sorted_fin_amin_amax a s : sorted_version a (map Fin s) -> s <> [] ->
  amin NaN flt a = Fin (nth 0 s 0%Qc) /\ amax NaN flt a = Fin (nth (length s - 1) s 0%Qc).
Proof.
  intros HS Hne. assert (HD := a_num a s HS). assert (Hs := s_sorted a s HS). assert (Hl := len_as a s HS).
  assert (L1 : 1 <= length s) by (destruct s; [congruence|simpl; lia]).
  assert (Ha : a <> []) by (intros ->; simpl in Hl; lia).
  destruct (amax_amin_ptp a Ha HD) as ((M1 & M2) & (N1 & N2) & _). destruct HS as [P S].
  assert (In_a : forall k, k < length s -> In (Fin (nth k s 0%Qc)) a).
  { intros k Hk. eapply Permutation_in; [apply Permutation_sym; exact P|]. apply in_map, nth_In. exact Hk. }
  assert (In_s : forall x, In x a -> exists k, k < length s /\ x = Fin (nth k s 0%Qc)).
  { intros x Hx. apply (Permutation_in x P) in Hx. apply in_map_iff in Hx. destruct Hx as (y & <- & Hy).
    apply (In_nth s y 0%Qc) in Hy. destruct Hy as (k & Hk & <-). eauto. }
  split.
  - destruct (In_s _ N1) as (k & Hk & E). rewrite E in *. specialize (N2 _ (In_a 0 ltac:(lia))).
    unfold fleP in N2. rewrite fle_fin in N2. apply qleb_le in N2. f_equal. apply Qcle_antisym; [exact N2|]. apply Hs; lia.
  - destruct (In_s _ M1) as (k & Hk & E). rewrite E in *. specialize (M2 _ (In_a (length s - 1) ltac:(lia))).
    unfold fleP in M2. rewrite fle_fin in M2. apply qleb_le in M2. f_equal. apply Qcle_antisym; [|exact M2]. apply Hs; lia.
Qed.

Lemma quantile_position : forall f, nth_element_contract f -> forall a s, sorted_version a (map Fin s) -> s <> [] ->
  forall m q, (0 <= q)%Qc -> (q <= 1)%Qc ->
  exists p, mode_position m (q * qn (length s - 1))%Qc p /\
    (snap_free p -> quantile f m a q = Ok (Fin (interp_stat s p))).
Proof.
  intros f HC a s HS Hne m q H0 H1. eexists. split; [apply index_position|]. intros SF.
  now apply quantile_snap_free.
Qed.

Lemma quantile_bounds : forall f, nth_element_contract f -> forall a s, sorted_version a (map Fin s) -> s <> [] ->
  forall m q, (0 <= q)%Qc -> (q <= 1)%Qc ->
  exists v, quantile f m a q = Ok (Fin v) /\ fleP (amin NaN flt a) (Fin v) /\ fleP (Fin v) (amax NaN flt a).
Proof.
  intros f HC a s HS Hne m q H0 H1.
  destruct (sorted_fin_amin_amax a s HS Hne) as [-> ->]. assert (Hs := s_sorted a s HS).
  assert (L1 : 1 <= length s) by (destruct s; [congruence|simpl; lia]).
  destruct (index_range s m q H0 H1) as [R0 R1].
  rewrite (quantile_exact f HC a s HS m q H0 H1 Hne). eexists. split; [reflexivity|]. unfold fleP. rewrite !fle_fin, !qleb_le.
  set (h := quantile_interp_index m (q * qn (length s - 1))%Qc) in *.
  destruct (trunc_lt_next h _ R0 R1) as [Hk _].
  destruct (almost_equal _ _ _).
  - split; apply Hs; lia.
  - destruct (interp_stat_seg s h Hs R0 R1 Hne) as (A & B & C). split.
    + eapply Qcle_trans; [|exact A]. apply Hs; lia.
    + destruct C as [C| ->]; [|apply Hs; lia]. eapply Qcle_trans; [apply B; exact C|]. apply Hs; lia.
Qed.

Lemma quantile_monotone : forall f, nth_element_contract f -> forall a s, sorted_version a (map Fin s) -> s <> [] ->
  forall m q1 q2, (0 <= q1)%Qc -> (q1 <= q2)%Qc -> (q2 <= 1)%Qc ->
  (m <> LINEAR \/ (snap_free (q1 * qn (length s - 1))%Qc /\ snap_free (q2 * qn (length s - 1))%Qc)) ->
  (m <> MIDPOINT \/ (Z.of_nat (length s) < 2 ^ 52)%Z) ->
  exists v1 v2, quantile f m a q1 = Ok (Fin v1) /\ quantile f m a q2 = Ok (Fin v2) /\ (v1 <= v2)%Qc.
Proof.
  intros f HC a s HS Hne m q1 q2 H0 H12 H1 HL HM.
  assert (H01 : (q1 <= 1)%Qc) by qc_lra. assert (H02 : (0 <= q2)%Qc) by qc_lra.
  assert (L1 : 1 <= length s) by (destruct s; [congruence|simpl; lia]).
  destruct (index_range s m q1 H0 H01) as [R0 R1]. destruct (index_range s m q2 H02 H1) as [S0 S1].
  assert (SF : forall q, (0 <= q)%Qc -> (q <= 1)%Qc -> (q = q1 \/ q = q2) ->
     snap_free (quantile_interp_index m (q * qn (length s - 1))%Qc)).
  { intros q Hq0 Hq1 Hq. destruct m; try (apply snap_free_integer_modes; tauto).
    - (* MIDPOINT *)
      destruct HM as [HM|HM]; [congruence|]. simpl. fold half. set (h := (q * qn (length s - 1))%Qc).
      assert (Nn := qn_nonneg (length s - 1)).
      assert (Hh0 : (0 <= h)%Qc) by (unfold h; qc_nra). assert (Hh1 : (h <= qn (length s - 1))%Qc) by (unfold h; qc_nra).
      destruct (qfloor_spec h) as [F1 F2]. destruct (qceil_spec h) as [G1 G2].
      assert (Hc : qceil h = qfloor h \/ qceil h = (qfloor h + 1)%Z).
      { assert (A : (qz (qfloor h) <= qz (qceil h))%Qc) by qc_lra.
        assert (B : (qz (qceil h) < qz (qfloor h + 2))%Qc) by (rewrite qz_add; change (qz 2) with (1 + 1)%Qc; qc_lra).
        rewrite <- qz_le in A. rewrite <- qz_lt in B. lia. }
      destruct Hc as [-> | ->].
      + replace (half * (qz (qfloor h) + qz (qfloor h)))%Qc with ((half + half) * qz (qfloor h))%Qc by ring.
        rewrite half_eq, Qcmult_1_l. apply snap_free_qz.
      + rewrite qz_add. change (qz 1) with 1%Qc.
        replace (half * (qz (qfloor h) + (qz (qfloor h) + 1)))%Qc with ((half + half) * qz (qfloor h) + half)%Qc by ring.
        rewrite half_eq, Qcmult_1_l. apply snap_free_half; [now apply qfloor_nonneg|].
        assert (C : (qz (qfloor h) <= qz (Z.of_nat (length s - 1)))%Qc) by (rewrite <- qn_qz; qc_lra).
        rewrite <- qz_le in C. lia.
    - destruct HL as [HL|[S1' S2']]; [congruence|]. destruct Hq as [-> | ->]; assumption. }
  do 2 eexists. split; [apply quantile_snap_free; eauto|]. split; [apply quantile_snap_free; eauto|].
  apply interp_stat_mono; auto; [exact (s_sorted a s HS)|]. apply interp_index_mono.
  assert (Nn := qn_nonneg (length s - 1)). qc_nra.
Qed.

Lemma q00 : (0 <= Q2Qc 0)%Qc. Proof. vm_compute. discriminate. Qed.
Lemma q01 : (Q2Qc 0 <= 1)%Qc. Proof. vm_compute. discriminate. Qed.
Lemma q10 : (0 <= Q2Qc 1)%Qc. Proof. vm_compute. discriminate. Qed.
Lemma q11 : (Q2Qc 1 <= 1)%Qc. Proof. vm_compute. discriminate. Qed.
Lemma qh0 : (0 <= half)%Qc. Proof. vm_compute. discriminate. Qed.
Lemma qh1 : (half <= 1)%Qc. Proof. vm_compute. discriminate. Qed.

Lemma quantile_ends : forall f, nth_element_contract f -> forall a s, sorted_version a (map Fin s) -> s <> [] ->
  forall m, quantile f m a (Q2Qc 0) = Ok (amin NaN flt a) /\ quantile f m a (Q2Qc 1) = Ok (amax NaN flt a).
Proof.
  intros f HC a s HS Hne m. destruct (sorted_fin_amin_amax a s HS Hne) as [-> ->].
  assert (E0 : quantile_interp_index m (Q2Qc 0 * qn (length s - 1))%Qc = qn 0).
  { change (Q2Qc 0) with 0%Qc. rewrite Qcmult_0_l. change 0%Qc with (qz 0). rewrite interp_index_qz. reflexivity. }
  assert (E1 : quantile_interp_index m (Q2Qc 1 * qn (length s - 1))%Qc = qn (length s - 1)).
  { change (Q2Qc 1) with 1%Qc. rewrite Qcmult_1_l, qn_qz, interp_index_qz. reflexivity. }
  split.
  - rewrite (quantile_snap_free f HC a s HS m (Q2Qc 0) q00 q01 Hne).
    + now rewrite E0, interp_stat_nat.
    + rewrite E0. apply snap_free_qz.
  - rewrite (quantile_snap_free f HC a s HS m (Q2Qc 1) q10 q11 Hne).
    + now rewrite E1, interp_stat_nat.
    + rewrite E1, qn_qz. apply snap_free_qz.
Qed.

Lemma fdiv2 x : fdiv (Fin x) (Fin (qz 2)) = Fin (x * half).
Proof.
  assert (E : (/ qz 2)%Qc = half) by (apply Qc_is_canon; reflexivity).
  unfold fdiv. destruct (qeqb_spec (qz 2) 0) as [C|_]; [apply Qc_eq_iff in C; vm_compute in C; discriminate|].
  unfold Qcdiv. now rewrite E.
Qed.

Lemma quantile_median : forall f, nth_element_contract f -> forall a s, sorted_version a (map Fin s) -> s <> [] ->
  (Z.of_nat (length s) < 2 ^ 52)%Z -> forall m, m = LINEAR \/ m = MIDPOINT ->
  quantile f m a half = median NaN flt fadd fdiv (Fin (qz 2)) f a.
Proof.
  intros f HC a s HS Hne HB m Hm.
  assert (L1 : 1 <= length s) by (destruct s; [congruence|simpl; lia]).
  assert (Hl := len_as a s HS).
  rewrite (median_spec f a (map Fin s) HC (a_num a s HS) HS) by (intros ->; simpl in Hl; lia).
  assert (Hh := half_eq). assert (Hn : forall k, k < length s -> nth k (map Fin s) NaN = Fin (nth k s 0%Qc)).
  { intros k Hk. rewrite (nth_indep _ NaN (Fin 0%Qc)) by (rewrite map_length; exact Hk). apply map_nth. }
  destruct (Nat.Even_or_Odd (length a)) as [[k Hk]|[k Hk]]; rewrite Hl in Hk.
  - (* even *)
    assert (Eo : Nat.odd (length a) = false) by (rewrite Hl, Hk, <- Nat.negb_even, Nat.even_mul; reflexivity).
    rewrite Eo. assert (Ed : length a / 2 = k) by (rewrite Hl, Hk, Nat.mul_comm, Nat.div_mul; lia). rewrite Ed.
    assert (Hk1 : 1 <= k) by lia.
    assert (Ei : quantile_interp_index m (half * qn (length s - 1))%Qc = (qz (Z.of_nat (k - 1)) + half)%Qc).
    { assert (Eh : (half * qn (length s - 1) = qz (Z.of_nat (k - 1)) + half)%Qc).
      { rewrite <- qn_qz. replace (length s - 1) with ((k - 1) + (k - 1) + 1) by lia. rewrite !qn_add, qn_1.
        replace (half * (qn (k - 1) + qn (k - 1) + 1))%Qc with ((half + half) * qn (k - 1) + half)%Qc by ring.
        rewrite half_eq. ring. }
      rewrite Eh. destruct Hm as [-> | ->]; [reflexivity|]. simpl. fold half.
      assert (Hf : qfloor (qz (Z.of_nat (k - 1)) + half) = Z.of_nat (k - 1)).
      { apply qfloor_unique; assert (0 < half)%Qc by reflexivity; assert (half < 1)%Qc by reflexivity; qc_lra. }
      assert (Hc : qceil (qz (Z.of_nat (k - 1)) + half) = (Z.of_nat (k - 1) + 1)%Z).
      { unfold qceil. rewrite (qfloor_unique _ (- (Z.of_nat (k - 1) + 1))); [lia| |];
          rewrite qz_opp, qz_add; change (qz 1) with 1%Qc; assert (0 < half)%Qc by reflexivity; assert (half < 1)%Qc by reflexivity; qc_lra. }
      rewrite Hf, Hc, qz_add. change (qz 1) with 1%Qc.
      replace (half * (qz (Z.of_nat (k - 1)) + (qz (Z.of_nat (k - 1)) + 1)))%Qc with ((half + half) * qz (Z.of_nat (k - 1)) + half)%Qc by ring.
      rewrite half_eq. ring. }
    rewrite (quantile_snap_free f HC a s HS m half qh0 qh1 Hne).
    + rewrite Ei, !Hn by lia. unfold interp_stat.
      rewrite (qfloor_unique _ (Z.of_nat (k - 1))) by (assert (0 < half)%Qc by reflexivity; assert (half < 1)%Qc by reflexivity; qc_lra).
      rewrite Nat2Z.id, <- qn_qz. replace (k - 1 + 1) with k by lia. simpl fadd. rewrite fdiv2.
      apply f_equal, f_equal. 
      replace (nth (k - 1) s 0 + (qn (k - 1) + half - qn (k - 1)) * (nth k s 0 - nth (k - 1) s 0))%Qc
        with ((1 - half) * nth (k - 1) s 0 + half * nth k s 0)%Qc by ring.
      replace (1 - half)%Qc with half by (rewrite <- half_eq; ring). ring.
    + rewrite Ei. apply snap_free_half; lia.
  - assert (Eo : Nat.odd (length a) = true) by (rewrite Hl, Hk, <- Nat.negb_even, Nat.even_add, Nat.even_mul; reflexivity).
    rewrite Eo. assert (Ed : length a / 2 = k).
    { rewrite Hl, Hk, Nat.add_comm, Nat.mul_comm, Nat.div_add by lia. reflexivity. }
    rewrite Ed, Hn by lia.
    assert (Ei : quantile_interp_index m (half * qn (length s - 1))%Qc = qn k).
    { assert (Eh : (half * qn (length s - 1) = qn k)%Qc).
      { replace (length s - 1) with (k + k) by lia. rewrite qn_add.
        replace (half * (qn k + qn k))%Qc with ((half + half) * qn k)%Qc by ring. rewrite half_eq. ring. }
      rewrite Eh, qn_qz. apply interp_index_qz. }
    rewrite (quantile_snap_free f HC a s HS m half qh0 qh1 Hne).
    + now rewrite Ei, interp_stat_nat.
    + rewrite Ei, qn_qz. apply snap_free_qz.
Qed.

Lemma sorted_fin_exists (x : list Qc) : exists s, sorted_version (map Fin x) (map Fin s) /\ length s = length x.
Proof.
  destruct (sorted_version_exists (map Fin x) (is_num_map x)) as [t [P S]].
  apply Permutation_sym in P. destruct (Permutation_map_inv _ _ P) as (s & -> & P').
  exists s. split; [split; [apply Permutation_sym; exact P|exact S]|]. symmetry. now apply Permutation_length.
Qed.

Lemma quantile_order_independent : forall f g, nth_element_contract f -> nth_element_contract g ->
  forall (x : list Qc) (b : list fl), Permutation (map Fin x) b -> forall m q,
  quantile f m (map Fin x) q = quantile g m b q.
Proof.
  intros f g Hf Hg x b P m q.
  assert (Hl : length b = length x) by (rewrite <- (Permutation_length P); apply map_length).
  destruct (qleb 0 q && qleb q 1) eqn:E.
  2: { unfold quantile, quantile_inplace, require. now rewrite E. }
  apply andb_true_iff in E. destruct E as [E0 E1]. apply qleb_le in E0, E1.
  destruct x as [|x0 x'].
  { apply Permutation_nil in P. subst b. reflexivity. }
  destruct (sorted_fin_exists (x0 :: x')) as (s & HS & Hls).
  assert (Hne : s <> []) by (destruct s; [simpl in Hls; lia|discriminate]).
  rewrite (quantile_exact f Hf _ s HS m q E0 E1 Hne).
  rewrite (quantile_exact g Hg b s); auto. destruct HS as [P1 S1]. split; [|exact S1].
  eapply perm_trans; [apply Permutation_sym; exact P|exact P1].
Qed.

Lemma iqr_rvalue_const : forall f, nth_element_contract f -> forall (x : list Qc) m r0 r1,
  iqr_rvalue f m (map Fin x) r0 r1 = iqr_const f m (map Fin x) r0 r1.
Proof.
  intros f Hf x m r0 r1. unfold iqr_rvalue, iqr_const. destruct (percentile f m (map Fin x) r0) as [p0| | |]; try reflexivity.
  cbn [bind]. unfold percentile.
  rewrite (quantile_order_independent f f Hf Hf x (quantile_after f m (map Fin x) (r0 / qz 100)%Qc)); [reflexivity|].
  unfold quantile_after. destruct (_ <=? 1); [apply Permutation_refl|].
  destruct (almost_equal _ _ _); apply Hf, is_num_map.
Qed.

Lemma quantile_integer_modes : forall f, nth_element_contract f ->
  forall a s, sorted_version a (map Fin s) -> s <> [] ->
  forall m q, m = LOWER \/ m = HIGHER \/ m = NEAREST -> (0 <= q)%Qc -> (q <= 1)%Qc ->
  exists k : nat, mode_position m (q * qn (length s - 1))%Qc (qn k) /\ k < length s /\
    quantile f m a q = Ok (Fin (nth k s 0%Qc)).
Proof.
  intros f HC a s HS Hne m q Hm H0 H1.
  assert (L1 : 1 <= length s) by (destruct s; [congruence|simpl; lia]).
  destruct (index_range s m q H0 H1) as [R0 R1].
  assert (Hz : exists z, quantile_interp_index m (q * qn (length s - 1))%Qc = qz z).
  { destruct Hm as [->|[->| ->]]; simpl; eauto. }
  destruct Hz as [z Hz]. rewrite Hz in R0, R1. change 0%Qc with (qz 0) in R0. rewrite qn_qz in R1.
  apply qz_le in R0. apply qz_le in R1.
  assert (Ez : qz z = qn (Z.to_nat z)) by (rewrite qn_qz, Z2Nat.id by exact R0; reflexivity).
  exists (Z.to_nat z). split; [rewrite <- Ez, <- Hz; apply index_position|]. split; [lia|].
  rewrite (quantile_snap_free f HC a s HS m q H0 H1 Hne), Hz, Ez, interp_stat_nat; [reflexivity|].
  rewrite Hz. apply snap_free_qz.
Qed.

Definition q49 : Qc := (Q2Qc (1 - (1 # (2 ^ 53))) / qz 49)%Qc.
Definition ramp50 : list Qc := map (fun k => qn k) (seq 0 50).
Fixpoint sortedb (l : list Qc) : bool :=
  match l with x :: ((y :: _) as r) => qleb x y && sortedb r | _ => true end.
Lemma sortedb_spec l : sortedb l = true -> StronglySorted fleP (map Fin l).
Proof.
  intros H. apply Sorted_StronglySorted.
  - intros x y z. unfold fleP. destruct x as [x| | |], y as [y| | |], z as [z| | |]; try (vm_compute; congruence).
    rewrite !fle_fin, !qleb_le. apply Qcle_trans.
  - induction l as [|x [|y r] IH]; [constructor|repeat constructor|].
    cbn [sortedb] in H. apply andb_true_iff in H. destruct H as [H1 H2]. cbn [map]. constructor; [now apply IH|].
    constructor. unfold fleP. now rewrite fle_fin.
Qed.
Lemma ramp50_sorted : sorted_version (map Fin ramp50) (map Fin ramp50).
Proof. split; [apply Permutation_refl|]. apply sortedb_spec. vm_compute. reflexivity. Qed.
Lemma quantile_snap_refuted : forall f, nth_element_contract f ->
  quantile f LINEAR (map Fin ramp50) q49 = Ok (Fin (Q2Qc 0)) /\
  quantile f LINEAR (map Fin ramp50) (q49 / qz 2)%Qc = Ok (Fin (Q2Qc ((1 # 2) - (1 # (2 ^ 54))))) /\
  (q49 / qz 2 < q49)%Qc /\
  PrimFloat.ltb (PrimFloat.mul (PrimFloat.div (float_of_nat 1) (float_of_nat 49)) (float_of_nat 49)) (float_of_nat 1) = true.
Proof.
  intros f HC. assert (Hl : length ramp50 = 50) by reflexivity.
  split; [|split; [|split; vm_compute; reflexivity]].
  - rewrite (quantile_exact f HC _ _ ramp50_sorted LINEAR q49).
    + rewrite Hl. apply f_equal, f_equal, Qc_is_canon. vm_compute. reflexivity.
    + vm_compute; discriminate.
    + vm_compute; discriminate.
    + discriminate.
  - rewrite (quantile_exact f HC _ _ ramp50_sorted LINEAR (q49 / qz 2)%Qc).
    + rewrite Hl. apply f_equal, f_equal, Qc_is_canon. vm_compute. reflexivity.
    + vm_compute; discriminate.
    + vm_compute; discriminate.
    + discriminate.
Qed.
