(** Properties C23, C24, C25 (scicpp/core/stats.hpp: order statistics). *)
From Coq Require Import ZArith Permutation Sorted.
From Coq Require PrimFloat.
From Verif Require Import Base Functional FunctionalProofs Spec Numeric BaseFl FlFacts Equal EqualFacts RangeManips RangeFacts
  Stats StatsOrder StatsQuantile.
Open Scope nat_scope.

(** C23 *)
Theorem C23_amax_amin_ptp : forall a : list fl, a <> [] -> Forall is_num a ->
  (In (amax NaN flt a) a /\ forall y, In y a -> fle y (amax NaN flt a) = true) /\
  (In (amin NaN flt a) a /\ forall y, In y a -> fle (amin NaN flt a) y = true) /\
  ptp NaN flt fsub a = fsub (amax NaN flt a) (amin NaN flt a).
Proof. exact amax_amin_ptp. Qed.
Print Assumptions C23_amax_amin_ptp.
Theorem C23_empty : amax NaN flt [] = NaN /\ amin NaN flt [] = NaN /\ ptp NaN flt fsub [] = NaN.
Proof. repeat split. Qed.
Example C23_nonvacuous : let a := [Fin (qz 3); NInf; Fin (qz 7); Fin (qz 7); Fin (qz (-2))] in
  Forall is_num a /\ amax NaN flt a = Fin (qz 7) /\ amin NaN flt a = NInf.
Proof. split; [repeat constructor; discriminate|]. split; vm_compute; reflexivity. Qed.

(** C24: for every implementation of std::nth_element meeting its standard contract, and the sorted version [s] of the data
    (which exists and is unique). *)
Theorem C24_sorted_version_exists_unique : forall a, Forall is_num a ->
  (exists s, sorted_version a s) /\ forall s1 s2, sorted_version a s1 -> sorted_version a s2 -> s1 = s2.
Proof. intros a H. split; [now apply sorted_version_exists|]. intros. now apply (sorted_version_unique a). Qed.

Theorem C24_median : forall f a s, nth_element_contract f -> Forall is_num a -> sorted_version a s -> a <> [] ->
  median NaN flt fadd fdiv (Fin (qz 2)) f a =
  Ok (if Nat.odd (length a) then nth (length a / 2) s NaN
      else fdiv (fadd (nth (length a / 2 - 1) s NaN) (nth (length a / 2) s NaN)) (Fin (qz 2))).
Proof. exact median_spec. Qed.
Print Assumptions C24_median.

Theorem C24_median_order_independent : forall f g a b, nth_element_contract f -> nth_element_contract g ->
  Forall is_num a -> Permutation a b ->
  median NaN flt fadd fdiv (Fin (qz 2)) f a = median NaN flt fadd fdiv (Fin (qz 2)) g b.
Proof.
  intros f g a b Hf Hg Ha P. destruct a as [|x a']; [apply Permutation_nil in P; subst b; reflexivity|].
  destruct (sorted_version_exists _ Ha) as [s Hs].
  assert (Hb : Forall is_num b) by (eapply Forall_perm; eauto).
  assert (Hs' : sorted_version b s).
  { destruct Hs as [P1 S1]. split; [eapply perm_trans; [apply Permutation_sym; exact P|exact P1]|exact S1]. }
  rewrite (median_spec f (x :: a') s Hf Ha Hs), (median_spec g b s Hg Hb Hs'), (Permutation_length P); [reflexivity| |discriminate].
  intros ->. apply Permutation_sym, Permutation_nil in P. discriminate.
Qed.
Print Assumptions C24_median_order_independent.

(** nanmedian / tmedian: the median of the selected elements; NaN when nothing is selected. *)
Theorem C24_median_filtered : forall f a p,
  median_filter NaN flt fadd fdiv (Fin (qz 2)) f a p = median NaN flt fadd fdiv (Fin (qz 2)) f (List.filter p a) /\
  ((forall x, In x a -> p x = false) -> median_filter NaN flt fadd fdiv (Fin (qz 2)) f a p = Ok NaN).
Proof.
  intros f a p. unfold median_filter. rewrite filter_scicpp_filter. split; [reflexivity|]. intros H.
  assert (E : List.filter p a = []).
  { clear -H. induction a as [|x a IH]; [reflexivity|]. simpl. rewrite (H x) by (now left). apply IH. intros; apply H; now right. }
  rewrite E. reflexivity.
Qed.
Print Assumptions C24_median_filtered.
Theorem C24_nanmedian : forall f a s, nth_element_contract f -> sorted_version (List.filter not_nan a) s ->
  List.filter not_nan a <> [] ->
  let n := length (List.filter not_nan a) in
  median_filter NaN flt fadd fdiv (Fin (qz 2)) f a not_nan =
  Ok (if Nat.odd n then nth (n / 2) s NaN else fdiv (fadd (nth (n / 2 - 1) s NaN) (nth (n / 2) s NaN)) (Fin (qz 2))).
Proof.
  intros f a s Hf Hs Hne n. unfold median_filter. rewrite filter_scicpp_filter.
  apply (median_spec f _ s Hf); auto. rewrite Forall_forall. intros x Hx. apply filter_In in Hx. destruct Hx as [_ Hx].
  intros ->. discriminate.
Qed.
Print Assumptions C24_nanmedian.

(** For an integer element type the mean of the two middle elements is truncated and the "NaN" of the empty array is 0. *)
Theorem C24_median_integer_refuted : forall f : nat -> list Z -> list Z, f 1 [1; 2]%Z = [1; 2]%Z ->
  median 0%Z Z.ltb Z.add Z.quot 2%Z f [1; 2]%Z = Ok 1%Z /\ median 0%Z Z.ltb Z.add Z.quot 2%Z f [] = Ok 0%Z.
Proof. intros f H. unfold median, median_inplace. cbn [length Nat.eqb Nat.div]. split; [|reflexivity]. simpl. rewrite H. reflexivity. Qed.
Print Assumptions C24_median_integer_refuted.

Example C24_nonvacuous : nth_element_contract (fun _ v => isort v) /\
  let a := [Fin (qz 5); Fin (qz 1); PInf; Fin (qz 2)] in
  Forall is_num a /\ sorted_version a [Fin (qz 1); Fin (qz 2); Fin (qz 5); PInf] /\
  median NaN flt fadd fdiv (Fin (qz 2)) (fun _ v => isort v) a = Ok (Fin (Q2Qc (7 # 2))).
Proof.
  split; [exact nth_element_contract_inhabited|]. split; [repeat constructor; discriminate|]. split.
  - split; [|repeat constructor].
    change [Fin (qz 1); Fin (qz 2); Fin (qz 5); PInf] with (isort [Fin (qz 5); Fin (qz 1); PInf; Fin (qz 2)]). apply isort_perm.
  - vm_compute. reflexivity.
Qed.

(** C25.  [interp_stat s p]: linear interpolation of the sorted data at real position p;
    [mode_position m h p]: p is the position the interpolation mode assigns to h = q(n-1). *)
Theorem C25_quantile_position_partial : forall f, nth_element_contract f ->
  forall a s, sorted_version a (map Fin s) -> s <> [] ->
  forall m q, (0 <= q)%Qc -> (q <= 1)%Qc ->
  exists p, mode_position m (q * qn (length s - 1))%Qc p /\
    (snap_free p -> quantile f m a q = Ok (Fin (interp_stat s p))).
Proof. exact quantile_position. Qed.
Print Assumptions C25_quantile_position_partial.

(** percentile(p) is the quantile p / 100, and iqr is the difference of two percentiles *)
Theorem C25_percentile_iqr_partial : forall f, nth_element_contract f ->
  forall a s, sorted_version a (map Fin s) -> s <> [] -> forall m,
  (forall p, (0 <= p)%Qc -> (p <= qz 100)%Qc -> exists pos, mode_position m (p * qn (length s - 1) / qz 100)%Qc pos /\ (snap_free pos -> percentile f m a p = Ok (Fin (interp_stat s pos)))) /\
  (forall p0 p1 v0 v1, percentile f m a p0 = Ok (Fin v0) -> percentile f m a p1 = Ok (Fin v1) -> iqr_const f m a p0 p1 = Ok (Fin (v1 - v0)%Qc)).
Proof.
  intros f Hf a s Hs Ne m. split.
  - intros p H0 H1. assert (Z : ~ (qz 100 = 0)%Qc) by discriminate. assert (I : (0 < / qz 100)%Qc) by reflexivity.
    destruct (@quantile_position f Hf a s Hs Ne m (p / qz 100)%Qc) as (pos & M & E).
    + unfold Qcdiv. replace 0%Qc with (0 * / qz 100)%Qc by ring. apply Qcmult_le_compat_r; [exact H0|]. now apply Qclt_le_weak.
    + replace 1%Qc with (qz 100 * / qz 100)%Qc by (field; exact Z). unfold Qcdiv. apply Qcmult_le_compat_r; [exact H1|]. now apply Qclt_le_weak.
    + exists pos. split; [|exact E]. replace (p * qn (length s - 1) / qz 100)%Qc with (p / qz 100 * qn (length s - 1))%Qc by (field; exact Z). exact M.
  - intros p0 p1 v0 v1 E0 E1. unfold iqr_const. rewrite E0. cbn [bind]. rewrite E1. reflexivity.
Qed.
Print Assumptions C25_percentile_iqr_partial.

(** LOWER, HIGHER, NEAREST positions are integers: always snap free, so for them the position theorem is unconditional. *)
Theorem C25_quantile_integer_modes : forall f, nth_element_contract f ->
  forall a s, sorted_version a (map Fin s) -> s <> [] ->
  forall m q, m = LOWER \/ m = HIGHER \/ m = NEAREST -> (0 <= q)%Qc -> (q <= 1)%Qc ->
  exists k : nat, mode_position m (q * qn (length s - 1))%Qc (qn k) /\ k < length s /\
    quantile f m a q = Ok (Fin (nth k s 0%Qc)).
Proof. exact quantile_integer_modes. Qed.
Print Assumptions C25_quantile_integer_modes.

Theorem C25_quantile_bounds : forall f, nth_element_contract f ->
  forall a s, sorted_version a (map Fin s) -> s <> [] ->
  forall m q, (0 <= q)%Qc -> (q <= 1)%Qc ->
  exists v, quantile f m a q = Ok (Fin v) /\ fle (amin NaN flt a) (Fin v) = true /\ fle (Fin v) (amax NaN flt a) = true.
Proof. exact quantile_bounds. Qed.
Print Assumptions C25_quantile_bounds.

Theorem C25_quantile_monotone_partial : forall f, nth_element_contract f ->
  forall a s, sorted_version a (map Fin s) -> s <> [] ->
  forall m q1 q2, (0 <= q1)%Qc -> (q1 <= q2)%Qc -> (q2 <= 1)%Qc ->
  (m <> LINEAR \/ (snap_free (q1 * qn (length s - 1))%Qc /\ snap_free (q2 * qn (length s - 1))%Qc)) ->
  (m <> MIDPOINT \/ (Z.of_nat (length s) < 2 ^ 52)%Z) ->
  exists v1 v2, quantile f m a q1 = Ok (Fin v1) /\ quantile f m a q2 = Ok (Fin v2) /\ (v1 <= v2)%Qc.
Proof. exact quantile_monotone. Qed.
Print Assumptions C25_quantile_monotone_partial.

Theorem C25_quantile_ends : forall f, nth_element_contract f ->
  forall a s, sorted_version a (map Fin s) -> s <> [] ->
  forall m, quantile f m a (Q2Qc 0) = Ok (amin NaN flt a) /\ quantile f m a (Q2Qc 1) = Ok (amax NaN flt a).
Proof. exact quantile_ends. Qed.
Print Assumptions C25_quantile_ends.

Theorem C25_quantile_half_is_median : forall f, nth_element_contract f ->
  forall a s, sorted_version a (map Fin s) -> s <> [] -> (Z.of_nat (length s) < 2 ^ 52)%Z ->
  forall m, m = LINEAR \/ m = MIDPOINT ->
  quantile f m a (Q2Qc (1 # 2)) = median NaN flt fadd fdiv (Fin (qz 2)) f a.
Proof. exact quantile_median. Qed.
Print Assumptions C25_quantile_half_is_median.

Theorem C25_quantile_order_independent : forall f g, nth_element_contract f -> nth_element_contract g ->
  forall (x : list Qc) (b : list fl), Permutation (map Fin x) b -> forall m q,
  quantile f m (map Fin x) q = quantile g m b q.
Proof. exact quantile_order_independent. Qed.
Print Assumptions C25_quantile_order_independent.

(** iqr on an rvalue (two successive in-place selections) = iqr on a const array *)
Theorem C25_iqr_rvalue : forall f, nth_element_contract f -> forall (x : list Qc) m r0 r1,
  iqr_rvalue f m (map Fin x) r0 r1 = iqr_const f m (map Fin x) r0 r1.
Proof. exact iqr_rvalue_const. Qed.
Print Assumptions C25_iqr_rvalue.

(** FINDING: a position just below the integer k is recognised as "equal" to k and then truncated to k-1.  With q a hair below
    1/49 the LINEAR quantile of 0,1,...,49 is 0 instead of (almost) 1, below the quantile 1/2 at half that q.
    The real code meets this: (1/49)*49 in binary64 is 1 - 2^-53.
    q49 = (1 - 2^-53)/49, ramp50 = 0, 1, ..., 49. *)
Theorem C25_quantile_snap_refuted : forall f, nth_element_contract f ->
  quantile f LINEAR (map Fin ramp50) q49 = Ok (Fin (Q2Qc 0)) /\
  quantile f LINEAR (map Fin ramp50) (q49 / qz 2)%Qc = Ok (Fin (Q2Qc ((1 # 2) - (1 # (2 ^ 54))))) /\
  (q49 / qz 2 < q49)%Qc /\
  PrimFloat.ltb (PrimFloat.mul (PrimFloat.div (float_of_nat 1) (float_of_nat 49)) (float_of_nat 49)) (float_of_nat 1) = true.
Proof. exact quantile_snap_refuted. Qed.
Print Assumptions C25_quantile_snap_refuted.

Example C25_nonvacuous : sorted_version [Fin (qz 5); Fin (qz 1); Fin (qz 2)] (map Fin [qz 1; qz 2; qz 5]) /\
  quantile (fun _ v => isort v) LINEAR [Fin (qz 5); Fin (qz 1); Fin (qz 2)] (Q2Qc (3 # 4)) = Ok (Fin (Q2Qc (7 # 2))).
Proof.
  split.
  - split; [|repeat constructor].
    change (map Fin [qz 1; qz 2; qz 5]) with (isort [Fin (qz 5); Fin (qz 1); Fin (qz 2)]). apply isort_perm.
  - vm_compute. reflexivity.
Qed.
