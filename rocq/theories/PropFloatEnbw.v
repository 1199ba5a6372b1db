(** Property C132: the sums s1, s2 and the noise bandwidth of a window in floating point (signal/windows.hpp).
    The model is Windows.v with rounded operations (unbounded exponent range). *)
From Coq Require Import ZArith Reals Bool.
From Flocq Require Import Core Mult_error Relative.
From Verif Require Import Base Functional FunctionalProofs Numeric Stats Windows FloatArith FloatArithFacts PropFloatArith FloatVarFacts PropFloatVar FloatWindowsFacts PropFloatWindows FloatSpectralErr.
From Verif Require PairwiseError.
From Coq Require Import Lra Psatz Lia.
Open Scope R_scope.

(** windows.hpp:595-613 with every operation rounded *)
Definition r_s1 (rnd : R -> R) (w : list R) : R := s1 0 (fun x y => rnd (x + y)) (fun x y => rnd (x * y)) w.
Definition r_s2 (rnd : R -> R) (w : list R) : R := s2 0 (fun x y => rnd (x + y)) (fun x y => rnd (x * y)) w.
Definition r_enbw (rnd : R -> R) (w : list R) (fs : R) : R := enbw 0 (fun x y => rnd (x + y)) (fun x y => rnd (x * y)) (fun x y => rnd (x / y)) w fs.
(** the textbook value *)
Definition squares (w : list R) : R := total (map (fun x => x * x) w).
Definition bandwidth (w : list R) (fs : R) : R := fs * squares w / (total w * total w).

Section Setup.
Variables (prec : Z) (ties : Z -> bool).
Hypothesis Hp : (0 < prec)%Z.
Notation rnd := (nearest_flx prec ties).
Notation u := (uro prec).
Let RD : rounding u 0 (in_flx prec) rnd := flx_rounding prec ties Hp.
Let Hinv := fun x => nearest_inv prec ties x Hp.
Notation rel := (rel u).
Lemma squares_pos w : 0 <= squares w.
Proof. unfold squares, total. induction w as [|x w IH]; cbn [map fold_right]; [lra|]. pose proof (Rle_0_sqr x) as Q. unfold Rsqr in Q. lra. Qed.
Lemma s2_fold w : forall k s A, 0 <= A -> rel (S k) s A -> rel (S k + length w) (fold_left (fun r v => rnd (r + rnd (v * v))) w s) (A + squares w).
Proof.
  induction w as [|x w IH]; intros k s A HA H; cbn [fold_left length].
  - unfold squares, total. cbn [map fold_right]. rewrite Rplus_0_r, Nat.add_0_r. exact H.
  - replace (A + squares (x :: w)) with (A + x * x + squares w) by (unfold squares, total; cbn [map fold_right]; ring). replace (S k + S (length w))%nat with (S (S k) + length w)%nat by lia.
    pose proof (Rle_0_sqr x) as Q. unfold Rsqr in Q. apply IH; [lra|]. apply (rel_rnd _ _ _ RD Hinv). apply (rel_add (u := u)); [exact HA|exact Q|exact H|].
    apply (rel_weak RD (j := 1)); [lia|]. apply (rel_rnd1 _ _ _ RD Hinv).
Qed.
Lemma r_s2_rel w : rel (S (length w)) (r_s2 rnd w) (squares w).
Proof.
  unfold r_s2, s2, reduce. rewrite filter_reduce_spec, filter_all. cbn [fst]. unfold norm.
  pose proof (s2_fold w 0 0 0 (Rle_refl 0)) as H. rewrite Rplus_0_l in H. apply H. apply (rel_weak RD (j := 0)); [lia|]. apply (rel_0 _ _ _ RD).
Qed.
End Setup.

(** s2: a loop, relative error of one multiplication and n additions whatever the window *)
Theorem C132_s2 : forall (prec : Z) (ties : Z -> bool) (w : list R), (0 < prec)%Z ->
  Rabs (r_s2 (nearest_flx prec ties) w - squares w) <= gamma prec (S (length w)) * squares w.
Proof.
  intros prec ties w Hp. pose proof (flx_rounding prec ties Hp) as RD.
  pose proof (acc_err _ _ _ _ _ _ (rel_acc _ _ _ RD _ _ _ (squares w) (Req_le _ _ (Rabs_pos_eq _ (squares_pos w))) (r_s2_rel prec ties Hp w))) as Q. unfold gamma. unfold FloatArithFacts.g in Q.
  change (uro prec) with (bpow radix2 (- prec)). lra.
Qed.
Print Assumptions C132_s2.

(** enbw: t bounds the relative error of the sum of the window, which is small unless positive and negative samples cancel *)
Theorem C132_enbw : forall (prec : Z) (ties : Z -> bool) (w : list R) (fs : R) (L : nat), (0 < prec)%Z -> Forall (in_flx prec) w -> (length w <= 64 * 2 ^ L)%nat -> total w <> 0 -> 0 <= fs ->
  let t := gamma prec (64 + L) * (total_abs w / Rabs (total w)) in t < 1 ->
  Rabs (r_enbw (nearest_flx prec ties) w fs - bandwidth w fs) <= ((1 + uro prec) ^ (length w + 4) / (1 - t) ^ 2 - 1) * bandwidth w fs.
Proof.
  intros prec ties w fs L Hp HF HL HS Hfs t Ht. pose proof (flx_rounding prec ties Hp) as RD. change (bpow radix2 (- prec)) with (uro prec) in RD.
  change (round radix2 (FLX_exp prec) (Znearest ties)) with (nearest_flx prec ties) in RD. pose proof (fun x => nearest_inv prec ties x Hp) as Hinv.
  set (rnd := nearest_flx prec ties) in *. set (u := uro prec) in *. set (S0 := total w) in *.
  destruct (sum_err _ _ _ _ RD L w HL HF) as [Fs Es]. set (s := r_sum rnd w) in *. assert (E1 : r_s1 rnd w = rnd (s * s)) by reflexivity.
  assert (AS : 0 < Rabs S0) by now apply Rabs_pos_lt.
  assert (T0 : 0 <= t). { unfold t. apply Rmult_le_pos; [unfold gamma; pose proof (pow_R1_Rle (1 + u) (64 + L) ltac:(pose proof (u_pos _ _ _ _ RD); lra)); fold u; lra|]. apply Rmult_le_pos; [|left; now apply Rinv_0_lt_compat]. rewrite total_abs_eq. apply PairwiseError.Rsum_abs_nonneg. }
  assert (ES : Rabs (s / S0 - 1) <= t).
  { replace (s / S0 - 1) with ((s - S0) / S0) by (field; exact HS). unfold Rdiv. rewrite Rabs_mult, Rabs_inv. unfold t. rewrite total_abs_eq. unfold Rdiv. rewrite <- Rmult_assoc.
    apply Rmult_le_compat_r; [left; now apply Rinv_0_lt_compat|]. exact Es. }
  set (rho := s / S0) in *. assert (Er : s = S0 * rho) by (unfold rho; field; exact HS). apply Rabs_le_inv in ES. assert (Rp : 0 < rho) by lra.
  assert (RL : rel u (length w + 4) (r_enbw rnd w fs) (fs * squares w / (s * s))).
  { unfold r_enbw, enbw. change (s1 0 _ _ w) with (r_s1 rnd w). change (s2 0 _ _ w) with (r_s2 rnd w). rewrite E1.
    replace (length w + 4)%nat with (S (S (S (length w)) + 1)) by lia. apply (rel_rnd _ _ _ RD Hinv). apply (rel_div _ _ _ RD).
    - apply (rel_rnd _ _ _ RD Hinv). change (S (length w)) with (0 + S (length w))%nat. apply (rel_mul _ _ _ RD); [apply (rel_0 _ _ _ RD)|apply (r_s2_rel prec ties Hp)].
    - apply (rel_rnd1 _ _ _ RD Hinv). }
  destruct RL as (r & [R1 R2] & ->). unfold FloatArithFacts.g in R1, R2. set (G := (1 + u) ^ (length w + 4)) in *.
  assert (G1 : 1 <= G) by (apply pow_R1_Rle; pose proof (u_pos _ _ _ _ RD); lra). set (B := bandwidth w fs).
  assert (B0 : 0 <= B). { unfold B, bandwidth. apply Rmult_le_pos; [apply Rmult_le_pos; [exact Hfs|apply squares_pos]|]. left. apply Rinv_0_lt_compat. fold S0. nra. }
  replace (fs * squares w / (s * s) * r) with (B * (r / (rho * rho))) by (unfold B, bandwidth; fold S0; rewrite Er; field; repeat split; lra).
  set (D := (1 - t) ^ 2). assert (D0 : 0 < D) by (unfold D; nra).
  assert (U : r / (rho * rho) <= G / D).
  { assert (DR : D <= rho * rho) by (unfold D; nra). unfold Rdiv. apply Rmult_le_compat; [apply Rle_trans with (/ G); [left; apply Rinv_0_lt_compat; lra|exact R1]|left; apply Rinv_0_lt_compat; nra|exact R2|now apply Rinv_le_contravar]. }
  assert (V : D / G <= r / (rho * rho)).
  { apply (Rmult_le_reg_r (rho * rho)); [nra|]. replace (r / (rho * rho) * (rho * rho)) with r by (field; lra). apply Rle_trans with (/ G); [|exact R1].
    replace (D / G * (rho * rho)) with ((D * (rho * rho)) * / G) by (unfold Rdiv; ring). rewrite <- (Rmult_1_l (/ G)) at 2. apply Rmult_le_compat_r; [left; apply Rinv_0_lt_compat; lra|].
    assert (Q : 0 <= (1 - t) * rho <= 1). { split; [nra|]. assert ((1 - t) * rho <= (1 - t) * (1 + t)) by (apply Rmult_le_compat_l; lra). nra. }
    unfold D. replace ((1 - t) ^ 2 * (rho * rho)) with (((1 - t) * rho) * ((1 - t) * rho)) by ring. nra. }
  assert (W : 1 - D / G <= G / D - 1).
  { set (q := D / G) in *. replace (G / D) with (/ q) by (unfold q; field; lra). assert (0 < q) by (unfold q; apply Rdiv_lt_0_compat; lra).
    apply (Rmult_le_reg_r q); [assumption|]. replace ((/ q - 1) * q) with (1 - q) by (field; lra). pose proof (Rle_0_sqr (1 - q)) as K. unfold Rsqr in K. nra. }
  replace (B * (r / (rho * rho)) - B) with (B * (r / (rho * rho) - 1)) by ring. rewrite Rabs_mult, (Rabs_pos_eq B) by exact B0. rewrite Rmult_comm. apply Rmult_le_compat_r; [exact B0|]. apply Rabs_le. lra.
Qed.
Print Assumptions C132_enbw.

(** windows without negative samples: nothing cancels *)
Lemma total_nonneg w : Forall (fun x => 0 <= x) w -> total_abs w = total w.
Proof. unfold total_abs, total. induction 1 as [|x w Hx _ IH]; cbn [map fold_right]; [reflexivity|]. rewrite IH, Rabs_pos_eq by exact Hx. reflexivity. Qed.
Theorem C132_enbw_nonnegative : forall (prec : Z) (ties : Z -> bool) (w : list R) (fs : R) (L : nat), (0 < prec)%Z -> Forall (in_flx prec) w -> (length w <= 64 * 2 ^ L)%nat ->
  Forall (fun x => 0 <= x) w -> 0 < total w -> 0 <= fs -> gamma prec (64 + L) < 1 ->
  Rabs (r_enbw (nearest_flx prec ties) w fs - bandwidth w fs) <= ((1 + uro prec) ^ (length w + 4) / (1 - gamma prec (64 + L)) ^ 2 - 1) * bandwidth w fs.
Proof.
  intros prec ties w fs L Hp HF HL HN HS Hfs Hg. pose proof (C132_enbw prec ties w fs L Hp HF HL ltac:(lra) Hfs) as Q. cbv zeta in Q.
  rewrite (total_nonneg w HN), (Rabs_pos_eq (total w)) in Q by lra. unfold Rdiv at 1 3 in Q. rewrite Rinv_r, Rmult_1_r in Q by lra. exact (Q Hg).
Qed.
Print Assumptions C132_enbw_nonnegative.

(** the boxcar window: with a rate of 1 the result is the number next to 1/M, as long as M * M is a number of the format *)
Lemma ones_loop rnd n : (forall k, (k <= n)%nat -> rnd (INR k) = INR k) -> forall m, (m <= n)%nat -> fold_left (fun r v => rnd (r + v)) (repeat 1 m) 0 = INR m.
Proof.
  intros H m. assert (G : forall j, (j + m <= n)%nat -> fold_left (fun r v => rnd (r + v)) (repeat 1 m) (INR j) = INR (j + m)).
  { induction m as [|m IH]; intros j Hj; cbn [repeat fold_left]; [now rewrite Nat.add_0_r|]. rewrite <- S_INR, H by lia. rewrite IH by lia. f_equal. lia. }
  intros Hm. exact (G 0%nat Hm).
Qed.
Lemma ones_sum rnd n : (forall k, (k <= n)%nat -> rnd (INR k) = INR k) -> r_sum rnd (repeat 1 n) = INR n.
Proof.
  intros H. unfold r_sum, sum, sum_filter, filter_reduce_associative.
  transitivity (INR (length (repeat 1 n))); [|now rewrite repeat_length].
  refine (pairwise_ind PW_BLOCKSIZE _ _ (fun l (r : R * nat) => l = repeat 1 (length l) -> (length l <= n)%nat -> fst r = INR (length l)) _ _ _ (repeat 1 n) _ _); [unfold PW_BLOCKSIZE; lia| | |now rewrite repeat_length|now rewrite repeat_length].
  - intros a _ Ea La. rewrite filter_reduce_spec, filter_all. cbn [fst]. rewrite Ea at 1. now apply (ones_loop rnd n).
  - intros a b [x i] [y j] _ _ IA IB E La. cbn [fst] in *. rewrite app_length in *.
    rewrite repeat_app in E. assert (EA : a = repeat 1 (length a)) by (apply (f_equal (firstn (length a))) in E; rewrite firstn_app, Nat.sub_diag, firstn_all in E; cbn [firstn] in E; rewrite app_nil_r in E; rewrite firstn_app, repeat_length, Nat.sub_diag in E; cbn [firstn] in E; rewrite app_nil_r, firstn_all2 in E by (rewrite repeat_length; lia); exact E).
    assert (EB : b = repeat 1 (length b)) by (rewrite <- EA in E; now apply app_inv_head in E).
    rewrite (IA EA ltac:(lia)), (IB EB ltac:(lia)). unfold fl_add. rewrite <- plus_INR. apply H. lia.
Qed.
Theorem C132_boxcar : forall (prec : Z) (ties : Z -> bool) (M : nat), (0 < prec)%Z -> (1 <= M)%nat -> (Z.of_nat (M * M) <= 2 ^ prec)%Z ->
  r_enbw (nearest_flx prec ties) (repeat 1 M) 1 = nearest_flx prec ties (1 / INR M).
Proof.
  intros prec ties M Hp HM HB. pose proof (flx_rounding prec ties Hp) as RD. change (round radix2 (FLX_exp prec) (Znearest ties)) with (nearest_flx prec ties) in RD.
  assert (I : forall k, (k <= M * M)%nat -> nearest_flx prec ties (INR k) = INR k) by (intros k Hk; apply (rd_id _ _ _ _ RD); rewrite INR_IZR_INZ; apply flx_integer; lia).
  assert (MM : (M <= M * M)%nat) by nia. unfold r_enbw, enbw.
  assert (E1 : s1 0 (fun x y => nearest_flx prec ties (x + y)) (fun x y => nearest_flx prec ties (x * y)) (repeat 1 M) = INR (M * M)).
  { unfold s1, norm. change (sum 0 (fun x y => nearest_flx prec ties (x + y)) false (repeat 1 M)) with (r_sum (nearest_flx prec ties) (repeat 1 M)). rewrite ones_sum by (intros; apply I; lia). rewrite <- mult_INR. apply I. lia. }
  assert (E2 : s2 0 (fun x y => nearest_flx prec ties (x + y)) (fun x y => nearest_flx prec ties (x * y)) (repeat 1 M) = INR M).
  { unfold s2, reduce. rewrite filter_reduce_spec, filter_all. cbn [fst]. unfold norm. rewrite <- (ones_loop (nearest_flx prec ties) M ltac:(intros; apply I; lia) M (le_n M)).
    generalize 0. clear - I HM. assert (O : nearest_flx prec ties (1 * 1) = 1) by (rewrite Rmult_1_r; exact (I 1%nat ltac:(nia))). generalize M at 1 2 as m. induction m as [|m IH]; intros z; cbn [repeat fold_left]; [reflexivity|]. rewrite O. apply IH. }
  rewrite E1, E2, Rmult_1_l, I by lia. f_equal. rewrite mult_INR. assert (0 < INR M) by (apply lt_0_INR; lia). field. lra.
Qed.
Print Assumptions C132_boxcar.
(** so a window can measure less than one bin (by rounding): 1/3 is not a double *)
Theorem C132_one_bin_refuted : forall ties, r_enbw (nearest_flx 53 ties) [1; 1; 1] 1 < 1 / 3.
Proof.
  intros ties. change [1; 1; 1] with (repeat 1 3). rewrite C132_boxcar by (cbn; lia). cbn [INR].
  unfold nearest_flx, round, scaled_mantissa, cexp. rewrite (mag_unique radix2 _ (-1)); [|rewrite Rabs_pos_eq by lra; cbn; lra].
  replace (FLX_exp 53 (-1)) with (-54)%Z by reflexivity. rewrite (Znearest_imp _ _ 6004799503160661).
  - unfold F2R. cbn [Fnum Fexp]. replace (bpow radix2 (-54)) with (/ 18014398509481984) by (cbn; lra). lra.
  - replace (bpow radix2 (- (-54))) with 18014398509481984 by (cbn; lra). apply Rabs_def1; lra.
Qed.
Print Assumptions C132_one_bin_refuted.
(** but it is never less than one bin by more than the roundings *)
Theorem C132_one_bin_partial : forall (prec : Z) (ties : Z -> bool) (w : list R) (fs : R) (L : nat), (0 < prec)%Z -> Forall (in_flx prec) w -> (length w <= 64 * 2 ^ L)%nat -> total w <> 0 -> 0 <= fs ->
  let t := gamma prec (64 + L) * (total_abs w / Rabs (total w)) in t < 1 ->
  (2 - (1 + uro prec) ^ (length w + 4) / (1 - t) ^ 2) * (fs / INR (length w)) <= r_enbw (nearest_flx prec ties) w fs \/ 2 <= (1 + uro prec) ^ (length w + 4) / (1 - t) ^ 2.
Proof.
  intros prec ties w fs L Hp HF HL HS Hfs t Ht. pose proof (C132_enbw prec ties w fs L Hp HF HL HS Hfs Ht) as Q. fold t in Q. set (q := (1 + uro prec) ^ (length w + 4) / (1 - t) ^ 2) in *.
  destruct (Rle_or_lt 2 q) as [K|K]; [now right|left]. apply Rabs_le_inv in Q.
  assert (HN : 0 < INR (length w)). { apply lt_0_INR. destruct w; [now elim HS|cbn; lia]. }
  assert (B : fs / INR (length w) <= bandwidth w fs).
  { assert (CS : total w * total w <= INR (length w) * squares w).
    { clear. unfold total, squares, total. induction w as [|x w IH]; cbn [map fold_right length]; [cbn; lra|]. rewrite S_INR. set (s := fold_right Rplus 0 w) in *. set (q := fold_right Rplus 0 (map _ w)) in *. set (n := INR (length w)) in *.
      assert (N : 0 <= n) by apply pos_INR. destruct (Req_dec n 0) as [Z|Z].
      - assert (s = 0) by (clear IH; unfold n in Z; destruct w; [reflexivity|exfalso; change 0 with (INR 0) in Z; apply INR_eq in Z; discriminate Z]). assert (q = 0) by (unfold n in Z; destruct w; [reflexivity|exfalso; change 0 with (INR 0) in Z; apply INR_eq in Z; discriminate Z]). nra.
      - assert (n * (2 * x * s) <= n * (n * (x * x) + q)). { pose proof (Rle_0_sqr (n * x - s)) as K. unfold Rsqr in K. nra. } assert (2 * x * s <= n * (x * x) + q) by (apply (Rmult_le_reg_l n); lra). nra. }
    unfold bandwidth. assert (P : 0 < total w * total w) by nra. apply (Rmult_le_reg_r (INR (length w) * (total w * total w))); [nra|].
    replace (fs / INR (length w) * (INR (length w) * (total w * total w))) with (fs * (total w * total w)) by (field; lra).
    replace (fs * squares w / (total w * total w) * (INR (length w) * (total w * total w))) with (fs * (INR (length w) * squares w)) by (field; exact HS). now apply Rmult_le_compat_l. }
  apply Rle_trans with ((2 - q) * bandwidth w fs); [apply Rmult_le_compat_l; lra|lra].
Qed.
Print Assumptions C132_one_bin_partial.
(** the flat window of four samples, and one with a negative sample *)
Example C132_nonvacuous : (forall ties, r_enbw (nearest_flx 53 ties) [1; 1; 1; 1] 1 = 1 / 4) /\ gamma 53 64 < 1 / 2 /\
  let w := [-1; 4; 4; -1] in Forall (in_flx 53) w /\ total w = 6 /\ total_abs w = 10 /\ bandwidth w 1 = 17 / 18.
Proof.
  split; [|split].
  - intros ties. change [1; 1; 1; 1] with (repeat 1 4). rewrite C132_boxcar by (cbn; lia). cbn [INR].
    replace (1 / 4) with (1 / (1 + 1 + 1 + 1)) by lra. apply (rd_id _ _ _ _ (flx_rounding 53 ties ltac:(lia))).
    replace (1 / (1 + 1 + 1 + 1)) with (bpow radix2 (-2)) by (cbn; lra). apply generic_format_bpow. cbn. lia.
  - unfold gamma, uro. change (- (53))%Z with (-53)%Z. assert (B : (1 + bpow radix2 (-53)) ^ 64 <= (1 + / 1024) ^ 64).
    { apply pow_incr. split; [pose proof (bpow_gt_0 radix2 (-53)); lra|]. apply Rplus_le_compat_l. change (/ 1024) with (bpow radix2 (-10)). apply bpow_le. lia. }
    assert (C : (1 + / 1024) ^ 64 < 3 / 2).
    { replace 64%nat with (2 * 2 * 2 * 2 * 2 * 2)%nat by reflexivity. rewrite !pow_mult. cbn [pow]. rewrite !Rmult_1_r. set (x := 1 + / 1024). assert (X : x = 1025 / 1024) by (unfold x; lra). clearbody x.
      assert (A1 : 0 <= x * x <= 1002 / 1000) by nra. set (y := x * x) in *. clearbody y. assert (A2 : 0 <= y * y <= 1005 / 1000) by nra. set (z := y * y) in *. clearbody z.
      assert (A3 : 0 <= z * z <= 1011 / 1000) by nra. set (v := z * z) in *. clearbody v. assert (A4 : 0 <= v * v <= 1023 / 1000) by nra. set (w := v * v) in *. clearbody w.
      assert (A5 : 0 <= w * w <= 105 / 100) by nra. set (q := w * w) in *. clearbody q. nra. }
    revert B C. generalize ((1 + bpow radix2 (-53)) ^ 64) ((1 + / 1024) ^ 64). intros a b. clear. lra.
  - cbv zeta. split; [repeat constructor; apply flx_integer; lia|]. unfold bandwidth, squares, total_abs, total. cbn [map fold_right]. rewrite (Rabs_left (-1)), (Rabs_pos_eq 4) by lra. repeat split; lra.
Qed.
