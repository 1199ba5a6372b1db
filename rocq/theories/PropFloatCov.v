(** C128: the covariance of two data sets in floating point. *)
From Coq Require Import List Arith ZArith Reals Bool.
From Flocq Require Import Core.
From Verif Require Import Base Functional FunctionalProofs Numeric Stats PairwiseError FloatArith FloatArithFacts PropFloatArith FloatVar FloatVarFacts FloatCovFacts PropFloatVar FloatUnits PropFloatUnits.
From Coq Require Import Lra Psatz Lia.
Import ListNotations.
Open Scope R_scope.

(** the exact covariance, with [ddof] degrees of freedom removed *)
Definition exact_cov (ddof : Z) (a b : list R) : R :=
  total (map (fun z => (fst z - exact_mean a) * (snd z - exact_mean b)) (combine a b)) / IZR (Z.of_nat (length a) - ddof).
Lemma exact_cov_eq ddof a b : length a = length b -> exact_cov ddof a b = scodev (combine a b) / IZR (Z.of_nat (length a) - ddof).
Proof.
  intros H. unfold exact_cov, scodev, codev, avg, exact_mean, total, Rsum. do 2 f_equal.
  assert (XA : xs (combine a b) = a). { unfold xs. clear -H. revert b H. induction a as [|x a IH]; intros [|y b] H; try discriminate; [reflexivity|]. cbn in *. f_equal. apply IH. lia. }
  assert (YB : ys (combine a b) = b). { unfold ys. clear -H. revert b H. induction a as [|x a IH]; intros [|y b] H; try discriminate; [reflexivity|]. cbn in *. f_equal. apply IH. lia. }
  now rewrite XA, YB.
Qed.

(** For at most 64 * 2^L pairs of magnitude at most (Mx, My), with px and py the blurs of the two standard deviations due to the rounding of the means: the computed covariance is
    within gamma(68 + 2 L) (sigma_x + px) (sigma_y + py) + sigma_x py + px sigma_y + px py of the exact one. *)
Theorem C128_covariance : forall (prec : Z) (ties : Z -> bool) (nan inf : R) (ddof : Z) (a b : list R) (L : nat) (Mx My : R),
  (0 < prec)%Z -> a <> [] -> length a = length b -> (length a <= 64 * 2 ^ L)%nat -> (Z.of_nat (length a) <= 2 ^ prec)%Z -> (0 < Z.of_nat (length a) - ddof <= 2 ^ prec)%Z ->
  Forall (in_flx prec) a -> Forall (in_flx prec) b -> Forall (fun x => Rabs x <= Mx) a -> Forall (fun y => Rabs y <= My) b ->
  let sigma_x := exact_std ddof a in let sigma_y := exact_std ddof b in
  let blur M := sqrt (INR (L + 1)) * gamma prec (65 + 4 * L) * sqrt (INR (length a) / IZR (Z.of_nat (length a) - ddof)) * M in
  exists c, r_covariance (nearest_flx prec ties) nan inf ddof a b = Ok c /\
    Rabs (c - exact_cov ddof a b) <= gamma prec (68 + 2 * L) * ((sigma_x + blur Mx) * (sigma_y + blur My)) + (sigma_x * blur My + blur Mx * sigma_y + blur Mx * blur My).
Proof.
  intros prec ties nan inf ddof a b L Mx My Hp Ha Hab HL Hn Hnu FA FB BA BB sigma_x sigma_y blur. pose proof (flx_rounding prec ties Hp) as RD.
  assert (HN : forall k, (k <= length a)%nat -> in_flx prec (INR k)) by (intros k Hk; rewrite INR_IZR_INZ; apply flx_integer; lia).
  destruct (cov_err _ _ _ RD nan inf Mx My L ddof a b Hab ltac:(lia) HL Ha FA FB HN (flx_integer prec (Z.of_nat (length a) - ddof) Hp ltac:(lia)) BA BB) as (c & E & B). exists c. split; [exact E|].
  unfold sigma_x, sigma_y. rewrite (exact_cov_eq ddof a b Hab), !exact_std_eq. rewrite <- Hab. eapply Rle_trans; [exact B|]. apply Req_le. unfold errc, blur, kap, mu, gamma, g, uro. replace (L + 1)%nat with (S L) by lia. ring.
Qed.
Print Assumptions C128_covariance.

(** Exchanging the two data sets: no effect, not even in the last bit, for at most 64 pairs ... *)
Theorem C128_swap : forall (prec : Z) (ties : Z -> bool) (nan inf : R) (ddof : Z) (a b : list R), (length a <= 64)%nat ->
  r_covariance (nearest_flx prec ties) nan inf ddof a b = r_covariance (nearest_flx prec ties) nan inf ddof b a.
Proof.
  intros prec ties nan inf ddof a b H. unfold r_covariance, covariance, covariance_filter, require. rewrite (Nat.eqb_sym (length b)). destruct (Nat.eqb_spec (length a) (length b)) as [E|E]; [|reflexivity].
  rewrite <- E. destruct (length a =? 0)%nat; [reflexivity|]. unfold pairwise_accumulate2, require. rewrite <- E, Nat.eqb_refl. cbn [bind].
  rewrite (pairwise_unfold 64 _ _ (combine a b)), (pairwise_unfold 64 _ _ (combine b a)) by lia. rewrite !combine_length, <- E, Nat.min_id. rewrite (proj2 (Nat.leb_le _ _) H). rewrite !block2_eq. cbv zeta.
  assert (SW : forall (a b : list R), length a = length b -> xs (combine a b) = a /\ ys (combine a b) = b).
  { clear. unfold xs, ys. induction a as [|x a IH]; intros [|y b] E; try discriminate; [now split|]. cbn in *. destruct (IH b ltac:(lia)) as [I1 I2]. now rewrite I1, I2. }
  destruct (SW a b E) as [-> ->]. destruct (SW b a (eq_sym E)) as [-> ->]. rewrite !combine_length, <- E, Nat.min_id.
  match goal with |- context [fold_left ?f (combine a b) ?z] => replace (fold_left f (combine a b) z) with (fold_left (fun s w => fl_add (nearest_flx prec ties) s (fl_mul (nearest_flx prec ties) (fl_sub (nearest_flx prec ties) (fst w) (r_mean (nearest_flx prec ties) nan b)) (fl_sub (nearest_flx prec ties) (snd w) (r_mean (nearest_flx prec ties) nan a)))) (combine b a) z) end; [reflexivity|].
  generalize (r_mean (nearest_flx prec ties) nan a) (r_mean (nearest_flx prec ties) nan b). intros m m'. generalize 0. clear H SW. revert b E. induction a as [|x a IH]; intros [|y b] E r; try discriminate; [reflexivity|].
  cbn [combine fold_left fst snd]. replace (fl_mul (nearest_flx prec ties) (fl_sub (nearest_flx prec ties) y m') (fl_sub (nearest_flx prec ties) x m)) with (fl_mul (nearest_flx prec ties) (fl_sub (nearest_flx prec ties) x m) (fl_sub (nearest_flx prec ties) y m')) by (unfold fl_mul; f_equal; ring). apply IH. cbn in E. lia.
Qed.
Print Assumptions C128_swap.

(** ... beyond that it can change the last bits: 65 pairs whose computed covariances, of (a, b) and of (b, a), are neighbouring doubles (the correction for the
    difference of the means of the two halves is n1 n2 / n * dy * dx, multiplied from left to right). *)
Definition halves (x : R) : list R := repeat x 32 ++ repeat 0 33.
Lemma r_mean_const ties nan z n : (1 <= n <= 64)%nat -> (Z.of_nat n * Z.abs z <= 2 ^ 53)%Z -> r_mean (nearest_flx 53 ties) nan (repeat (IZR z) n) = IZR z.
Proof.
  intros Hn Hz. unfold r_mean, mean, mean_filter. rewrite repeat_length. replace (n =? 0)%nat with false by (symmetry; apply Nat.eqb_neq; lia).
  assert (S : sum_filter 0 (fl_add (nearest_flx 53 ties)) false (repeat (IZR z) n) f_all = (IZR (Z.of_nat n * z), n)).
  { unfold sum_filter, filter_reduce_associative, PW_BLOCKSIZE. rewrite pairwise_unfold by lia. rewrite repeat_length, (proj2 (Nat.leb_le n 64)) by lia. rewrite filter_reduce_spec, filter_all, repeat_length. f_equal.
    assert (F : forall k acc, (Z.abs acc + Z.of_nat k * Z.abs z <= 2 ^ 53)%Z -> fold_left (fl_add (nearest_flx 53 ties)) (repeat (IZR z) k) (IZR acc) = IZR (acc + Z.of_nat k * z)).
    { induction k as [|k IH]; intros acc H; [cbn; f_equal; lia|]. cbn [repeat fold_left]. unfold fl_add at 2. rewrite <- plus_IZR, int53 by lia. rewrite IH by lia. f_equal. lia. }
    rewrite (F n 0%Z) by lia. reflexivity. }
  rewrite S. unfold fl_quot, fl_nat. rewrite (INR_IZR_INZ n), (int53 ties (Z.of_nat n)) by lia. rewrite mult_IZR. replace (IZR (Z.of_nat n) * IZR z / IZR (Z.of_nat n)) with (IZR z) by (field; apply IZR_neq; lia). apply int53. nia.
Qed.
Lemma xs_repeat x y n : xs (repeat (x, y) n) = repeat x n. Proof. unfold xs. induction n; cbn; congruence. Qed.
Lemma ys_repeat x y n : ys (repeat (x, y) n) = repeat y n. Proof. unfold ys. induction n; cbn; congruence. Qed.
Lemma block_const ties nan x y n : (1 <= n <= 64)%nat -> (Z.of_nat n * Z.abs x <= 2 ^ 53)%Z -> (Z.of_nat n * Z.abs y <= 2 ^ 53)%Z -> let rnd := nearest_flx 53 ties in
  cov_block 0 nan (fl_add rnd) (fl_sub rnd) (fl_mul rnd) (fl_quot rnd) (fun x => x) (fl_nat rnd) false f_all (repeat (IZR x, IZR y) n) = (IZR x, IZR y, 0, n).
Proof.
  intros Hn Hx Hy rnd. rewrite block2_eq. cbv zeta. rewrite xs_repeat, ys_repeat. unfold rnd. rewrite !r_mean_const by assumption. rewrite repeat_length. f_equal. f_equal.
  induction n as [|n IH] in |- *; [reflexivity|]. cbn [repeat fold_left fst snd]. unfold fl_add at 2, fl_mul, fl_sub. replace (IZR x - IZR x) with (IZR 0) by ring. replace (IZR y - IZR y) with (IZR 0) by ring. rewrite !int53 by lia.
  replace (IZR 0 * IZR 0) with (IZR 0) by ring. rewrite int53 by lia. replace (0 + IZR 0) with (IZR 0) by ring. rewrite int53 by lia. exact IH.
Qed.
Lemma cov_halves ties nan inf x y : (Z.abs x <= 2 ^ 40)%Z -> (Z.abs y <= 2 ^ 40)%Z -> let rnd := nearest_flx 53 ties in
  r_covariance rnd nan inf 1 (halves (IZR x)) (halves (IZR y)) = Ok (rnd (rnd (rnd (rnd (rnd (1056 / 65) * IZR y) * IZR x)) / 64)).
Proof.
  intros Hx Hy rnd. unfold r_covariance, covariance, covariance_filter, require. replace (length (halves (IZR x)) =? length (halves (IZR y)))%nat with true by reflexivity. replace (length (halves (IZR x)) =? 0)%nat with false by reflexivity.
  unfold pairwise_accumulate2, require. replace (length (halves (IZR x)) =? length (halves (IZR y)))%nat with true by reflexivity. cbn [bind].
  replace (combine (halves (IZR x)) (halves (IZR y))) with (repeat (IZR x, IZR y) 32 ++ repeat (IZR 0, IZR 0) 33) by reflexivity. rewrite (pairwise_unfold 64 _ _ (_ ++ _)) by lia.
  replace (length (repeat (IZR x, IZR y) 32 ++ repeat (IZR 0, IZR 0) 33)) with 65%nat by reflexivity. change (65 <=? 64)%nat with false. cbv iota. change (65 / 2)%nat with 32%nat.
  replace (firstn 32 (repeat (IZR x, IZR y) 32 ++ repeat (IZR 0, IZR 0) 33)) with (repeat (IZR x, IZR y) 32) by reflexivity. replace (skipn 32 (repeat (IZR x, IZR y) 32 ++ repeat (IZR 0, IZR 0) 33)) with (repeat (IZR 0, IZR 0) 33) by reflexivity.
  rewrite (pairwise_unfold 64 _ _ (repeat (IZR x, IZR y) 32)), (pairwise_unfold 64 _ _ (repeat (IZR 0, IZR 0) 33)) by lia. rewrite !repeat_length. change (32 <=? 64)%nat with true. change (33 <=? 64)%nat with true. cbv iota.
  unfold rnd. rewrite !block_const by lia. cbn [cov_combine bind omap fst]. change (32 + 33)%nat with 65%nat. unfold fl_nat. rewrite !INR_IZR_INZ. change (Z.of_nat 65 - 1 <=? 0)%Z with false. cbv iota. change (Z.of_nat 65) with 65%Z. change (Z.of_nat 32) with 32%Z. change (Z.of_nat 33) with 33%Z.
  unfold omap, bind. cbn [fst]. f_equal. unfold fl_int. change (65 - 1)%Z with 64%Z. rewrite !(int53 ties 65), !(int53 ties 32), !(int53 ties 33), !(int53 ties 64) by lia. unfold fl_quot, fl_add, fl_mul, fl_sub. rewrite <- mult_IZR. change (32 * 33)%Z with 1056%Z. rewrite (int53 ties 1056) by lia.
  rewrite !Rminus_0_r, Rplus_0_r. rewrite (int53 ties 0), !(int53 ties x), !(int53 ties y), Rplus_0_l by lia. reflexivity.
Qed.
Theorem C128_swap_differs : forall (ties : Z -> bool) (nan inf : R), exists v w : R,
  r_covariance (nearest_flx 53 ties) nan inf 1 (halves 3) (halves 131) = Ok v /\ r_covariance (nearest_flx 53 ties) nan inf 1 (halves 131) (halves 3) = Ok w /\ v = w + bpow radix2 (-46).
Proof.
  intros ties nan inf. eexists. eexists. split; [exact (cov_halves ties nan inf 3 131 ltac:(lia) ltac:(lia))|split; [exact (cov_halves ties nan inf 131 3 ltac:(lia) ltac:(lia))|]].
  assert (E0 : nearest_flx 53 ties (1056 / 65) = 4572885775483888 * bpow radix2 (-48)) by now round_at (-48)%Z 4572885775483888%Z. rewrite E0.
  assert (A1 : nearest_flx 53 ties (4572885775483888 * bpow radix2 (-48) * 131) = 4680062785846792 * bpow radix2 (-41)) by now round_at (-41)%Z 4680062785846792%Z. rewrite A1.
  assert (A2 : nearest_flx 53 ties (4680062785846792 * bpow radix2 (-41) * 3) = 7020094178770188 * bpow radix2 (-40)) by now round_at (-40)%Z 7020094178770188%Z. rewrite A2.
  assert (B1 : nearest_flx 53 ties (4572885775483888 * bpow radix2 (-48) * 3) = 6859328663225832 * bpow radix2 (-47)) by now round_at (-47)%Z 6859328663225832%Z. rewrite B1.
  assert (B2 : nearest_flx 53 ties (6859328663225832 * bpow radix2 (-47) * 131) = 7020094178770187 * bpow radix2 (-40)) by now round_at (-40)%Z 7020094178770187%Z. rewrite B2.
  assert (A3 : nearest_flx 53 ties (nearest_flx 53 ties (7020094178770188 * bpow radix2 (-40)) / 64) = 7020094178770188 * bpow radix2 (-46)).
  { rewrite (id53 ties (7020094178770188 * bpow radix2 (-40))) by (apply dyadic53; lia). now round_at (-46)%Z 7020094178770188%Z. }
  assert (B3 : nearest_flx 53 ties (nearest_flx 53 ties (7020094178770187 * bpow radix2 (-40)) / 64) = 7020094178770187 * bpow radix2 (-46)).
  { rewrite (id53 ties (7020094178770187 * bpow radix2 (-40))) by (apply dyadic53; lia). now round_at (-46)%Z 7020094178770187%Z. }
  rewrite A3, B3. ring.
Qed.
Print Assumptions C128_swap_differs.

(** The covariance matrix: its diagonal holds the variances, both other entries the same covariance, none of them recomputed. *)
Theorem C128_matrix : forall (prec : Z) (ties : Z -> bool) (nan inf : R) (ddof : Z) (a b : list R) (v1 c v2 : R),
  r_var (nearest_flx prec ties) nan inf ddof a = Ok v1 -> r_covariance (nearest_flx prec ties) nan inf ddof a b = Ok c -> r_var (nearest_flx prec ties) nan inf ddof b = Ok v2 ->
  r_cov (nearest_flx prec ties) nan inf ddof a b = Ok (v1, c, c, v2).
Proof.
  intros prec ties nan inf ddof a b v1 c v2. unfold r_var, var, r_covariance, covariance, r_cov, cov. intros H1 H2 H3.
  destruct (covariance_filter _ _ _ _ _ _ _ _ _ _ _ _ _ a b _) as [[c' k]| | | ]; try discriminate. cbn [omap bind fst] in *. injection H2 as ->.
  destruct (var_filter _ _ _ _ _ _ _ _ _ _ _ _ _ _ a _) as [[w1 k1]| | | ]; try discriminate. cbn [omap bind fst] in *. injection H1 as ->.
  destruct (var_filter _ _ _ _ _ _ _ _ _ _ _ _ _ _ b _) as [[w2 k2]| | | ]; try discriminate. cbn [omap bind fst] in *. now injection H3 as ->.
Qed.
Print Assumptions C128_matrix.

Example C128_nonvacuous : exists c, r_covariance (nearest_flx 53 (fun _ => true)) 0 0 1 [1; 2; 4] [3; -1; 5] = Ok c /\ Forall (in_flx 53) [1; 2; 4] /\ Forall (in_flx 53) [3; -1; 5].
Proof.
  assert (F : Forall (in_flx 53) [1; 2; 4]) by (repeat (apply Forall_cons; [apply flx_integer; lia|]); apply Forall_nil).
  assert (G : Forall (in_flx 53) [3; -1; 5]) by (repeat (apply Forall_cons; [apply flx_integer; lia|]); apply Forall_nil).
  destruct (C128_covariance 53 (fun _ => true) 0 0 1 [1; 2; 4] [3; -1; 5] 0 4 5) as (c & E & _); try (cbn; lia); try discriminate; [exact F|exact G| | |exists c; auto].
  - repeat (apply Forall_cons; [rewrite Rabs_pos_eq; lra|]). apply Forall_nil.
  - repeat (apply Forall_cons; [apply Rabs_le; lra|]). apply Forall_nil.
Qed.
