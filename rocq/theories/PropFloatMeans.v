(** Property C134: geometric means and weighted averages in floating point (core/stats.hpp).
    The models are those of the exact statistics with every operation rounded (unbounded exponent range); std::log and std::exp are any
    functions within a relative [eps] of the logarithm and the exponential. *)
From Coq Require Import ZArith Reals Bool.
From Flocq Require Import Core Mult_error Relative.
From Verif Require Import Base Functional FunctionalProofs Numeric Stats StatsReal ConstFacts FloatArith FloatArithFacts PropFloatArith FloatVarFacts PropFloatVar FloatWindowsFacts PropFloatWindows FloatSpectralErr PropFloatUnits.
From Verif Require PairwiseError.
From Coq Require Import Lra Psatz Lia.
Open Scope R_scope.

(** stats.hpp:346-360, plain numbers: exp(mean(log(f))); log is applied to every element *)
Definition r_gmean (rnd logl expl : R -> R) (nan : R) (f : list R) : R :=
  match f with [] => nan | _ => expl (r_mean rnd nan (transform1 logl f)) end.
(** stats.hpp:80-87 *)
Definition r_average (rnd : R -> R) (nan : R) (f w : list R) : outcome R :=
  average 0 nan (fun x y => rnd (x + y)) (fun x y => rnd (x * y)) (fun x y => rnd (x / y)) false f w.

(** with exact operations this is the model of C88 *)
Lemma r_gmean_exact nan c vc f : r_gmean (fun x => x) ln exp nan f = fst (gmean nan c vc f).
Proof.
  destruct f as [|x f]; [reflexivity|]. unfold r_gmean, gmean. assert (Q : fst (map1_same c vc ln (x :: f)) = transform1 ln (x :: f)) by (unfold map1_same; destruct vc; try reflexivity; now destruct c).
  destruct (map1_same c vc ln (x :: f)) as [l f']. cbn [fst] in *. now rewrite Q.
Qed.

(** the product of the data *)
Definition product_of (l : list R) : R := fold_right Rmult 1 l.
Lemma ln_product l : Forall (fun x => 0 < x) l -> 0 < product_of l /\ ln (product_of l) = total (map ln l).
Proof.
  unfold product_of, total. induction 1 as [|x l Hx _ [IH1 IH2]]; cbn [map fold_right]; [split; [lra|apply ln_1]|]. split; [now apply Rmult_lt_0_compat|]. now rewrite ln_mult, IH2.
Qed.
Lemma log_sum (eps : R) (logl : R -> R) l : 0 <= eps -> (forall x, 0 < x -> Rabs (logl x - ln x) <= eps * Rabs (ln x)) -> Forall (fun x => 0 < x) l ->
  Rabs (total (map logl l) - total (map ln l)) <= eps * total_abs (map ln l) /\ total_abs (map logl l) <= (1 + eps) * total_abs (map ln l).
Proof.
  intros He Hl. unfold total_abs, total. induction 1 as [|x l Hx _ [I1 I2]]; cbn [map fold_right]; [rewrite Rminus_0_r, Rabs_R0; lra|]. pose proof (Hl x Hx) as Q. split.
  - match goal with |- Rabs (?a + ?b - (?c + ?d)) <= _ => replace (a + b - (c + d)) with ((a - c) + (b - d)) by ring end. eapply Rle_trans; [apply Rabs_triang|]. lra.
  - assert (Rabs (logl x) <= Rabs (ln x) + eps * Rabs (ln x)). { replace (logl x) with (ln x + (logl x - ln x)) by ring. eapply Rle_trans; [apply Rabs_triang|]. lra. } lra.
Qed.

(** The geometric mean: the relative error grows with the average magnitude of the logarithms. [G] is the exact value. *)
Theorem C134_gmean : forall (prec : Z) (ties : Z -> bool) (eps nan : R) (logl expl : R -> R) (x : list R) (L : nat) (G : R), (0 < prec)%Z -> 0 <= eps <= 1 ->
  (forall y, 0 < y -> in_flx prec (logl y) /\ Rabs (logl y - ln y) <= eps * Rabs (ln y)) -> (forall y, Rabs (expl y - exp y) <= eps * exp y) ->
  x <> [] -> (length x <= 64 * 2 ^ L)%nat -> (Z.of_nat (length x) <= 2 ^ prec)%Z -> Forall (fun y => 0 < y) x ->
  0 < G -> G ^ length x = product_of x ->
  let d := (eps + (1 + eps) * gamma prec (65 + L)) * (total_abs (map ln x) / INR (length x)) in
  (1 - eps) * exp (- d) * G <= r_gmean (nearest_flx prec ties) logl expl nan x <= (1 + eps) * exp d * G.
Proof.
  intros prec ties eps nan logl expl x L G Hp [He E1] Hl Hx Ne HL HN HF HG HP d.
  pose proof (flx_rounding prec ties Hp) as RD. change (bpow radix2 (- prec)) with (uro prec) in RD. change (round radix2 (FLX_exp prec) (Znearest ties)) with (nearest_flx prec ties) in RD.
  set (rnd := nearest_flx prec ties) in *. set (n := INR (length x)) in *. assert (N0 : 0 < n) by (apply lt_0_INR; destruct x; [contradiction|cbn; lia]).
  assert (EG : G = exp (total (map ln x) / n)).
  { destruct (ln_product x HF) as [P1 P2]. rewrite <- P2, <- HP. rewrite <- Rpower_pow by exact HG. unfold Rpower. rewrite ln_exp. fold n. replace (n * ln G / n) with (ln G) by (field; lra). now rewrite exp_ln. }
  assert (ER : r_gmean rnd logl expl nan x = expl (r_mean rnd nan (map logl x))) by (unfold r_gmean; rewrite transform1_map; destruct x; [contradiction|reflexivity]).
  set (m := r_mean rnd nan (map logl x)) in *.
  assert (EM : Rabs (m - total (map ln x) / n) <= d).
  { assert (FL : Forall (in_flx prec) (map logl x)) by (apply Forall_forall; intros z Hz; apply in_map_iff in Hz; destruct Hz as (y & <- & Hy); apply Hl; rewrite Forall_forall in HF; now apply HF).
    assert (NL : map logl x <> []) by (destruct x; [contradiction|discriminate]).
    pose proof (mean_err _ _ _ _ RD L nan (map logl x) NL ltac:(rewrite map_length; exact HL) FL ltac:(rewrite map_length, INR_IZR_INZ; apply flx_integer; lia)) as Q.
    fold m in Q. rewrite map_length in Q. fold n in Q. rewrite Rplus_0_r in Q. change (PairwiseError.Rsum (map logl x)) with (total (map logl x)) in Q. rewrite <- total_abs_eq in Q.
    destruct (log_sum eps logl x He (fun y Hy => proj2 (Hl y Hy)) HF) as [S1 S2]. set (A := total_abs (map ln x)) in *.
    assert (I0 : 0 < / n) by now apply Rinv_0_lt_compat.
    assert (G0 : 0 <= FloatArithFacts.g (uro prec) (65 + L) - 1) by (pose proof (pow_R1_Rle (1 + uro prec) (65 + L) ltac:(pose proof (u_pos _ _ _ _ RD); lra)); unfold FloatArithFacts.g; lra).
    replace (m - total (map ln x) / n) with ((m - total (map logl x) / n) + (total (map logl x) - total (map ln x)) / n) by (field; lra). eapply Rle_trans; [apply Rabs_triang|].
    unfold Rdiv at 2. rewrite Rabs_mult, (Rabs_pos_eq (/ n)) by lra. apply (Rmult_le_compat_r (/ n)) in S1, S2; [|lra|lra].
    unfold d, gamma. fold A. change ((1 + uro prec) ^ (65 + L)) with (FloatArithFacts.g (uro prec) (65 + L)). set (g := FloatArithFacts.g (uro prec) (65 + L)) in *.
    assert ((g - 1) * (total_abs (map logl x) / n) <= (g - 1) * ((1 + eps) * A * / n)) by (apply Rmult_le_compat_l; assumption). unfold Rdiv in *. lra. }
  rewrite ER. pose proof (Hx m) as X. apply Rabs_le_inv in X, EM. pose proof (exp_pos m) as Em. set (t := total (map ln x) / n) in *. rewrite EG, !Rmult_assoc, <- !exp_plus.
  assert (mono : forall a b, a <= b -> exp a <= exp b) by (intros a b [H|H]; [left; now apply exp_increasing|subst; lra]).
  pose proof (mono (- d + t) m ltac:(lra)). pose proof (mono m (d + t) ltac:(lra)). split.
  - apply Rle_trans with ((1 - eps) * exp m); [apply Rmult_le_compat_l; lra|lra].
  - apply Rle_trans with ((1 + eps) * exp m); [lra|apply Rmult_le_compat_l; lra].
Qed.
Print Assumptions C134_gmean.

(** The geometric mean of one number need not be that number, however exp is implemented: four neighbouring doubles near 2^1000 have logarithms
    that round to at most three doubles. *)
Lemma mean_one (prec : Z) (ties : Z -> bool) nan y : (0 < prec)%Z -> in_flx prec y -> r_mean (nearest_flx prec ties) nan [y] = y.
Proof.
  intros Hp Fy. pose proof (flx_rounding prec ties Hp) as RD. change (round radix2 (FLX_exp prec) (Znearest ties)) with (nearest_flx prec ties) in RD.
  cbv [r_mean mean mean_filter sum_filter length Nat.eqb]. unfold filter_reduce_associative. rewrite pairwise_unfold by (unfold PW_BLOCKSIZE; lia). cbn [length Nat.leb PW_BLOCKSIZE]. rewrite filter_reduce_spec, filter_all. cbn [fst fold_left length].
  unfold fl_add, fl_quot, fl_nat. cbn [INR]. rewrite Rplus_0_l, (rd_id _ _ _ _ RD y) by exact Fy. assert (I1 : nearest_flx prec ties 1 = 1).
  { apply (rd_id _ _ _ _ RD). apply (flx_integer prec 1 Hp). pose proof (Z.pow_pos_nonneg 2 prec). lia. }
  rewrite I1. replace (y / 1) with y by field. now apply (rd_id _ _ _ _ RD).
Qed.
(** numbers of the format between 2^9 and 2^10 are multiples of 2^-43 *)
Lemma grid ties x : 512 <= x <= 1023 -> exists z, nearest_flx 53 ties x = IZR z * bpow radix2 (-43) /\ Rabs (IZR z - x * bpow radix2 43) <= / 2.
Proof.
  intros H. unfold nearest_flx, round, scaled_mantissa, cexp. rewrite (mag_unique radix2 x 10); [|rewrite Rabs_pos_eq by lra; cbn; lra].
  change (FLX_exp 53 10) with (-43)%Z. eexists. split; [reflexivity|]. change (- (-43))%Z with 43%Z. rewrite Rabs_minus_sym. apply Znearest_half.
Qed.
Lemma bpow_nat n : bpow radix2 (Z.of_nat n) = 2 ^ n.
Proof. rewrite bpow_powerRZ, <- pow_powerRZ. reflexivity. Qed.
Lemma ln_bpow n : ln (bpow radix2 (Z.of_nat n)) = IZR (Z.of_nat n) * ln 2.
Proof. rewrite bpow_nat, ln_pow by lra. now rewrite INR_IZR_INZ. Qed.
Lemma ln_2_1000 : ln (4503599627370496 * bpow radix2 948) = 1000 * ln 2.
Proof.
  replace 4503599627370496 with (bpow radix2 52) by (cbn; lra). rewrite <- bpow_plus. change (52 + 948)%Z with 1000%Z. rewrite <- (Z2Nat.id 1000) by lia. apply ln_bpow.
Qed.
Lemma near_1000 (k : Z) : (0 <= k <= 3)%Z -> 512 <= ln ((4503599627370496 + IZR k) * bpow radix2 948) <= 1023 /\
  Rabs (ln ((4503599627370496 + IZR k) * bpow radix2 948) - ln (4503599627370496 * bpow radix2 948)) <= 3 / 4503599627370496.
Proof.
  intros Hk. assert (K : 0 <= IZR k <= 3) by (split; apply IZR_le; lia). set (e := IZR k) in *. clearbody e.
  assert (B0 : 0 < bpow radix2 948) by apply bpow_gt_0.
  pose proof ln_2_1000 as E.
  assert (S : ln ((4503599627370496 + e) * bpow radix2 948) = ln (4503599627370496 * bpow radix2 948) + ln (1 + e / 4503599627370496)).
  { rewrite <- ln_mult; [f_equal; field| |]; [apply Rmult_lt_0_compat; lra|]. assert (0 <= e / 4503599627370496) by (apply Rmult_le_pos; lra). lra. }
  assert (T : 0 <= ln (1 + e / 4503599627370496) <= 3 / 4503599627370496).
  { assert (Q : 0 <= e / 4503599627370496 <= 3 / 4503599627370496) by (unfold Rdiv; split; [apply Rmult_le_pos; lra|apply Rmult_le_compat_r; lra]). set (q := e / 4503599627370496) in *. split.
    - rewrite <- ln_1. destruct (Req_dec q 0) as [->|]; [rewrite Rplus_0_r; lra|left; apply ln_increasing; lra].
    - apply Rle_trans with q; [|apply Q]. rewrite <- (ln_exp q) at 2. assert (1 + q <= exp q) by apply exp_ineq1_le. destruct (Req_dec (1 + q) (exp q)) as [->|]; [lra|left; apply ln_increasing; lra]. }
  assert (L2 : 3 / 5 <= ln 2 <= 1).
  { pose proof e_range as [ER1 ER2]. split.
    - assert (3 < ln (2 ^ 5)); [|rewrite ln_pow in H by lra; replace (INR 5) with 5 in H by (rewrite INR_IZR_INZ; reflexivity); lra].
      rewrite <- (ln_exp 3). apply ln_increasing; [apply exp_pos|]. replace 3 with (1 + 1 + 1) by ring. rewrite !exp_plus. set (x := exp 1) in *. assert (0 < x < 3) by lra. assert (x * x < 9) by nra. nra.
    - rewrite <- (ln_exp 1). left. apply ln_increasing; lra. }
  rewrite S, E. split; [lra|]. replace (1000 * ln 2 + ln (1 + e / 4503599627370496) - 1000 * ln 2) with (ln (1 + e / 4503599627370496)) by ring. rewrite Rabs_pos_eq; lra.
Qed.
Theorem C134_gmean_single_refuted : forall (ties : Z -> bool) (nan : R) (expl : R -> R), exists x, in_flx 53 x /\ 0 < x < bpow radix2 1001 /\
  r_gmean (nearest_flx 53 ties) (fun y => nearest_flx 53 ties (ln y)) expl nan [x] <> x.
Proof.
  intros ties nan expl. pose proof (flx_rounding 53 ties ltac:(lia)) as RD. change (round radix2 (FLX_exp 53) (Znearest ties)) with (nearest_flx 53 ties) in RD.
  set (x := fun k => (4503599627370496 + IZR k) * bpow radix2 948). 
  assert (FX : forall k, (0 <= k <= 3)%Z -> in_flx 53 (x k) /\ 0 < x k < bpow radix2 1001).
  { intros k Hk. assert (K : 0 <= IZR k <= 3) by (split; apply IZR_le; lia). pose proof (bpow_gt_0 radix2 948). split; [|split].
    - unfold x. rewrite <- plus_IZR. apply generic_format_FLX. exists (Float radix2 (4503599627370496 + k) 948); [unfold F2R; cbn [Fnum Fexp]; reflexivity|]. cbn [Fnum]. change (Z.pow radix2 53) with 9007199254740992%Z. lia.
    - unfold x. apply Rmult_lt_0_compat; lra.
    - unfold x. replace (bpow radix2 1001) with (bpow radix2 53 * bpow radix2 948) by (rewrite <- bpow_plus; reflexivity). apply Rmult_lt_compat_r; [assumption|]. cbn. lra. }
  set (l := fun k => nearest_flx 53 ties (ln (x k))).
  assert (GL : forall k, r_gmean (nearest_flx 53 ties) (fun y => nearest_flx 53 ties (ln y)) expl nan [x k] = expl (l k)).
  { intros k. unfold r_gmean. rewrite transform1_map. cbn [map]. fold (l k). f_equal. apply mean_one; [lia|]. apply (rd_fmt _ _ _ _ RD). }
  destruct (Forall_dec (fun k => expl (l k) = x k) ltac:(intros k; apply Req_EM_T) [0; 1; 2; 3]%Z) as [H|H].
  - exfalso. rewrite Forall_forall in H.
    assert (INJ : forall j k, (0 <= j < k)%Z -> (k <= 3)%Z -> l j <> l k).
    { intros j k Hj Hk C. assert (XE : x j = x k). { rewrite <- (H j), <- (H k), C; [reflexivity|cbn; lia|cbn; lia]. } unfold x in XE. pose proof (bpow_gt_0 radix2 948). apply Rmult_eq_reg_r in XE; [|lra]. assert (IE : IZR j = IZR k) by lra. apply eq_IZR in IE. lia. }
    assert (GR : forall k, (0 <= k <= 3)%Z -> exists z, l k = IZR z * bpow radix2 (-43) /\ Rabs (IZR z - 1000 * ln 2 * bpow radix2 43) <= / 2 + 3 / 512).
    { intros k Hk. destruct (near_1000 k Hk) as [N1 N2]. destruct (grid ties (ln (x k)) N1) as (z & Z1 & Z2). exists z. split; [exact Z1|].
      destruct (near_1000 0 ltac:(lia)) as [_ _]. fold (x k) in N2.
      pose proof ln_2_1000 as E.
      rewrite E in N2. replace (IZR z - 1000 * ln 2 * bpow radix2 43) with ((IZR z - ln (x k) * bpow radix2 43) + (ln (x k) - 1000 * ln 2) * bpow radix2 43) by ring.
      eapply Rle_trans; [apply Rabs_triang|]. rewrite Rabs_mult, (Rabs_pos_eq (bpow radix2 43)) by (apply bpow_ge_0). replace (bpow radix2 43) with 8796093022208 in * by (cbn; lra). lra. }
    destruct (GR 0%Z ltac:(lia)) as (z0 & A0 & B0). destruct (GR 1%Z ltac:(lia)) as (z1 & A1 & B1). destruct (GR 2%Z ltac:(lia)) as (z2 & A2 & B2).
    set (c := 1000 * ln 2 * bpow radix2 43) in *. apply Rabs_le_inv in B0, B1, B2.
    assert (D : forall a b : Z, IZR a - c <= / 2 + 3 / 512 -> - (/ 2 + 3 / 512) <= IZR b - c -> (a - b <= 1)%Z). { intros a b Ha Hb. assert (IL : IZR (a - b) < 2) by (rewrite minus_IZR; lra). apply lt_IZR in IL. lia. }
    pose proof (D z0 z1 ltac:(lra) ltac:(lra)). pose proof (D z1 z0 ltac:(lra) ltac:(lra)). pose proof (D z0 z2 ltac:(lra) ltac:(lra)). pose proof (D z2 z0 ltac:(lra) ltac:(lra)). pose proof (D z1 z2 ltac:(lra) ltac:(lra)). pose proof (D z2 z1 ltac:(lra) ltac:(lra)).
    assert (z0 <> z1) by (intros ->; apply (INJ 0%Z 1%Z); [lia|lia|congruence]). assert (z0 <> z2) by (intros ->; apply (INJ 0%Z 2%Z); [lia|lia|congruence]). assert (z1 <> z2) by (intros ->; apply (INJ 1%Z 2%Z); [lia|lia|congruence]). lia.
  - apply Exists_Forall_neg in H; [|intros; apply Req_EM_T || idtac]. 2: { destruct (Req_EM_T (expl (l x0)) (x x0)); [now left|now right]. }
    apply Exists_exists in H. destruct H as (k & Hk & Hn). exists (x k). assert (K3 : (0 <= k <= 3)%Z) by (cbn in Hk; lia). destruct (FX k K3) as [F1 F2]. split; [exact F1|split; [exact F2|]]. now rewrite GL.
Qed.
Print Assumptions C134_gmean_single_refuted.

(** *** weighted averages *)
Lemma total_app a b : total (a ++ b) = total a + total b.
Proof. unfold total. induction a as [|x a IH]; cbn [app fold_right]; [ring|]. rewrite IH. ring. Qed.
Lemma total_le_abs l : Rabs (total l) <= total_abs l.
Proof. unfold total_abs, total. induction l as [|x l IH]; cbn [map fold_right]; [rewrite Rabs_R0; lra|]. eapply Rle_trans; [apply Rabs_triang|]. lra. Qed.
Lemma total_pos w : Forall (fun x => 0 <= x) w -> 0 <= total w.
Proof. unfold total. induction 1; cbn [fold_right]; lra. Qed.
Lemma Forall_part {A} (P : A -> Prop) n l : Forall P l -> Forall P (firstn n l) /\ Forall P (skipn n l).
Proof. intros H. rewrite <- (firstn_skipn n l) in H. now apply Forall_app in H. Qed.
Section Setup.
Variables (prec : Z) (ties : Z -> bool).
Hypothesis Hp : (0 < prec)%Z.
Notation rnd := (nearest_flx prec ties).
Notation u := (uro prec).
Let RD : rounding u 0 (in_flx prec) rnd := flx_rounding prec ties Hp.
Let Hinv := fun x => nearest_inv prec ties x Hp.
Lemma loop_rel w : Forall (fun x => 0 <= x) w -> forall k s A, 0 <= A -> rel u k s A -> rel u (k + length w) (fold_left (fun r v => rnd (r + v)) w s) (A + total w).
Proof.
  induction 1 as [|x w Hx _ IH]; intros k s A HA H; cbn [fold_left length].
  - unfold total. cbn [fold_right]. rewrite Rplus_0_r, Nat.add_0_r. exact H.
  - replace (A + total (x :: w)) with (A + x + total w) by (unfold total; cbn [fold_right]; ring). replace (k + S (length w))%nat with (S k + length w)%nat by lia.
    apply IH; [lra|]. apply (rel_rnd _ _ _ RD Hinv). apply (rel_add (u := u)); [exact HA|exact Hx|exact H|]. apply (rel_weak RD (j := 0)); [lia|]. apply (rel_0 _ _ _ RD).
Qed.
(** the pairwise sum of n <= 64 * 2^L non-negative numbers: one relative rounding per level and 64 in a block *)
Lemma sum_rel_nonneg L : forall w, (length w <= 64 * 2 ^ L)%nat -> Forall (fun x => 0 <= x) w -> rel u (64 + L) (r_sum rnd w) (total w).
Proof.
  induction L as [|L IH]; intros w HL HF; unfold r_sum, sum, sum_filter, filter_reduce_associative in *; rewrite (pairwise_unfold PW_BLOCKSIZE) by (unfold PW_BLOCKSIZE; lia); unfold PW_BLOCKSIZE in *; destruct (Nat.leb_spec (length w) 64) as [B|B].
  1, 3: rewrite filter_reduce_spec, filter_all; cbn [fst]; pose proof (loop_rel w HF 0 0 0 (Rle_refl 0) (rel_0 _ _ _ RD 0)) as Q; rewrite Rplus_0_l in Q; revert Q; apply (rel_weak RD); lia.
  - cbn in HL. lia.
  - assert (D : length w = (length (firstn (length w / 2) w) + length (skipn (length w / 2) w))%nat) by (rewrite <- app_length, firstn_skipn; reflexivity).
    assert (L1 : length (firstn (length w / 2) w) = (length w / 2)%nat) by (rewrite firstn_length; pose proof (Nat.div_le_upper_bound (length w) 2 (length w) ltac:(lia) ltac:(lia)); lia).
    pose proof (Nat.div_mod (length w) 2 ltac:(lia)). pose proof (Nat.mod_upper_bound (length w) 2 ltac:(lia)). cbn [Nat.pow] in HL.
    assert (ET : total w = total (firstn (length w / 2) w) + total (skipn (length w / 2) w)) by (rewrite <- total_app, firstn_skipn; reflexivity). rewrite ET.
    destruct (Forall_part _ (length w / 2) w HF) as [F1 F2].
    pose proof (IH (firstn (length w / 2) w) ltac:(lia) F1) as R1. pose proof (IH (skipn (length w / 2) w) ltac:(lia) F2) as R2.
    destruct (pairwise_accumulate 64 _ _ (firstn (length w / 2) w)) as [x i]. destruct (pairwise_accumulate 64 _ _ (skipn (length w / 2) w)) as [y j]. cbn [fst] in *. unfold fl_add in *.
    replace (64 + S L)%nat with (S (64 + L)) by lia. apply (rel_rnd _ _ _ RD Hinv). apply (rel_add (u := u)); [now apply total_pos|now apply total_pos|exact R1|exact R2].
Qed.
End Setup.
(** the products of values and weights *)
Definition weighted (f w : list R) : list R := map (fun q => fst q * snd q) (combine f w).
(** The weighted average with non-negative weights, against the exact value. *)
Theorem C134_average : forall (prec : Z) (ties : Z -> bool) (nan : R) (f w : list R) (L : nat), (0 < prec)%Z -> length f = length w -> (length f <= 64 * 2 ^ L)%nat ->
  Forall (fun x => 0 <= x) w -> 0 < total w ->
  exists v, r_average (nearest_flx prec ties) nan f w = Ok v /\
    Rabs (v - total (weighted f w) / total w) <= gamma prec (130 + 2 * L) * (total_abs (weighted f w) / total w).
Proof.
  intros prec ties nan f w L Hp Hfw HL HF HW. pose proof (flx_rounding prec ties Hp) as RD. change (bpow radix2 (- prec)) with (uro prec) in RD.
  change (round radix2 (FLX_exp prec) (Znearest ties)) with (nearest_flx prec ties) in RD. pose proof (fun x => nearest_inv prec ties x Hp) as Hinv.
  destruct (inner_err _ _ _ _ RD L f w Hfw HL) as (s & E1 & E2). rewrite Rmult_0_r, Rmult_0_r, Rplus_0_r in E2. change (products f w) with (weighted f w) in E2. change (PairwiseError.Rsum (weighted f w)) with (total (weighted f w)) in E2. rewrite <- total_abs_eq in E2.
  assert (N0 : length f <> 0%nat) by (intros C; rewrite Hfw in C; apply length_zero_iff_nil in C; rewrite C in HW; exact (Rlt_irrefl 0 HW)).
  unfold r_average, average. replace (length f =? 0)%nat with false by (symmetry; now apply Nat.eqb_neq). rewrite Hfw, Nat.eqb_refl. cbn [orb negb].
  change (inner 0 (fun x y => nearest_flx prec ties (x + y)) (fun x y => nearest_flx prec ties (x * y)) f w) with (r_inner (nearest_flx prec ties) f w). rewrite E1. cbn [bind]. eexists. split; [reflexivity|].
  change (sum 0 (fun x y => nearest_flx prec ties (x + y)) false w) with (r_sum (nearest_flx prec ties) w).
  assert (A : acc (uro prec) (65 + L) (total_abs (weighted f w)) 0 s (total (weighted f w))).
  { split; [|split; [lra|rewrite Rmult_0_r, Rplus_0_r; exact E2]]. apply total_le_abs. }
  pose proof (sum_rel_nonneg prec ties Hp L w ltac:(lia) HF) as B. pose proof (acc_err _ _ _ _ _ _ (acc_quot RD A B)) as Q. rewrite Rmult_0_r, Rplus_0_r, (Rabs_pos_eq (total w)) in Q by lra.
  replace (S (65 + L + (64 + L))) with (130 + 2 * L)%nat in Q by lia. exact Q.
Qed.
Print Assumptions C134_average.
(** so the average stays between the extreme values, up to the roundings *)
Lemma weighted_bounds lo hi M : Rabs lo <= M -> Rabs hi <= M -> forall f w, length f = length w -> Forall (fun x => lo <= x <= hi) f -> Forall (fun x => 0 <= x) w ->
  lo * total w <= total (weighted f w) <= hi * total w /\ total_abs (weighted f w) <= M * total w.
Proof.
  intros Hlo Hhi. induction f as [|x f IH]; intros [|y w] HL Hf Hw; try discriminate; unfold weighted, total_abs, total in *; cbn [combine map fold_right fst snd]; [lra|].
  injection HL as HL. inversion_clear Hf as [|? ? Fx Ff]. inversion_clear Hw as [|? ? Wy Ww]. specialize (IH w HL Ff Ww). set (T := fold_right Rplus 0 w) in *. rewrite Rabs_mult, (Rabs_pos_eq y) by exact Wy.
  assert (X : Rabs x <= M). { apply Rabs_le_inv in Hlo, Hhi. apply Rabs_le. lra. }
  pose proof (Rmult_le_compat_r y _ _ Wy (proj1 Fx)). pose proof (Rmult_le_compat_r y _ _ Wy (proj2 Fx)). pose proof (Rmult_le_compat_r y _ _ Wy X). lra.
Qed.
Theorem C134_average_between : forall (prec : Z) (ties : Z -> bool) (nan lo hi M : R) (f w : list R) (L : nat), (0 < prec)%Z -> length f = length w -> (length f <= 64 * 2 ^ L)%nat ->
  Forall (fun x => 0 <= x) w -> 0 < total w -> Forall (fun x => lo <= x <= hi) f -> Rabs lo <= M -> Rabs hi <= M ->
  exists v, r_average (nearest_flx prec ties) nan f w = Ok v /\ lo - gamma prec (130 + 2 * L) * M <= v <= hi + gamma prec (130 + 2 * L) * M.
Proof.
  intros prec ties nan lo hi M f w L Hp Hfw HL HF HW Hf Hlo Hhi. destruct (C134_average prec ties nan f w L Hp Hfw HL HF HW) as (v & E & Q). exists v. split; [exact E|].
  destruct (weighted_bounds lo hi M Hlo Hhi f w Hfw Hf HF) as [[A B] C]. assert (I : 0 < / total w) by now apply Rinv_0_lt_compat. set (g := gamma prec (130 + 2 * L)) in *.
  assert (g0 : 0 <= g) by (unfold g, gamma; pose proof (pow_R1_Rle (1 + uro prec) (130 + 2 * L) ltac:(pose proof (bpow_ge_0 radix2 (- prec)); unfold uro; lra)); lra).
  apply (Rmult_le_compat_r (/ total w)) in A, B, C; try lra. rewrite Rmult_assoc, Rinv_r, Rmult_1_r in A, B, C by lra. fold (total (weighted f w) / total w) in A, B. fold (total_abs (weighted f w) / total w) in C.
  apply Rabs_le_inv in Q. pose proof (Rmult_le_compat_l g _ _ g0 C). lra.
Qed.
Print Assumptions C134_average_between.
(** the average of equal numbers need not be that number, and exceeds the largest one: 0.1 twice, each with the weight 0.1 *)
Theorem C134_average_equal_refuted : forall ties nan, let a := nearest_flx 53 ties (1 / 10) in exists v, r_average (nearest_flx 53 ties) nan [a; a] [a; a] = Ok v /\ a < v.
Proof.
  intros ties nan a. assert (Ea : a = 7205759403792794 * bpow radix2 (-56)) by (unfold a; now round_at (-56)%Z 7205759403792794%Z). clearbody a. subst a.
  unfold r_average, average, inner, inner_op, pairwise_accumulate2, require, sum, sum_filter, filter_reduce_associative. cbn [length Nat.eqb orb negb combine].
  rewrite pairwise_unfold by (unfold PW_BLOCKSIZE; lia). cbn [length Nat.leb PW_BLOCKSIZE]. rewrite pairwise_unfold by (unfold PW_BLOCKSIZE; lia). cbn [length Nat.leb PW_BLOCKSIZE bind]. rewrite filter_reduce_spec, filter_all. cbn [fold_left fst snd length bind].
  set (a := 7205759403792794 * bpow radix2 (-56)). set (rnd := nearest_flx 53 ties).
  assert (P : rnd (a * a) = 5764607523034236 * bpow radix2 (-59)) by (unfold rnd, a; now round_at (-59)%Z 5764607523034236%Z).
  assert (A0 : rnd (0 + a) = a) by (rewrite Rplus_0_l; unfold rnd, a; round_at (-56)%Z 7205759403792794%Z; reflexivity).
  assert (A1 : rnd (a + a) = 7205759403792794 * bpow radix2 (-55)) by (unfold rnd, a; now round_at (-55)%Z 7205759403792794%Z).
  rewrite !P. assert (Q0 : rnd (0 + 5764607523034236 * bpow radix2 (-59)) = 5764607523034236 * bpow radix2 (-59)) by (rewrite Rplus_0_l; unfold rnd; now round_at (-59)%Z 5764607523034236%Z).
  assert (Q1 : rnd (5764607523034236 * bpow radix2 (-59) + 5764607523034236 * bpow radix2 (-59)) = 5764607523034236 * bpow radix2 (-58)) by (unfold rnd; now round_at (-58)%Z 5764607523034236%Z).
  rewrite Q0, Q1, A0, A1. eexists. split; [reflexivity|].
  replace (5764607523034236 * bpow radix2 (-58) / (7205759403792794 * bpow radix2 (-55))) with (5764607523034236 / (7205759403792794 * 8)) by (cbn; lra).
  unfold rnd. round_at (-56)%Z 7205759403792795%Z. unfold a. cbn. lra.
Qed.
Print Assumptions C134_average_equal_refuted.
(** a correctly rounded library, and a weighted average *)
Example C134_nonvacuous : forall ties, (forall y, 0 < y -> in_flx 53 (nearest_flx 53 ties (ln y)) /\ Rabs (nearest_flx 53 ties (ln y) - ln y) <= uro 53 * Rabs (ln y)) /\
  (forall y, Rabs (nearest_flx 53 ties (exp y) - exp y) <= uro 53 * exp y) /\ 0 <= uro 53 <= 1 /\
  (0 < 6 /\ 6 ^ length [4; 9] = product_of [4; 9]) /\
  (total [1; 3] = 4 /\ total (weighted [10; 2] [1; 3]) / total [1; 3] = 4).
Proof.
  intros ties. pose proof (flx_rounding 53 ties ltac:(lia)) as RD. change (bpow radix2 (- (53))) with (uro 53) in RD. change (round radix2 (FLX_exp 53) (Znearest ties)) with (nearest_flx 53 ties) in RD.
  assert (U : 0 <= uro 53 <= 1). { unfold uro. split; [apply bpow_ge_0|]. apply (bpow_le radix2 (- (53)) 0). lia. }
  assert (E : forall y, Rabs (nearest_flx 53 ties y - y) <= uro 53 * Rabs y) by (intros y; pose proof (rd_err _ _ _ _ RD y) as Q; rewrite Rplus_0_r in Q; exact Q).
  split; [intros y _; split; [apply (rd_fmt _ _ _ _ RD)|apply E]|]. split; [intros y; pose proof (E (exp y)) as Q; rewrite (Rabs_pos_eq (exp y)) in Q by (left; apply exp_pos); exact Q|]. split; [exact U|].
  unfold product_of, total, weighted. cbn [combine map fold_right fst snd length pow]. clear. lra.
Qed.
