(** C116: accuracy of sums, products, means, inner products, integrals, polynomials and convolutions in floating point.
    C117: linspace, arange and the indices they are made of in floating point. *)
From Coq Require Import List Arith ZArith Reals Bool.
From Flocq Require Import Core.
From Coq Require PrimFloat.
From Verif Require Import Base Functional Numeric Stats Polynomial Convolve PairwiseError FloatArith FloatArithFacts FloatConvFacts RangeManips RangeFacts FloatRangeFacts.
From Coq Require Import Lra Psatz Lia.
Import ListNotations.
Open Scope nat_scope.

(** A binary floating-point format: precision [prec] (53 for double, 24 for float, 64 for long double), smallest positive number 2^emin (-1074, -149, -16445);
    [nearest ties] rounds to a nearest number of the format, ties going up where [ties] says so. *)
Definition in_format (prec emin : Z) (x : R) : Prop := generic_format radix2 (FLT_exp emin prec) x.
Definition nearest (prec emin : Z) (ties : Z -> bool) (x : R) : R := round radix2 (FLT_exp emin prec) (Znearest ties) x.
(** unit roundoff, and half the smallest positive number *)
Definition uro (prec : Z) : R := bpow radix2 (- prec).
Definition tiny (emin : Z) : R := bpow radix2 (emin - 1).
(** relative error after k roundings *)
Definition gamma (prec : Z) (k : nat) : R := (1 + uro prec) ^ k - 1.
Definition total (l : list R) : R := fold_right Rplus 0%R l.
Definition total_abs (l : list R) : R := total (map Rabs l).
Lemma total_abs_eq l : total_abs l = Rsum_abs l. Proof. apply abs_sum. Qed.

(** Sums of at most 64 * 2^L numbers make at most 64 + L rounding errors in a row (a loop would make one per element); the same for means. *)
Theorem C116_sum_mean : forall (prec emin : Z) (ties : Z -> bool) (a : list R) (L : nat), (0 < prec)%Z -> (emin <= 0)%Z ->
  length a <= 64 * 2 ^ L -> Forall (in_format prec emin) a ->
  let rnd := nearest prec emin ties in
  (Rabs (r_sum rnd a - total a) <= gamma prec (64 + L) * total_abs a)%R /\
  (forall nan, a <> [] -> (Z.of_nat (length a) <= 2 ^ prec)%Z ->
    Rabs (r_mean rnd nan a - total a / INR (length a)) <= gamma prec (65 + L) * (total_abs a / INR (length a)) + tiny emin)%R.
Proof.
  intros prec emin ties a L Hp Hm HL HF rnd. pose proof (flt_rounding prec emin ties Hp) as RD. rewrite total_abs_eq. split.
  - exact (proj2 (sum_err _ _ _ _ RD L a HL HF)).
  - intros nan Ha Hn. apply (mean_err _ _ _ _ RD L nan a Ha HL HF). rewrite INR_IZR_INZ. apply flt_integer; [exact Hp|exact Hm|lia].
Qed.
Print Assumptions C116_sum_mean.

(** Element k of cumsum has made k additions. *)
Theorem C116_cumsum : forall (prec emin : Z) (ties : Z -> bool) (a : list R) (k : nat) (x : R), (0 < prec)%Z -> Forall (in_format prec emin) a ->
  nth_error (r_cumsum (nearest prec emin ties) a) k = Some x ->
  (Rabs (x - total (firstn (S k) a)) <= gamma prec k * total_abs (firstn (S k) a))%R.
Proof. intros prec emin ties a k x Hp HF E. rewrite total_abs_eq. exact (cumsum_err _ _ _ _ (flt_rounding prec emin ties Hp) a HF k x E). Qed.
Print Assumptions C116_cumsum.

(** inner (dot): the products are rounded, then summed as above; [products a b] lists the exact products. *)
Theorem C116_inner : forall (prec emin : Z) (ties : Z -> bool) (a b : list R) (L : nat), (0 < prec)%Z -> length a = length b -> length a <= 64 * 2 ^ L ->
  let products := map (fun q => fst q * snd q)%R (combine a b) in
  exists s, r_inner (nearest prec emin ties) a b = Ok s /\
  (Rabs (s - total products) <= gamma prec (65 + L) * total_abs products + (1 + uro prec) ^ (64 + L) * (INR (length a) * tiny emin))%R.
Proof.
  intros prec emin ties a b L Hp Hab HL products. destruct (inner_err _ _ _ _ (flt_rounding prec emin ties Hp) L a b Hab HL) as (s & E & B). exists s. split; [exact E|].
  rewrite total_abs_eq. exact B.
Qed.
Print Assumptions C116_inner.

(** prod: n - 1 rounding errors, when the exponent range is not a limit *)
Theorem C116_prod : forall (prec : Z) (ties : Z -> bool) (a : list R), (0 < prec)%Z -> Forall (generic_format radix2 (FLX_exp prec)) a ->
  let exact := fold_right Rmult 1%R a in
  (Rabs (r_prod (round radix2 (FLX_exp prec) (Znearest ties)) a - exact) <= gamma prec (length a - 1) * Rabs exact)%R.
Proof. intros prec ties a Hp HF exact. exact (prod_err _ _ _ _ (flx_rounding prec ties Hp) a eq_refl HF). Qed.
Print Assumptions C116_prod.

(** trapz: [trapezoid f dx] is the exact sum of the areas dx * (f_i + f_{i+1}) / 2. *)
Theorem C116_trapz : forall (prec emin : Z) (ties : Z -> bool) (f : list R) (dx : R) (L : nat), (0 < prec)%Z -> 2 <= length f -> length f <= 64 * 2 ^ L ->
  Forall (in_format prec emin) f -> exists s, r_trapz (nearest prec emin ties) f dx = Ok s /\
  (Rabs (s - trapezoid f dx) <= gamma prec (69 + L) * trapezoid (map Rabs f) (Rabs dx)
                                + tiny emin * (1 + 2 * (1 + uro prec) ^ (68 + L) * trapezoid (map Rabs f) 1))%R.
Proof. intros prec emin ties f dx L Hp H2 HL HF. exact (trapz_err _ _ _ _ (flt_rounding prec emin ties Hp) L f dx H2 HL HF). Qed.
Print Assumptions C116_trapz.

(** polyval: one rounding per coefficient (fused multiply-add); [peval] is c_0 + x (c_1 + x (...)), [geo q n] is 1 + q + ... + q^(n-1). *)
Theorem C116_polyval : forall (prec emin : Z) (ties : Z -> bool) (x : R) (c : list R), (0 < prec)%Z ->
  (Rabs (r_polyval (nearest prec emin ties) x c - peval x c) <=
    gamma prec (length c) * peval (Rabs x) (map Rabs c) + tiny emin * geo ((1 + uro prec) * Rabs x) (length c))%R.
Proof. intros prec emin ties x c Hp. exact (polyval_err _ _ _ _ (flt_rounding prec emin ties Hp) x c). Qed.
Print Assumptions C116_polyval.

(** convolve and polymul: coefficient k is a sum of at most m products, m the size of the smaller operand. *)
Theorem C116_convolve : forall (prec emin : Z) (ties : Z -> bool) (a v : list R), (0 < prec)%Z -> a <> [] \/ v <> [] ->
  let rnd := nearest prec emin ties in let m := Nat.min (length a) (length v) in
  let coefficient (p q : list R) (k : nat) := total (map (fun i => nth i p 0 * nth (k - i) q 0)%R (seq 0 (S k))) in
  exists s, convolve 0%R (fl_add rnd) (fl_mul rnd) a v = Ok s /\ polymul 0%R (fl_add rnd) (fl_mul rnd) a v = Ok s /\ length s = length a + length v - 1 /\
  (forall k, k < length a + length v - 1 ->
    (Rabs (nth k s 0 - coefficient a v k) <= gamma prec (S m) * coefficient (map Rabs a) (map Rabs v) k + INR m * (1 + uro prec) ^ m * tiny emin)%R).
Proof.
  intros prec emin ties a v Hp H rnd m coefficient. destruct (convolve_err _ _ _ _ (flt_rounding prec emin ties Hp) a v H) as (s & E & Ln & B).
  exists s. split; [exact E|]. split; [exact E|]. split; [exact Ln|exact B].
Qed.
Print Assumptions C116_convolve.

Example C116_nonvacuous : Forall (in_format 53 (-1074)) [1; 3]%R /\ length [1; 3]%R <= 64 * 2 ^ 0 /\
  r_sum (nearest 53 (-1074) (fun n => negb (Z.even n))) [1; 3]%R = 4%R /\ (0 < gamma 53 64)%R.
Proof.
  assert (F : forall z, (Z.abs z <= 2 ^ 53)%Z -> in_format 53 (-1074) (IZR z)) by (intros; apply flt_integer; lia).
  split; [apply Forall_cons; [apply (F 1%Z); lia|apply Forall_cons; [apply (F 3%Z); lia|apply Forall_nil]]|]. split; [cbn; lia|]. split.
  - unfold r_sum, sum, sum_filter. assert (RD := flt_rounding 53 (-1074) (fun n => negb (Z.even n)) ltac:(lia)).
    unfold filter_reduce_associative, PW_BLOCKSIZE, pairwise_accumulate. cbn -[nearest]. unfold fl_add, nearest.
    rewrite Rplus_0_l, (rd_id _ _ _ _ RD 1 (F 1%Z ltac:(lia))). replace (1 + 3)%R with 4%R by ring. exact (rd_id _ _ _ _ RD 4%R (F 4%Z ltac:(lia))).
  - unfold gamma. assert (0 < uro 53)%R by apply bpow_gt_0. assert (1 < (1 + uro 53) ^ 64)%R by (apply Rlt_pow_R1; [lra|lia]). lra.
Qed.

(** *** C117 *)
Lemma fmt_nat prec emin (n : nat) : (0 < prec)%Z -> (emin <= 0)%Z -> (Z.of_nat n <= 2 ^ prec)%Z -> in_format prec emin (INR n).
Proof. intros. rewrite INR_IZR_INZ. apply flt_integer; lia. Qed.
(** ties to even lose the 1 added to 2^prec *)
Lemma plus_one_lost prec emin : (2 <= prec)%Z -> (emin <= 0)%Z -> nearest prec emin (fun n => negb (Z.even n)) (IZR (2 ^ prec) + 1) = IZR (2 ^ prec).
Proof.
  intros Hp He. assert (E2 : (2 ^ prec = 2 * 2 ^ (prec - 1))%Z) by (rewrite <- Z.pow_succ_r by lia; f_equal; lia).
  assert (E4 : (2 ^ (prec - 1) = 2 * 2 ^ (prec - 2))%Z) by (rewrite <- Z.pow_succ_r by lia; f_equal; lia).
  assert (P2 : (0 < 2 ^ (prec - 2))%Z) by (apply Z.pow_pos_nonneg; lia).
  assert (B : forall k, (0 <= k)%Z -> bpow radix2 k = IZR (2 ^ k)) by (intros k Hk; rewrite <- (IZR_Zpower radix2) by lia; reflexivity).
  rewrite <- plus_IZR. set (x := IZR (2 ^ prec + 1)).
  assert (M : mag radix2 x = (prec + 1)%Z :> Z).
  { apply mag_unique. rewrite !B by lia. rewrite Rabs_right by (apply Rle_ge, IZR_le; lia). split; [apply IZR_le; replace (prec + 1 - 1)%Z with prec by lia; lia|]. apply IZR_lt.
    replace (2 ^ (prec + 1))%Z with (2 * 2 ^ prec)%Z by (rewrite <- Z.pow_succ_r by lia; f_equal). lia. }
  unfold nearest, round, scaled_mantissa, cexp. rewrite M. replace (FLT_exp emin prec (prec + 1)) with 1%Z by (unfold FLT_exp; lia).
  change (bpow radix2 (- (1))) with (/ 2)%R. assert (Ex : (x * / 2 = IZR (2 ^ (prec - 1)) + / 2)%R) by (unfold x; rewrite plus_IZR, E2, mult_IZR; lra).
  assert (Fl : Zfloor (x * / 2) = (2 ^ (prec - 1))%Z) by (apply Zfloor_imp; rewrite Ex, plus_IZR; lra).
  unfold Znearest. rewrite Fl, Ex. replace (IZR (2 ^ (prec - 1)) + / 2 - IZR (2 ^ (prec - 1)))%R with (/ 2)%R by ring. rewrite Rcompare_Eq by reflexivity.
  replace (Z.even (2 ^ (prec - 1))) with true by (rewrite E4, Z.even_mul; reflexivity). cbn [negb]. unfold F2R. cbn [Fnum Fexp]. change (bpow radix2 1) with 2%R.
  rewrite <- mult_IZR. f_equal. lia.
Qed.

(** linspace in every format: the announced number of elements, starting exactly at start, never stepping back (whatever the size), and, as long as the indices are
    numbers of the format, each element within a few roundings of the exact point: the last one of stop. *)
Theorem C117_linspace : forall (prec emin : Z) (ties : Z -> bool) (start stop : R) (n : nat), (0 < prec)%Z -> (emin <= 0)%Z ->
  in_format prec emin start -> in_format prec emin stop ->
  let r := r_linspace (nearest prec emin ties) start stop n in
  length r = n /\ (1 <= n -> nth_error r 0 = Some start) /\
  (forall i x y, nth_error r i = Some x -> nth_error r (S i) = Some y -> ((start <= stop -> start <= x <= y) /\ (stop <= start -> y <= x <= start))%R) /\
  (2 <= n -> (Z.of_nat (n - 1) <= 2 ^ prec)%Z -> forall i x, nth_error r i = Some x ->
    (Rabs (x - (start + INR i / INR (n - 1) * (stop - start))) <=
     gamma prec 4 * (Rabs start + INR i / INR (n - 1) * Rabs (stop - start)) + ((1 + uro prec) * (1 + uro prec) * INR i + (1 + uro prec)) * tiny emin)%R) /\
  (2 <= n -> (Z.of_nat (n - 1) <= 2 ^ prec)%Z -> forall x, nth_error r (n - 1) = Some x ->
    (Rabs (x - stop) <= gamma prec 4 * (Rabs start + Rabs (stop - start)) + ((1 + uro prec) * (1 + uro prec) * INR (n - 1) + (1 + uro prec)) * tiny emin)%R).
Proof.
  intros prec emin ties start stop n Hp Hm F1 F2 r. pose proof (flt_rounding prec emin ties Hp) as RD. split; [apply linspace_length|].
  split; [intros H; exact (linspace_first _ _ _ _ RD start stop n F1 H)|]. split; [intros i x y Ex Ey; exact (linspace_mono _ _ _ _ RD start stop n i x y F1 Ex Ey)|].
  assert (E : 2 <= n -> (Z.of_nat (n - 1) <= 2 ^ prec)%Z -> forall i x, nth_error r i = Some x ->
    (Rabs (x - (start + INR i / INR (n - 1) * (stop - start))) <=
     gamma prec 4 * (Rabs start + INR i / INR (n - 1) * Rabs (stop - start)) + ((1 + uro prec) * (1 + uro prec) * INR i + (1 + uro prec)) * tiny emin)%R).
  { intros H2 Hn i x Ex. apply (linspace_err _ _ _ _ RD start stop n i x F1 F2 H2); [|intros c d Hc Hd|exact Ex].
    - intros j Hj. apply fmt_nat; [exact Hp|exact Hm|lia].
    - apply (rd_add _ _ _ _ RD c (- d) Hc). apply generic_format_opp. exact Hd. }
  split; [exact E|]. intros H2 Hn x Ex. specialize (E H2 Hn (n - 1) x Ex). assert (N0 : (INR (n - 1) <> 0)%R) by (apply not_0_INR; lia).
  replace (INR (n - 1) / INR (n - 1))%R with 1%R in E by (field; exact N0). rewrite !Rmult_1_l in E. replace (start + (stop - start))%R with stop in E by ring. exact E.
Qed.
Print Assumptions C117_linspace.

(** arange: nothing in the wrong direction, otherwise about |stop - start| / |step| elements; each is the rounded point start + i * step, they go in the direction
    of the step, and (up to 2^(prec-2) elements) none lies beyond stop. *)
Theorem C117_arange : forall (prec emin : Z) (ties : Z -> bool) (start stop step : R), (2 <= prec)%Z -> (emin <= -2)%Z -> step <> 0%R ->
  in_format prec emin start -> in_format prec emin stop ->
  let rnd := nearest prec emin ties in let wrong := (start < stop /\ step < 0 \/ stop < start /\ 0 < step)%R in
  exists r, r_arange rnd start stop step = Ok r /\ (wrong -> r = []) /\
  (~ wrong -> INR (length r) <= (1 + uro prec) ^ 2 * (Rabs (stop - start) / Rabs step) + tiny emin /\
              Rabs (stop - start) / Rabs step <= INR (length r) + 1 + gamma prec 2 * (Rabs (stop - start) / Rabs step) + tiny emin)%R /\
  ((Z.of_nat (length r) <= 2 ^ prec)%Z -> forall i x, nth_error r i = Some x ->
     x = rnd (start + INR i * step)%R /\
     (Rabs (x - (start + INR i * step)) <= uro prec * Rabs (start + INR i * step) + tiny emin)%R /\
     (forall y, nth_error r (S i) = Some y -> (0 < step -> x <= y)%R /\ (step < 0 -> y <= x)%R)) /\
  ((Z.of_nat (length r) <= 2 ^ (prec - 2))%Z -> forall x, In x r -> ((0 < step -> start <= x <= stop) /\ (step < 0 -> stop <= x <= start))%R).
Proof.
  intros prec emin ties start stop step Hp Hm Hs F1 F2 rnd wrong. pose proof (flt_rounding prec emin ties ltac:(lia)) as RD.
  destruct (FloatRangeFacts.arange_ok rnd start stop step Hs) as (n & E & W & NW). eexists. split; [exact E|].
  assert (LN : length (map (fun x => rnd (x * step + start)%R) (r_iota rnd n)) = n) by (rewrite map_length; unfold r_iota; apply iota_length). rewrite LN.
  assert (SUB : (Rabs (rnd (stop - start) - (stop - start)) <= uro prec * Rabs (stop - start))%R) by (apply (rd_add _ _ _ _ RD stop (- start) F2); apply generic_format_opp; exact F1).
  set (D := (stop - start)%R) in *. assert (U : (0 < uro prec)%R) by apply bpow_gt_0. assert (TP : (0 <= tiny emin)%R) by apply bpow_ge_0.
  assert (Is : (0 < / Rabs step)%R) by (apply Rinv_0_lt_compat, Rabs_pos_lt, Hs). set (Q := (Rabs D / Rabs step)%R).
  assert (HQ : (0 <= Q)%R) by (unfold Q, Rdiv; apply Rmult_le_pos; [apply Rabs_pos|lra]).
  assert (EQ : (Rabs (Rabs (rnd (rnd D / step)) - Q) <= gamma prec 2 * Q + tiny emin)%R).
  { replace Q with (Rabs (D / step)) by (unfold Q, Rdiv; rewrite Rabs_mult, Rabs_Rinv by exact Hs; reflexivity). eapply Rle_trans; [apply Rabs_triang_inv2|].
    eapply Rle_trans; [apply (rnd_step _ _ _ _ RD 1 _ (D / step) (Rabs (D / step)) 0); [lra|lra|]|unfold gamma, FloatArithFacts.g, uro, tiny; lra].
    unfold Rdiv. rewrite <- Rmult_minus_distr_r, !Rabs_mult, Rplus_0_r, <- Rmult_assoc. apply Rmult_le_compat_r; [apply Rabs_pos|].
    unfold FloatArithFacts.g. cbn [pow]. rewrite Rmult_1_r. replace (1 + bpow radix2 (- prec) - 1)%R with (uro prec) by (unfold uro; ring). exact SUB. }
  apply Rabs_le_inv in EQ. assert (CNT : ~ wrong -> (INR n <= (1 + uro prec) ^ 2 * Q + tiny emin /\ Q <= INR n + 1 + gamma prec 2 * Q + tiny emin)%R).
  { intros NR. specialize (NW NR). unfold gamma in *. split; lra. }
  assert (EL : (Z.of_nat n <= 2 ^ prec)%Z -> forall i x, nth_error (map (fun x => rnd (x * step + start)%R) (r_iota rnd n)) i = Some x -> i < n /\ x = rnd (start + INR i * step)%R).
  { intros Hn i x Ex. assert (Hi : i < n) by (rewrite <- LN; apply nth_error_Some; congruence). split; [exact Hi|].
    replace (r_iota rnd n) with (map INR (seq 0 n)) in Ex by (symmetry; apply (iota_exact _ _ _ _ RD n); intros j Hj; apply fmt_nat; lia). rewrite map_map, nth_error_map in Ex.
    rewrite (nth_error_nth' (seq 0 n) 0) in Ex by (rewrite seq_length; exact Hi). rewrite seq_nth in Ex by exact Hi. cbn in Ex. injection Ex as <-. f_equal. ring. }
  split; [intros Wr; rewrite (W Wr); reflexivity|]. split; [exact CNT|]. split.
  - intros Hn i x Ex. destruct (EL Hn i x Ex) as [Hi ->]. split; [reflexivity|]. split; [apply (rd_err _ _ _ _ RD)|]. intros y Ey. destruct (EL Hn (S i) y Ey) as [_ ->]. rewrite S_INR.
    split; intros; apply (rd_mono _ _ _ _ RD); nra.
  - intros Hn x Hx. apply In_nth_error in Hx. destruct Hx as [i Ex].
    assert (P4 : (2 ^ prec = 4 * 2 ^ (prec - 2))%Z) by (change 4%Z with (2 ^ 2)%Z; rewrite <- Z.pow_add_r by lia; f_equal; lia).
    assert (P0 : (0 < 2 ^ (prec - 2))%Z) by (apply Z.pow_pos_nonneg; lia). destruct (EL ltac:(lia) i x Ex) as [Hi ->].
    assert (NR : ~ wrong) by (intros Wr; rewrite (W Wr) in Hi; lia). destruct (CNT NR) as [C1 _].
    assert (U4 : (INR n * uro prec <= / 4)%R).
    { assert (IZR (Z.of_nat n) <= IZR (2 ^ (prec - 2)))%R by (apply IZR_le; lia). rewrite INR_IZR_INZ.
      assert (B : (uro prec * IZR (2 ^ (prec - 2)) = / 4)%R).
      { unfold uro. rewrite (IZR_Zpower radix2) by lia. rewrite <- bpow_plus. replace (- prec + (prec - 2))%Z with (-2)%Z by lia. cbn. lra. } nra. }
    assert (U1 : (uro prec <= / 4)%R). { unfold uro. replace (/ 4)%R with (bpow radix2 (-2)) by (cbn; lra). apply bpow_le. lia. }
    assert (T8 : (tiny emin <= / 8)%R). { unfold tiny. replace (/ 8)%R with (bpow radix2 (-3)) by (cbn; lra). apply bpow_le. lia. }
    assert (NQ : (INR n - 1 <= Q)%R).
    { destruct (Rle_dec (INR n - 1) Q) as [?|N]; [assumption|exfalso]. apply Rnot_le_lt in N.
      assert (N1 : (1 <= INR n)%R) by (apply (le_INR 1); lia). cbn [pow] in C1. nra. }
    assert (Iq : (INR i <= Q)%R). { apply Rle_trans with (INR n - 1)%R; [|exact NQ]. assert (INR (S i) <= INR n)%R by (apply le_INR; lia). rewrite S_INR in *. lra. }
    assert (I0 := pos_INR i). assert (Qs : (Q * Rabs step = Rabs D)%R) by (unfold Q; field; apply Rabs_no_R0, Hs).
    assert (DS : (INR i * Rabs step <= Rabs D)%R) by (rewrite <- Qs; apply Rmult_le_compat_r; [apply Rabs_pos|exact Iq]).
    split; intros Sg.
    + assert (SS : (start <= stop)%R) by (destruct (Rle_dec start stop); [assumption|exfalso; apply NR; right; lra]).
      rewrite (Rabs_right step), (Rabs_right D) in DS by (unfold D; lra). unfold D in DS.
      assert (I1 := rd_id _ _ _ _ RD start F1). assert (I2 := rd_id _ _ _ _ RD stop F2).
      split; [rewrite <- I1 at 1|rewrite <- I2]; apply (rd_mono _ _ _ _ RD); nra.
    + assert (SS : (stop <= start)%R) by (destruct (Rle_dec stop start); [assumption|exfalso; apply NR; left; lra]).
      rewrite (Rabs_left step), (Rabs_left1 D) in DS by (unfold D; lra). unfold D in DS.
      assert (I1 := rd_id _ _ _ _ RD start F1). assert (I2 := rd_id _ _ _ _ RD stop F2).
      split; [rewrite <- I2|rewrite <- I1 at 2]; apply (rd_mono _ _ _ _ RD); nra.
Qed.
Print Assumptions C117_arange.

(** The indices are counted in the element type: beyond 2^prec (2^24 for float) adding 1 changes nothing, every later element repeats, and the last one is
    not the last index. *)
Theorem C117_iota_saturates_refuted : forall (prec emin : Z) (n : nat), (2 <= prec)%Z -> (emin <= 0)%Z ->
  let rnd := nearest prec emin (fun n => negb (Z.even n)) in
  r_iota rnd n = map (fun i => IZR (Z.min (Z.of_nat i) (2 ^ prec))) (seq 0 n) /\
  ((2 ^ prec + 1 < Z.of_nat n)%Z -> exists x y, nth_error (r_iota rnd n) (n - 1) = Some x /\ nth_error (r_iota rnd n) (n - 2) = Some y /\ x = y /\ (x < INR (n - 1))%R).
Proof.
  intros prec emin n Hp Hm rnd. pose proof (flt_rounding prec emin (fun n => negb (Z.even n)) ltac:(lia)) as RD.
  assert (P : (0 < 2 ^ prec)%Z) by (apply Z.pow_pos_nonneg; lia). set (M := Z.to_nat (2 ^ prec)).
  assert (EM : INR M = IZR (2 ^ prec)) by (rewrite INR_IZR_INZ; unfold M; rewrite Z2Nat.id by lia; reflexivity).
  assert (E : r_iota rnd n = map (fun i => IZR (Z.min (Z.of_nat i) (2 ^ prec))) (seq 0 n)).
  { unfold r_iota. change 0%R with (INR 0). rewrite (iota_stuck _ _ _ rnd RD M n).
    - apply map_ext. intros i. rewrite INR_IZR_INZ. f_equal. unfold M. lia.
    - intros i Hi. apply fmt_nat; unfold M in Hi; lia.
    - rewrite EM. apply plus_one_lost; lia.
    - lia. }
  split; [exact E|]. intros Hn. rewrite E. exists (IZR (2 ^ prec)), (IZR (2 ^ prec)). rewrite !nth_error_map.
  rewrite !(nth_error_nth' (seq 0 n) 0) by (rewrite seq_length; lia). rewrite !seq_nth by lia. cbn [option_map Nat.add].
  split; [do 2 f_equal; lia|]. split; [do 2 f_equal; lia|]. split; [reflexivity|]. rewrite INR_IZR_INZ. apply IZR_lt. lia.
Qed.
Print Assumptions C117_iota_saturates_refuted.
(** so linspace to a stop in the middle of the range of the format does not reach it: with more than 2^prec + 1 elements the last two are equal *)
Theorem C117_linspace_large_refuted : forall (prec emin : Z) (start stop : R) (n : nat), (2 <= prec)%Z -> (emin <= 0)%Z -> (2 ^ prec + 1 < Z.of_nat n)%Z ->
  let r := r_linspace (nearest prec emin (fun n => negb (Z.even n))) start stop n in exists x, nth_error r (n - 1) = Some x /\ nth_error r (n - 2) = Some x.
Proof.
  intros prec emin start stop n Hp Hm Hn r. assert (P : (0 < 2 ^ prec)%Z) by (apply Z.pow_pos_nonneg; lia).
  destruct (C117_iota_saturates_refuted prec emin n Hp Hm) as [_ C]. destruct (C Hn) as (x & y & E1 & E2 & <- & _).
  unfold r, r_linspace. destruct n as [|[|n]]; try lia. rewrite !FunctionalProofs.transform1_map, !nth_error_map, E1, E2. eexists. split; reflexivity.
Qed.
Print Assumptions C117_linspace_large_refuted.
(** stop - start may overflow: then even the first element is NaN (0 * inf). *)
Theorem C117_linspace_overflow_refuted : exists (start stop : PrimFloat.float) (x : PrimFloat.float),
  PrimFloat.is_finite start = true /\ PrimFloat.is_finite stop = true /\ nth_error (linspace_f64 start stop 3) 0 = Some x /\ PrimFloat.is_nan x = true.
Proof. exact linspace_f64_overflows. Qed.
Print Assumptions C117_linspace_overflow_refuted.
(** The interval is half open in exact arithmetic (C19); in floating point the last element can be stop itself: from 2^53 to 2^53 + 2 in steps of 1/2. *)
Theorem C117_arange_reaches_stop_refuted : exists (start stop step : R) (r : list R),
  in_format 53 (-1074) start /\ in_format 53 (-1074) stop /\ in_format 53 (-1074) step /\ (0 < step)%R /\ (start < stop)%R /\
  r_arange (nearest 53 (-1074) (fun n => negb (Z.even n))) start stop step = Ok r /\ nth_error r 3 = Some stop.
Proof.
  assert (RD := flt_rounding 53 (-1074) (fun n => negb (Z.even n)) ltac:(lia)). assert (I := rd_id _ _ _ _ RD).
  assert (F : forall z, (Z.abs z <= 2 ^ 53)%Z -> in_format 53 (-1074) (IZR z)) by (intros; apply flt_integer; lia).
  set (s := (2 ^ 53)%Z). assert (Es : s = 9007199254740992%Z) by reflexivity.
  assert (Fs : in_format 53 (-1074) (IZR (s + 2))).
  { apply generic_format_FLT. exists (Float radix2 (2 ^ 52 + 1) 1); [unfold F2R; cbn [Fnum Fexp]; change (bpow radix2 1) with 2%R; rewrite <- mult_IZR; reflexivity|cbn; lia|cbn; lia]. }
  assert (Fh : in_format 53 (-1074) (/ 2)) by (change (/ 2)%R with (bpow radix2 (-1)); apply generic_format_bpow; unfold FLT_exp; lia).
  set (rnd := nearest 53 (-1074) (fun n => negb (Z.even n))).
  destruct (FloatRangeFacts.arange_ok rnd (IZR s) (IZR (s + 2)) (/ 2) ltac:(lra)) as (n & E & _ & NW).
  assert (Q : Rabs (rnd (rnd (IZR (s + 2) - IZR s)%R / / 2)%R) = 4%R).
  { rewrite plus_IZR. replace (IZR s + 2 - IZR s)%R with 2%R by ring. unfold rnd, nearest. rewrite (I 2%R (F 2%Z ltac:(lia))). replace (2 / / 2)%R with 4%R by field.
    rewrite (I 4%R (F 4%Z ltac:(lia))). apply Rabs_right. lra. }
  rewrite Q in NW. assert (Hn : n = 4).
  { destruct NW as [A B]; [rewrite plus_IZR; lra|]. change 4%R with (IZR (Z.of_nat 4)) in A, B. rewrite INR_IZR_INZ in A, B. rewrite <- plus_IZR in B. apply le_IZR in A. apply lt_IZR in B. lia. }
  subst n. exists (IZR s), (IZR (s + 2)), (/ 2)%R. eexists. split; [apply F; lia|]. split; [exact Fs|]. split; [exact Fh|]. split; [lra|]. split; [apply IZR_lt; lia|].
  split; [exact E|]. replace (r_iota rnd 4) with (map INR (seq 0 4)) by (symmetry; apply (iota_exact _ _ _ _ RD 4); intros j Hj; apply fmt_nat; lia). cbn [seq map nth_error]. f_equal.
  set (x := (INR 3 * / 2 + IZR s)%R). assert (Ex : x = (IZR s + 3 / 2)%R) by (unfold x; cbn [INR]; lra).
  assert (M : mag radix2 x = 54%Z :> Z).
  { apply mag_unique. rewrite Ex. replace (bpow radix2 (54 - 1)) with (IZR s) by reflexivity. replace (bpow radix2 54) with (IZR (2 * s)) by reflexivity. rewrite mult_IZR.
    assert (4 < IZR s)%R by (apply IZR_lt; lia). rewrite Rabs_right by lra. lra. }
  unfold rnd, nearest, round, scaled_mantissa, cexp. rewrite M. change (FLT_exp (-1074) 53 54) with 1%Z. change (bpow radix2 (- (1))) with (/ 2)%R.
  assert (EZ : IZR s = (2 * IZR (2 ^ 52))%R) by (rewrite <- mult_IZR; reflexivity).
  rewrite (Znearest_imp _ _ (2 ^ 52 + 1)).
  - unfold F2R. cbn [Fnum Fexp]. change (bpow radix2 1) with 2%R. rewrite <- mult_IZR. reflexivity.
  - rewrite Ex, plus_IZR, EZ. apply Rabs_lt. lra.
Qed.
Print Assumptions C117_arange_reaches_stop_refuted.

Example C117_nonvacuous : in_format 53 (-1074) 0 /\ in_format 53 (-1074) 10 /\ nth_error (r_linspace (nearest 53 (-1074) (fun n => negb (Z.even n))) 0 10 2) 1 = Some 10%R.
Proof.
  assert (F : forall z, (Z.abs z <= 2 ^ 53)%Z -> in_format 53 (-1074) (IZR z)) by (intros; apply flt_integer; lia).
  split; [apply (F 0%Z); lia|]. split; [apply (F 10%Z); lia|]. assert (RD := flt_rounding 53 (-1074) (fun n => negb (Z.even n)) ltac:(lia)).
  unfold r_linspace, r_iota. cbn -[nearest]. unfold fl_add, fl_mul, fl_quot, fl_sub, fl_nat, nearest. cbn [Nat.sub INR].
  assert (I := rd_id _ _ _ _ RD). rewrite (I 1%R (F 1%Z ltac:(lia))), Rminus_0_r, (I 10%R (F 10%Z ltac:(lia))), !Rplus_0_l.
  replace (10 / 1)%R with 10%R by field. rewrite (I 10%R (F 10%Z ltac:(lia))). rewrite (I 1%R (F 1%Z ltac:(lia))), Rmult_1_r, !(I 10%R (F 10%Z ltac:(lia))). reflexivity.
Qed.
