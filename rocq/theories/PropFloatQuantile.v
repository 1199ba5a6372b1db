(** C118: quantiles, percentiles, iqr and medians of floating-point data (stats.hpp:97-289), every operation rounded. *)
From Coq Require Import List Arith ZArith Reals Bool Permutation.
From Flocq Require Import Core Mult_error.
From Verif Require Import Base Functional Stats FloatArith FloatArithFacts PropFloatArith FloatQuantile FloatQuantileFacts.
From Coq Require Import Lra Psatz Lia.
Import ListNotations.
Open Scope nat_scope.

(** Setting: [in_format], [nearest], [uro], [tiny] as in C116; [nth_contract f]: f is std::nth_element;
    [ascending v s]: s is v in ascending order; [near] is any equality test with near x x = true (equal.hpp's almost_equal is one). *)
Record setting (prec emin : Z) (near : R -> R -> bool) (f : nat -> list R -> list R) (v : list R) : Prop := {
  st_prec : (4 <= prec)%Z;
  st_emin : (emin <= -2)%Z;
  st_near : forall x, near x x = true;
  st_nth : nth_contract f;
  st_fmt : Forall (in_format prec emin) v;
  st_len : 2 <= length v;
  st_max : (Z.of_nat (length v) <= 2 ^ (prec - 1))%Z }.

Lemma st_small prec emin near f v : setting prec emin near f v -> (2 * Z.of_nat (length v) <= 2 ^ prec)%Z.
Proof. intros []. replace prec with (prec - 1 + 1)%Z at 1 by ring. rewrite Z.pow_add_r by lia. change (2 ^ 1)%Z with 2%Z. lia. Qed.
Lemma st_nat prec emin near f v : setting prec emin near f v -> forall k, k <= 2 * (length v - 1) -> in_format prec emin (INR k).
Proof. intros H k Hk. pose proof (st_small _ _ _ _ _ H). destruct H. rewrite INR_IZR_INZ. apply flt_integer; lia. Qed.
Lemma st_one prec emin near f v : setting prec emin near f v -> in_format prec emin 1%R.
Proof. intros H. apply (st_nat _ _ _ _ _ H 1). destruct H. lia. Qed.
Lemma quarter prec emin k : (0 < prec)%Z -> (emin <= -2)%Z -> (Z.of_nat k < 2 ^ prec)%Z -> in_format prec emin (INR k / 4)%R.
Proof.
  intros Hp He Hk. apply generic_format_FLT. exists (Float radix2 (Z.of_nat k) (-2)).
  - unfold F2R. cbn. rewrite INR_IZR_INZ. field.
  - cbn [Fnum]. rewrite Z.abs_eq by lia. exact Hk.
  - exact He.
Qed.
Lemma twice prec emin x : in_format prec emin x -> in_format prec emin (2 * x)%R.
Proof. intros H. rewrite Rmult_comm. exact (mult_bpow_pos_exact_FLT radix2 emin prec x 1 H ltac:(lia)). Qed.

(** Every mode: for q in [0, 1] the result lies between the elements of rank floor h and ceil h, where the position h is q (n - 1) up to one rounding;
    it depends only on the multiset of data, not on its order or on the nth_element algorithm. *)
Theorem C118_quantile_between : forall prec emin ties near nan f v s q, setting prec emin near f v -> ascending v s -> (0 <= q <= 1)%R ->
  let rnd := nearest prec emin ties in let n := length v in let h := rnd (q * INR (n - 1))%R in
  (Rabs (h - q * INR (n - 1)) <= uro prec * (q * INR (n - 1)) + tiny emin)%R /\ (0 <= h <= INR (n - 1))%R /\
  forall m, exists x, r_quantile rnd near nan f m v q = Ok x /\ (nth (Z.to_nat (Zfloor h)) s 0 <= x <= nth (Z.to_nat (Zceil h)) s 0)%R /\
    forall g w, nth_contract g -> Permutation v w -> r_quantile rnd near nan g m w q = Ok x.
Proof.
  intros prec emin ties near nan f v s q ST Hs Hq rnd n h. pose proof ST as ST0. destruct ST0. assert (Hp : (0 < prec)%Z) by lia.
  assert (RD : rounding (uro prec) (tiny emin) (in_format prec emin) rnd) by exact (flt_rounding prec emin ties Hp). pose proof (st_nat _ _ _ _ _ ST) as HN. pose proof (st_one _ _ _ _ _ ST) as F1.
  assert (Eh : fl_mul rnd q (fl_nat rnd (n - 1)) = h). { unfold fl_mul, fl_nat, h. now rewrite (rd_id _ _ _ _ RD (INR (n - 1)) (HN (n - 1) ltac:(unfold n; lia))). }
  pose proof (position_err _ _ _ _ RD (n - 1) HN q Hq) as PE. pose proof (h_range _ _ _ _ RD (n - 1) HN q Hq) as HR.
  rewrite Eh in PE, HR. split; [exact PE|split; [exact HR|]]. intros m. assert (Ln : length v = S (n - 1)) by (unfold n; lia).
  destruct (quantile_between _ _ _ _ RD near nan f st_near0 st_nth0 (n - 1) HN F1 m v s q Hs st_fmt0 Ln ltac:(lia) Hq) as (x & E & B). rewrite Eh in B. exists x. split; [exact E|split; [exact B|]].
  intros g w Hg P. pose proof (asc_perm v w s P Hs) as Hw. assert (Lw : length w = S (n - 1)) by (rewrite <- (Permutation_length P); exact Ln).
  pose proof (proj1 (quantile_spec _ _ _ _ RD near nan f st_near0 st_nth0 (n - 1) HN m v s q Hs Ln ltac:(lia) Hq)) as Q1.
  pose proof (proj1 (quantile_spec _ _ _ _ RD near nan g st_near0 Hg (n - 1) HN m w s q Hw Lw ltac:(lia) Hq)) as Q2.
  rewrite Q2, <- Q1. exact E.
Qed.
Print Assumptions C118_quantile_between.

(** LOWER, HIGHER and NEAREST return the element of rank floor h, ceil h and h rounded to the nearest (even) integer; they never decrease when q increases. *)
Theorem C118_quantile_ranks : forall prec emin ties near nan f v s q, setting prec emin near f v -> ascending v s -> (0 <= q <= 1)%R ->
  let rnd := nearest prec emin ties in let h := rnd (q * INR (length v - 1))%R in
  r_quantile rnd near nan f LOWER v q = Ok (nth (Z.to_nat (Zfloor h)) s 0%R) /\
  r_quantile rnd near nan f HIGHER v q = Ok (nth (Z.to_nat (Zceil h)) s 0%R) /\
  r_quantile rnd near nan f NEAREST v q = Ok (nth (Z.to_nat (ZnearestE h)) s 0%R).
Proof.
  intros prec emin ties near nan f v s q ST Hs Hq rnd h. pose proof ST as ST0. destruct ST0. assert (Hp : (0 < prec)%Z) by lia.
  assert (RD : rounding (uro prec) (tiny emin) (in_format prec emin) rnd) by exact (flt_rounding prec emin ties Hp). pose proof (st_nat _ _ _ _ _ ST) as HN.
  assert (Eh : fl_mul rnd q (fl_nat rnd (length v - 1)) = h). { unfold fl_mul, fl_nat, h. now rewrite (rd_id _ _ _ _ RD (INR (length v - 1)) (HN (length v - 1) ltac:(lia))). }
  rewrite <- Eh. exact (quantile_modes _ _ _ _ RD near nan f st_near0 st_nth0 (length v - 1) HN v s q Hs ltac:(lia) ltac:(lia) Hq).
Qed.
Print Assumptions C118_quantile_ranks.
Theorem C118_quantile_monotone : forall prec emin ties near nan f v m p q x y, setting prec emin near f v ->
  m = LOWER \/ m = HIGHER \/ m = NEAREST -> (0 <= p)%R -> (p <= q)%R -> (q <= 1)%R ->
  let rnd := nearest prec emin ties in r_quantile rnd near nan f m v p = Ok x -> r_quantile rnd near nan f m v q = Ok y -> (x <= y)%R.
Proof.
  intros prec emin ties near nan f v m p q x y ST Hm H0 Hpq H1 rnd. pose proof ST as ST0. destruct ST0. assert (Hp : (0 < prec)%Z) by lia.
  exact (quantile_mono _ _ _ _ (flt_rounding prec emin ties Hp) near nan f st_near0 st_nth0 (length v - 1) (st_nat _ _ _ _ _ ST) m v p q x y Hm ltac:(lia) ltac:(lia) H0 Hpq H1).
Qed.
Print Assumptions C118_quantile_monotone.

(** q = 0 gives the smallest element and q = 1 the largest, in every mode. *)
Theorem C118_quantile_ends : forall prec emin ties near nan f v s m, setting prec emin near f v -> ascending v s ->
  let rnd := nearest prec emin ties in
  r_quantile rnd near nan f m v 0%R = Ok (nth 0 s 0%R) /\ r_quantile rnd near nan f m v 1%R = Ok (nth (length v - 1) s 0%R).
Proof.
  intros prec emin ties near nan f v s m ST Hs rnd. pose proof ST as ST0. destruct ST0. assert (Hp : (0 < prec)%Z) by lia.
  exact (quantile_ends _ _ _ _ (flt_rounding prec emin ties Hp) near nan f st_near0 st_nth0 (length v - 1) (st_nat _ _ _ _ _ ST) m v s Hs ltac:(lia) ltac:(lia)).
Qed.
Print Assumptions C118_quantile_ends.

(** Short ranges, and q outside [0, 1], without any assumption. *)
Theorem C118_quantile_short : forall rnd near nan f m q, (0 <= q <= 1)%R ->
  r_quantile rnd near nan f m [] q = Ok nan /\ (forall x, r_quantile rnd near nan f m [x] q = Ok x) /\
  (forall v p, (p < 0 \/ 1 < p)%R -> r_quantile rnd near nan f m v p = RequireFail).
Proof.
  intros rnd near nan f m q Hq. unfold r_quantile, require. rewrite !Rle_bool_true by lra. split; [reflexivity|split; [reflexivity|]]. intros v p [H|H].
  - rewrite Rle_bool_false by lra. reflexivity.
  - rewrite (Rle_bool_false p 1) by lra. now rewrite andb_false_r.
Qed.
Print Assumptions C118_quantile_short.

(** percentile(p) is quantile(p / 100), p / 100 being rounded, and never trips the precondition for p in [0, 100]; iqr's default range gives the rounded difference
    of the percentiles 75 and 25, which is never negative and at most the rounded spread. (near 1 (3/4) = false: 3/4 does not pass for 1.) *)
Theorem C118_percentile_iqr : forall prec emin ties near nan f v s m, setting prec emin near f v -> ascending v s ->
  let rnd := nearest prec emin ties in let n := length v in let lo := nth 0 s 0%R in let hi := nth (n - 1) s 0%R in
  let between_ranks x h := (nth (Z.to_nat (Zfloor h)) s 0 <= x <= nth (Z.to_nat (Zceil h)) s 0)%R in
  (forall p, (0 <= p <= 100)%R -> exists x, r_percentile rnd near nan f m v p = Ok x /\ between_ranks x (rnd (rnd (p / 100) * INR (n - 1)))%R /\ (lo <= x <= hi)%R) /\
  (near 1%R (3 / 4)%R = false -> exists x a b, r_iqr rnd near nan f m v 25%R 75%R = Ok x /\ x = rnd (b - a)%R /\
     between_ranks a (INR (n - 1) / 4)%R /\ between_ranks b (rnd (3 * INR (n - 1) / 4))%R /\ (0 <= x <= rnd (hi - lo))%R).
Proof.
  intros prec emin ties near nan f v s m ST Hs rnd n lo hi bt. pose proof ST as ST0. destruct ST0. assert (Hp : (0 < prec)%Z) by lia.
  assert (RD : rounding (uro prec) (tiny emin) (in_format prec emin) rnd) by exact (flt_rounding prec emin ties Hp). pose proof (st_nat _ _ _ _ _ ST) as HN. pose proof (st_one _ _ _ _ _ ST) as F1.
  assert (P4 : (2 ^ 3 <= 2 ^ (prec - 1))%Z) by (apply Z.pow_le_mono_r; lia). assert (P5 : (2 ^ prec = 2 * 2 ^ (prec - 1))%Z) by (rewrite <- Z.pow_succ_r by lia; f_equal; lia). change (2 ^ 3)%Z with 8%Z in P4.
  assert (PC : forall p, (0 <= p <= 100)%R -> exists x, r_percentile rnd near nan f m v p = Ok x /\ bt x (rnd (rnd (p / 100) * INR (n - 1)))%R /\ (lo <= x <= hi)%R).
  { intros p Hpp. destruct (percentile_ok _ _ _ _ RD near nan f st_near0 st_nth0 (length v - 1) HN F1 m v p Hpp ltac:(lia) ltac:(lia) st_fmt0) as (x & E & B). exists x. split; [exact E|].
    assert (Q : (0 <= rnd (p / 100) <= 1)%R) by (apply (between _ _ _ _ RD); [apply (rd_0 _ _ _ _ RD)|exact F1|lra]).
    destruct (C118_quantile_between prec emin ties near nan f v s (rnd (p / 100)%R) ST Hs Q) as (_ & _ & BQ). destruct (BQ m) as (y & Ey & By & _). split; [|exact (B s Hs)].
    unfold r_percentile, fl_quot in E. fold rnd in Ey. rewrite E in Ey. injection Ey as <-. exact By. }
  split; [exact PC|]. intros Hn. assert (Q : forall k, (Z.of_nat k < 2 ^ prec)%Z -> in_format prec emin (INR k / 4)%R) by (intros k Hk; apply quarter; lia).
  assert (Q3 : in_format prec emin (3 / 4)%R). { replace (3 / 4)%R with (INR 3 / 4)%R by (cbn [INR]; lra). apply Q. lia. }
  destruct (iqr_pos _ _ _ _ RD near nan f st_near0 st_nth0 (length v - 1) HN F1 m v ltac:(lia) ltac:(lia) st_fmt0 Hn (Q 1 ltac:(lia)) Q3 (Q (length v - 1) ltac:(lia)) (Q (length v - 1 + 4) ltac:(lia))) as (x & E & L & U).
  destruct (PC 25%R ltac:(lra)) as (a & Ea & Ba & _). destruct (PC 75%R ltac:(lra)) as (b & Eb & Bb & _). exists x, a, b. split; [exact E|].
  unfold r_iqr in E. rewrite Ea in E. cbn [bind] in E. rewrite Eb in E. cbn [bind] in E. injection E as <-. split; [reflexivity|].
  assert (R25 : rnd (25 / 100)%R = (1 / 4)%R) by (replace (25 / 100)%R with (1 / 4)%R by field; apply (rd_id _ _ _ _ RD); apply (Q 1); lia).
  assert (R75 : rnd (75 / 100)%R = (3 / 4)%R) by (replace (75 / 100)%R with (3 / 4)%R by field; apply (rd_id _ _ _ _ RD); exact Q3).
  rewrite R25 in Ba. rewrite R75 in Bb. replace (1 / 4 * INR (n - 1))%R with (INR (n - 1) / 4)%R in Ba by field. rewrite (rd_id _ _ _ _ RD (INR (n - 1) / 4)%R) in Ba by (apply Q; unfold n; lia).
  replace (3 / 4 * INR (n - 1))%R with (3 * INR (n - 1) / 4)%R in Bb by field. split; [exact Ba|split; [exact Bb|]]. split; [exact L|exact (U s Hs)].
Qed.
Print Assumptions C118_percentile_iqr.

(** median: for an odd number of data the middle element, exactly; for an even number a value between the two middle elements a and b, and within two roundings of (a + b) / 2. *)
Theorem C118_median : forall prec emin ties nan f v s, (0 < prec)%Z -> nth_contract f -> Forall (in_format prec emin) v -> ascending v s -> v <> [] ->
  let rnd := nearest prec emin ties in let n := length v in
  (Nat.odd n = true -> r_median rnd nan f v = Ok (nth (n / 2) s 0%R)) /\
  (Nat.even n = true -> let a := nth (n / 2 - 1) s 0%R in let b := nth (n / 2) s 0%R in
     exists x, r_median rnd nan f v = Ok x /\ (a <= x <= b)%R /\ (Rabs (x - (a + b) / 2) <= ((1 + uro prec) ^ 2 - 1) * (Rabs (a + b) / 2) + tiny emin)%R).
Proof.
  intros prec emin ties nan f v s Hp Hf HF Hs Hv rnd n. assert (RD : rounding (uro prec) (tiny emin) (in_format prec emin) rnd) by exact (flt_rounding prec emin ties Hp).
  pose proof (median_spec rnd nan f Hf v s Hs Hv) as MS. cbv zeta in MS. fold n in MS. split.
  - intros O. rewrite O in MS. exact MS.
  - intros Ev a b. assert (O : Nat.odd n = false) by (rewrite <- Nat.negb_even, Ev; reflexivity). rewrite O in MS. fold a in MS. fold b in MS. eexists. split; [exact MS|].
    assert (N0 : n <> 0) by (unfold n; destruct v; [contradiction|discriminate]). apply Nat.even_spec in Ev. destruct Ev as [k Ek]. assert (E2 : n / 2 = k) by (rewrite Ek, Nat.mul_comm; apply Nat.div_mul; lia).
    assert (Fk : forall i, i < n -> in_format prec emin (nth i s 0%R)) by (intros i Hi; exact (asc_fmt _ v s i Hs HF Hi)).
    assert (Fa : in_format prec emin a) by (apply Fk; lia). assert (Fb : in_format prec emin b) by (apply Fk; lia). split.
    + apply (median_between _ _ _ _ RD); [apply twice, Fa|apply twice, Fb|exact Fa|exact Fb|]. apply (proj2 Hs); [lia|]. rewrite <- (Permutation_length (proj1 Hs)). fold n. lia.
    + exact (median_err _ _ _ _ RD a b Fa Fb).
Qed.
Print Assumptions C118_median.

(** The hypotheses can be met: doubles, exact comparison for [near], sorting for nth_element. *)
Lemma rsort_contract : nth_contract (fun _ v => rsort v).
Proof.
  intros n v Hn. pose proof (rsort_perm v) as P. pose proof (proj2 (asc_strong (rsort v)) (rsort_sorted v)) as As. pose proof (Permutation_length P) as L. split; [exact P|split].
  - intros x y Hx Hy. apply (nth_error_nth _ _ 0%R) in Hy. subst y. apply (In_nth _ _ 0%R) in Hx. destruct Hx as [k [Hk <-]]. rewrite firstn_length in Hk.
    replace (nth k (firstn n (rsort v)) 0%R) with (nth k (rsort v) 0%R); [apply As; lia|]. rewrite <- (firstn_skipn n (rsort v)) at 1. rewrite app_nth1; [reflexivity|rewrite firstn_length; lia].
  - intros x y Hx Hy. apply (nth_error_nth _ _ 0%R) in Hy. subst y. apply (In_nth _ _ 0%R) in Hx. destruct Hx as [k [Hk <-]]. rewrite skipn_length in Hk.
    replace (nth k (skipn n (rsort v)) 0%R) with (nth (n + k) (rsort v) 0%R); [apply As; lia|]. rewrite <- (firstn_skipn n (rsort v)) at 1. rewrite app_nth2 by (rewrite firstn_length; lia). f_equal. rewrite firstn_length. lia.
Qed.
Example C118_nonvacuous : setting 53 (-1074) Req_bool (fun _ v => rsort v) [3; 1; 2]%R /\ ascending [3; 1; 2]%R [1; 2; 3]%R /\ Req_bool 1 (3 / 4) = false.
Proof.
  split; [|split].
  - constructor; try lia; try (cbn; lia).
    + intros x. now apply Req_bool_true.
    + apply rsort_contract.
    + assert (Z : forall z, (Z.abs z <= 2 ^ 53)%Z -> in_format 53 (-1074) (IZR z)) by (intros z Hz; apply flt_integer; lia).
      apply Forall_cons; [apply Z; lia|]. apply Forall_cons; [apply Z; lia|]. apply Forall_cons; [apply Z; lia|]. apply Forall_nil.
  - split.
    + apply (Permutation_cons_app [1; 2]%R [] 3%R). rewrite app_nil_r. reflexivity.
    + intros i j Hij Hj. cbn in Hj. destruct j as [|[|[|j]]]; destruct i as [|[|[|i]]]; try lia; cbn; lra.
  - apply Req_bool_false. lra.
Qed.
