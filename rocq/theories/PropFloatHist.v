(** Property C133: histograms of floating-point data (core/histogram.hpp).
    The model is Histogram.v with every operation rounded (unbounded exponent range); comparisons are exact. [aeq] stands for
    almost_equal and may be any relation: the statements hold whatever it answers. *)
From Coq Require Import ZArith Reals Bool.
From Flocq Require Import Core Mult_error Relative.
From Verif Require Import Base Functional FunctionalProofs Spec Numeric NumericProofs Stats RangeManips RangeFacts Histogram HistogramFacts HistogramFacts2 FloatArith FloatArithFacts PropFloatArith FloatVarFacts PropFloatVar FloatWindowsFacts PropFloatWindows FloatSpectralErr PropFloatUnits.
From Coq Require Import Lra Psatz Lia.
Open Scope R_scope.

Definition Rlt_b (x y : R) : bool := if Rlt_dec x y then true else false.
Definition Rle_b (x y : R) : bool := if Rle_dec x y then true else false.
(** std::size_t(pos) of a non-negative number *)
Definition R_trunc (x : R) : nat := Z.to_nat (Zfloor x).
(** histogram.hpp:139-231 with every operation rounded *)
Definition r_hist (rnd : R -> R) (aeq : R -> R -> bool) (uniform : bool) (xs b : list R) : outcome (list nat) :=
  histogram 0 (fun x y => rnd (x - y)) (fun x y => rnd (x / y)) Rlt_b Rle_b aeq (fun n => rnd (INR n)) R_trunc uniform xs b.
Definition r_dens (rnd : R -> R) (aeq : R -> R -> bool) (uniform : bool) (xs b : list R) : outcome (list R) :=
  histogram_density 0 (fun x y => rnd (x - y)) (fun x y => rnd (x * y)) (fun x y => rnd (x / y)) Rlt_b Rle_b aeq (fun n => rnd (INR n)) (fun z => rnd (IZR z)) R_trunc uniform xs b.
(** edge i of the bins, and the width of bin i *)
Definition bin_edge (b : list R) (i : nat) : R := nth i b 0.
Definition width (b : list R) (i : nat) : R := bin_edge b (S i) - bin_edge b i.
Definition sorted_edges (b : list R) : Prop := forall i, (S i < length b)%nat -> bin_edge b i <= bin_edge b (S i).
Definition distinct_edges (b : list R) : Prop := forall i, (S i < length b)%nat -> bin_edge b i < bin_edge b (S i).
(** how many data go to bin i *)
Definition tally (bin : R -> option nat) (xs : list R) (i : nat) : nat := length (filter (fun x => match bin x with Some j => j =? i | None => false end) xs).

Lemma rlt_b x y : Rlt_b x y = true <-> x < y. Proof. unfold Rlt_b. destruct (Rlt_dec x y); split; intros; [assumption|reflexivity|discriminate|contradiction]. Qed.
Lemma rle_b x y : Rle_b x y = true <-> x <= y. Proof. unfold Rle_b. destruct (Rle_dec x y); split; intros; [assumption|reflexivity|discriminate|contradiction]. Qed.
Lemma sorted_b b : sorted_edges b -> is_sorted Rlt_b b = true.
Proof.
  induction b as [|x b IH]; [reflexivity|]. intros H. destruct b as [|y r]; [reflexivity|]. cbn [is_sorted]. apply andb_true_intro. split.
  - pose proof (H 0%nat ltac:(cbn; lia)) as Q. unfold bin_edge in Q. cbn [nth] in Q. unfold Rlt_b. destruct (Rlt_dec y x); [lra|reflexivity].
  - apply IH. intros i Hi. apply (H (S i)). cbn [length] in *. lia.
Qed.
Lemma at_edge b i : (i < length b)%nat -> at_ub b i = Ok (bin_edge b i).
Proof. intros H. unfold at_ub, bin_edge. destruct (nth_error b i) eqn:E; [|apply nth_error_None in E; lia]. now rewrite (nth_error_nth _ _ 0 E). Qed.
Lemma back_edge b : b <> [] -> back_ub b = Ok (bin_edge b (length b - 1)).
Proof. intros H. unfold back_ub. destruct b; [congruence|]. apply at_edge. cbn [length]. lia. Qed.
Lemma floor_lt p n : 0 <= p -> p < INR n -> (R_trunc p < n)%nat.
Proof.
  intros P Q. unfold R_trunc. assert (F : (0 <= Zfloor p)%Z) by (apply (Zfloor_lub 0); exact P). apply Nat2Z.inj_lt. rewrite Z2Nat.id by exact F. apply lt_IZR. rewrite <- INR_IZR_INZ.
  pose proof (Zfloor_lb p). lra.
Qed.
Lemma floor_spec p i : 0 <= p -> R_trunc p = i <-> INR i <= p < INR (S i).
Proof.
  intros P. unfold R_trunc. assert (F : (0 <= Zfloor p)%Z) by (apply (Zfloor_lub 0); exact P). split.
  - intros <-. rewrite S_INR, INR_IZR_INZ, Z2Nat.id by exact F. split; [apply Zfloor_lb|apply Zfloor_ub].
  - intros [A B]. rewrite (Zfloor_imp (Z.of_nat i)); [apply Nat2Z.id|]. rewrite S_INR in B. rewrite plus_IZR, <- INR_IZR_INZ. lra.
Qed.
Lemma floor_mono p q : 0 <= p -> p <= q -> (R_trunc p <= R_trunc q)%nat.
Proof. intros P Q. unfold R_trunc. apply Z2Nat.inj_le; [apply (Zfloor_lub 0); lra|apply (Zfloor_lub 0); lra|now apply Zfloor_le]. Qed.

(** *** uniform bins: the computed position of a sample *)
Section Uniform.
Variables (prec : Z) (ties : Z -> bool).
Hypothesis Hp : (0 < prec)%Z.
Notation rnd := (nearest_flx prec ties).
Notation u := (uro prec).
Let RD : rounding u 0 (in_flx prec) rnd := flx_rounding prec ties Hp.
Let Hinv := fun x => nearest_inv prec ties x Hp.
Notation rel := (rel u).
Variables (aeq : R -> R -> bool) (b : list R).
Hypothesis Hs : sorted_edges b.
Hypothesis Hl : (2 <= length b)%nat.
Hypothesis H01 : bin_edge b 0 < bin_edge b 1.
Let n := (length b - 1)%nat.
Let first := bin_edge b 0.
Let last := bin_edge b n.
Let s := width b 0.
Definition position (x : R) : R := rnd (rnd (x - first) / rnd s).
Definition bin_of (x : R) : option nat :=
  if Rle_b (rnd (INR n)) (position x) then (if aeq x last then Some (n - 1)%nat else None)
  else if Rle_b 0 (position x) then Some (R_trunc (position x)) else None.
Lemma s_pos : 0 < s. Proof. unfold s, width. lra. Qed.
Lemma rel_pos k x X : rel k x X -> 0 < X -> 0 < x.
Proof. intros (r & [R1 _] & ->) H. apply Rmult_lt_0_compat; [exact H|]. pose proof (gi _ _ _ RD k). lra. Qed.
Lemma rs_pos : 0 < rnd s. Proof. exact (rel_pos _ _ _ (rel_rnd1 _ _ _ RD Hinv s) s_pos). Qed.
Lemma pos_rel x : rel 3 (position x) ((x - first) / s).
Proof. apply (rel_rnd _ _ _ RD Hinv). apply (rel_div _ _ _ RD 1 1); apply (rel_rnd1 _ _ _ RD Hinv). Qed.
Lemma pos_mono x y : x <= y -> position x <= position y.
Proof.
  intros H. unfold position. apply (rd_mono _ _ _ _ RD). unfold Rdiv. apply Rmult_le_compat_r; [left; apply Rinv_0_lt_compat; exact rs_pos|]. apply (rd_mono _ _ _ _ RD). lra.
Qed.
Lemma pos_bounds x : first <= x -> position x * s <= (x - first) * (1 + u) ^ 3 /\ x - first <= position x * s * (1 + u) ^ 3.
Proof.
  intros H. destruct (pos_rel x) as (r & [R1 R2] & E). rewrite E. pose proof s_pos. pose proof (gi _ _ _ RD 3) as [I1 I2]. pose proof (pow_R1_Rle (1 + u) 3 ltac:(pose proof (u_pos _ _ _ _ RD); lra)) as G1. unfold FloatArithFacts.g in *. set (G := (1 + u) ^ 3) in *.
  replace ((x - first) / s * r * s) with ((x - first) * r) by (field; lra). split.
  - apply Rmult_le_compat_l; lra.
  - rewrite Rmult_assoc. rewrite <- (Rmult_1_r (x - first)) at 1. apply Rmult_le_compat_l; [lra|]. apply Rle_trans with (/ G * G); [rewrite Rinv_l; lra|]. apply Rmult_le_compat_r; lra.
Qed.
Lemma pos_neg x : x < first -> position x < 0.
Proof.
  intros H. destruct (pos_rel x) as (r & [R1 _] & ->). pose proof (gi _ _ _ RD 3). pose proof s_pos. assert (0 < (first - x) / s) by (apply Rdiv_lt_0_compat; lra).
  replace ((x - first) / s * r) with (- ((first - x) / s * r)) by (field; lra). assert (0 < (first - x) / s * r) by (apply Rmult_lt_0_compat; lra). lra.
Qed.
Lemma pos_nonneg x : first <= x -> 0 <= position x.
Proof. intros H. destruct (pos_rel x) as (r & [R1 _] & ->). pose proof (gi _ _ _ RD 3). pose proof s_pos. apply Rmult_le_pos; [|lra]. apply Rmult_le_pos; [lra|]. left. apply Rinv_0_lt_compat. lra. Qed.
Lemma below_n x : position x < rnd (INR n) -> position x < INR n.
Proof.
  intros H. destruct (Rlt_or_le (position x) (INR n)) as [Q|Q]; [exact Q|exfalso]. apply (rd_mono _ _ _ _ RD) in Q. rewrite (rd_id _ _ _ _ RD (position x)) in Q by apply (rd_fmt _ _ _ _ RD). lra.
Qed.
Lemma bin_small x i : bin_of x = Some i -> (i < n)%nat.
Proof.
  unfold bin_of. destruct (Rle_b (rnd (INR n)) (position x)) eqn:E1.
  - destruct (aeq x last); [injection 1 as <-; unfold n; lia|discriminate].
  - destruct (Rle_b 0 (position x)) eqn:E2; [|discriminate]. injection 1 as <-. apply rle_b in E2. apply floor_lt; [exact E2|]. apply below_n. apply Rnot_le_lt. intros C. apply rle_b in C. congruence.
Qed.
Lemma hist_bins xs : exists h, r_hist rnd aeq true xs b = Ok h /\ length h = n /\ forall i, (i < n)%nat -> nth i h 0%nat = tally bin_of xs i.
Proof.
  unfold r_hist, histogram. destruct (Nat.leb_spec (length b) 1); [lia|]. unfold require at 1. rewrite (sorted_b b Hs).
  rewrite (at_edge b 0), (at_edge b 1) by lia. cbn [bind]. cbv zeta. fold first. replace (bin_edge b 1 - first) with s by reflexivity.
  unfold require. replace (Rlt_b 0 (rnd s)) with true by (symmetry; apply rlt_b; exact rs_pos).
  match goal with |- context [loop ?f _ _] => destruct (loop_bump f bin_of n xs) with (h := repeat 0%nat (length b - 1)) as [h [E1 [E2 E3]]] end.
  - intros h x _ Lh. unfold step_uniform. rewrite (at_edge b 0) by lia. cbn [bind]. fold first. cbv zeta. fold (position x). rewrite Lh. unfold bin_of.
    destruct (Rle_b (rnd (INR n)) (position x)) eqn:Q1.
    + rewrite back_edge by (intros C; pose proof Hl as Q; rewrite C in Q; cbn in Q; lia). cbn [bind]. fold n. fold last. destruct (aeq x last); [|reflexivity].
      rewrite incr_back_bump by (intros ->; cbn in Lh; unfold n in Lh; lia). now rewrite Lh.
    + destruct (Rle_b 0 (position x)) eqn:Q2; [|reflexivity]. apply incr_bump. rewrite Lh. apply rle_b in Q2. apply floor_lt; [exact Q2|]. apply below_n. apply Rnot_le_lt. intros C. apply rle_b in C. congruence.
  - intros x i _. apply bin_small.
  - now rewrite repeat_length.
  - exists h. split; [exact E1|split; [exact E2|]]. intros i Hi. rewrite E3 by exact Hi. rewrite nth_repeat0. reflexivity.
Qed.
Lemma bin_below x : x < first -> bin_of x = None.
Proof.
  intros H. pose proof (pos_neg x H) as P. unfold bin_of. destruct (Rle_b (rnd (INR n)) (position x)) eqn:Q1.
  - exfalso. apply rle_b in Q1. pose proof (rd_mono _ _ _ _ RD 0 (INR n) (pos_INR n)) as M. rewrite (rd_id _ _ _ _ RD 0 (rd_0 _ _ _ _ RD)) in M. lra.
  - destruct (Rle_b 0 (position x)) eqn:Q2; [|reflexivity]. apply rle_b in Q2. lra.
Qed.
(** a sample that is clear of the edges by three rounding errors goes to its bin *)
Lemma bin_clear x i : (Z.of_nat n <= 2 ^ prec)%Z -> (i < n)%nat -> INR i * s * (1 + u) ^ 3 <= x - first -> (x - first) * (1 + u) ^ 3 < INR (S i) * s -> bin_of x = Some i.
Proof.
  intros Hn Hi A B. pose proof s_pos as Sp. pose proof (pow_R1_Rle (1 + u) 3 ltac:(pose proof (u_pos _ _ _ _ RD); lra)) as G1. unfold FloatArithFacts.g in G1. pose proof (pos_INR i) as Ip. assert (X : first <= x) by (assert (0 <= INR i * s * (1 + u) ^ 3) by (apply Rmult_le_pos; [nra|lra]); lra).
  destruct (pos_bounds x X) as [L U]. pose proof (pos_nonneg x X) as P.
  assert (P1 : INR i <= position x).
  { apply (Rmult_le_reg_r (s * (1 + u) ^ 3)); [apply Rmult_lt_0_compat; lra|]. rewrite <- !Rmult_assoc. lra. }
  assert (P2 : position x < INR (S i)) by (apply (Rmult_lt_reg_r s); lra).
  assert (T : R_trunc (position x) = i) by (apply floor_spec; [exact P|split; assumption]).
  unfold bin_of. destruct (Rle_b (rnd (INR n)) (position x)) eqn:Q1.
  - exfalso. apply rle_b in Q1. rewrite (rd_id _ _ _ _ RD) in Q1 by (rewrite INR_IZR_INZ; apply flx_integer; lia).
    assert (P3 : position x < INR n) by (apply Rlt_le_trans with (INR (S i)); [exact P2|apply le_INR; lia]). lra.
  - replace (Rle_b 0 (position x)) with true by (symmetry; apply rle_b; exact P). now rewrite T.
Qed.
End Uniform.

(** Uniform bins. A sample is counted in at most one bin; none before the first edge; in order; and in a bin it belongs to up to three relative
    rounding errors of its distance to the first edge (or the last bin, when it is beyond it and almost_equal to the last edge). A sample that is clear
    of the edges is counted in its bin. *)
Theorem C133_uniform : forall (prec : Z) (ties : Z -> bool) (aeq : R -> R -> bool) (xs b : list R), (0 < prec)%Z -> sorted_edges b -> (2 <= length b)%nat -> bin_edge b 0 < bin_edge b 1 ->
  let n := (length b - 1)%nat in let first := bin_edge b 0 in let s := width b 0 in let e := (1 + uro prec) ^ 3 in
  exists (bin : R -> option nat) (h : list nat), r_hist (nearest_flx prec ties) aeq true xs b = Ok h /\ length h = n /\ (forall i, (i < n)%nat -> nth i h 0%nat = tally bin xs i) /\
    (forall x, x < first -> bin x = None) /\
    (forall x y i j, x <= y -> bin x = Some i -> bin y = Some j -> (i <= j)%nat) /\
    (forall x i, bin x = Some i -> (i < n)%nat /\ first <= x /\ ((i = n - 1)%nat /\ aeq x (bin_edge b n) = true \/ INR i * s <= (x - first) * e /\ x - first < INR (S i) * s * e)) /\
    ((Z.of_nat n <= 2 ^ prec)%Z -> forall x i, (i < n)%nat -> INR i * s * e <= x - first -> (x - first) * e < INR (S i) * s -> bin x = Some i).
Proof.
  intros prec ties aeq xs b Hp Hs Hl H01 n first s e. pose proof (flx_rounding prec ties Hp) as RD. change (bpow radix2 (- prec)) with (uro prec) in RD.
  change (round radix2 (FLX_exp prec) (Znearest ties)) with (nearest_flx prec ties) in RD. pose proof (s_pos b H01) as Sp. fold s in Sp.
  assert (e0 : 0 < e) by (apply pow_lt; pose proof (u_pos _ _ _ _ RD); lra).
  destruct (hist_bins prec ties Hp aeq b Hs Hl H01 xs) as (h & E1 & E2 & E3). exists (bin_of prec ties aeq b), h.
  split; [exact E1|]. split; [exact E2|]. split; [exact E3|]. split; [exact (bin_below prec ties Hp aeq b H01)|]. split; [|split].
  - intros x y i j Hxy Bx By. pose proof (pos_mono prec ties Hp b H01 x y Hxy) as M. pose proof (bin_small prec ties Hp aeq b Hl x i Bx) as Bi. fold n in Bi. unfold bin_of in Bx, By. fold n in Bx, By.
    destruct (Rle_b (nearest_flx prec ties (INR n)) (position prec ties b y)) eqn:Qy.
    + destruct (aeq y (bin_edge b n)); [|discriminate]. injection By as <-. lia.
    + destruct (Rle_b (nearest_flx prec ties (INR n)) (position prec ties b x)) eqn:Qx.
      * exfalso. apply rle_b in Qx. assert (C : Rle_b (nearest_flx prec ties (INR n)) (position prec ties b y) = true) by (apply rle_b; lra). congruence.
      * destruct (Rle_b 0 (position prec ties b x)) eqn:Zx; [|discriminate]. destruct (Rle_b 0 (position prec ties b y)) eqn:Zy; [|discriminate]. injection Bx as <-. injection By as <-. apply rle_b in Zx. now apply floor_mono.
  - intros x i Bx. split; [exact (bin_small prec ties Hp aeq b Hl x i Bx)|]. assert (X : first <= x). { apply Rnot_lt_le. intros C. rewrite (bin_below prec ties Hp aeq b H01 x C) in Bx. discriminate. }
    split; [exact X|]. destruct (pos_bounds prec ties Hp b H01 x X) as [L U]. fold s e first in L, U. unfold bin_of in Bx. fold n in Bx.
    destruct (Rle_b (nearest_flx prec ties (INR n)) (position prec ties b x)).
    + left. destruct (aeq x (bin_edge b n)); [|discriminate]. injection Bx as <-. now split.
    + right. destruct (Rle_b 0 (position prec ties b x)) eqn:Z0; [|discriminate]. injection Bx as Bx. apply rle_b in Z0. apply floor_spec in Bx; [|exact Z0]. destruct Bx as [B1 B2]. split.
      * apply Rle_trans with (position prec ties b x * s); [|exact L]. apply Rmult_le_compat_r; lra.
      * apply Rle_lt_trans with (1 := U). apply Rmult_lt_compat_r; [exact e0|]. now apply Rmult_lt_compat_r.
  - intros Hn x i Hi A B. eapply bin_clear; eassumption.
Qed.
Print Assumptions C133_uniform.

(** the first two edges, exactly: a sample equal to the first edge is counted in bin 0, one equal to the second in bin 1 *)
Theorem C133_on_edge_partial : forall (prec : Z) (ties : Z -> bool) (aeq : R -> R -> bool) (b : list R), (0 < prec)%Z -> sorted_edges b -> (3 <= length b)%nat -> (Z.of_nat (length b) <= 2 ^ prec)%Z -> bin_edge b 0 < bin_edge b 1 ->
  r_hist (nearest_flx prec ties) aeq true [bin_edge b 0] b = Ok (1%nat :: repeat 0%nat (length b - 2)) /\
  r_hist (nearest_flx prec ties) aeq true [bin_edge b 1] b = Ok (0%nat :: 1%nat :: repeat 0%nat (length b - 3)).
Proof.
  intros prec ties aeq b Hp Hs Hl Hn H01. pose proof (flx_rounding prec ties Hp) as RD. change (round radix2 (FLX_exp prec) (Znearest ties)) with (nearest_flx prec ties) in RD.
  pose proof (rs_pos prec ties Hp b H01) as Rp.
  assert (I : forall k, (k <= length b)%nat -> nearest_flx prec ties (INR k) = INR k) by (intros k Hk; apply (rd_id _ _ _ _ RD); rewrite INR_IZR_INZ; apply flx_integer; lia).
  assert (P0 : position prec ties b (bin_edge b 0) = 0). { unfold position. replace (bin_edge b 0 - bin_edge b 0) with 0 by ring. pose proof (I 0%nat ltac:(lia)) as Z. cbn [INR] in Z. rewrite Z. unfold Rdiv. rewrite Rmult_0_l. exact Z. }
  assert (P1 : position prec ties b (bin_edge b 1) = 1). { unfold position. change (bin_edge b 1 - bin_edge b 0) with (width b 0). unfold Rdiv. rewrite Rinv_r by lra. exact (I 1%nat ltac:(lia)). }
  assert (N2 : 2 <= INR (length b - 1)) by (change 2 with (INR 2); apply le_INR; lia).
  assert (B : forall k, (k <= 1)%nat -> bin_of prec ties aeq b (bin_edge b k) = Some k).
  { intros k Hk. unfold bin_of. assert (P : position prec ties b (bin_edge b k) = INR k) by (destruct k as [|[|k]]; [exact P0|exact P1|lia]). rewrite P, I by lia.
    assert (K : INR k <= 1) by (change 1 with (INR 1); now apply le_INR). destruct (Rle_b (INR (length b - 1)) (INR k)) eqn:E; [apply rle_b in E; lra|].
    replace (Rle_b 0 (INR k)) with true by (symmetry; apply rle_b; apply pos_INR). f_equal. apply floor_spec; [apply pos_INR|]. rewrite S_INR. lra. }
  assert (G : forall k, (k <= 1)%nat -> exists h, r_hist (nearest_flx prec ties) aeq true [bin_edge b k] b = Ok h /\ length h = (length b - 1)%nat /\ forall i, (i < length b - 1)%nat -> nth i h 0%nat = if (k =? i)%nat then 1%nat else 0%nat).
  { intros k Hk. destruct (hist_bins prec ties Hp aeq b Hs ltac:(lia) H01 [bin_edge b k]) as (h & E1 & E2 & E3). exists h. split; [exact E1|split; [exact E2|]]. intros i Hi. rewrite E3 by exact Hi. unfold tally. cbn [filter]. rewrite B by exact Hk. now destruct (k =? i)%nat. }
  destruct b as [|b0 [|b1 [|b2 r]]]; cbn [length] in Hl; try lia. split.
  - destruct (G 0%nat ltac:(lia)) as (h & -> & L & N). f_equal. cbn [length] in *. apply (nth_ext _ _ 0%nat 0%nat); [cbn; rewrite L, repeat_length; lia|]. intros i Hi. rewrite N by lia. destruct i as [|i]; [reflexivity|]. cbn [nth]. now rewrite nth_repeat0.
  - destruct (G 1%nat ltac:(lia)) as (h & -> & L & N). f_equal. cbn [length] in *. apply (nth_ext _ _ 0%nat 0%nat); [cbn; rewrite L, repeat_length; lia|]. intros i Hi. rewrite N by lia. destruct i as [|[|i]]; [reflexivity|reflexivity|]. cbn [nth]. now rewrite nth_repeat0.
Qed.
Print Assumptions C133_on_edge_partial.
(** but not in general: of the doubles nearest to 0, 0.1, 0.2, 0.3 and 0.4, a sample equal to the fourth edge is counted left of it; with
    the general search it is counted in its bin *)
Definition tenths (ties : Z -> bool) : list R := map (fun k => nearest_flx 53 ties (INR k / 10)) (seq 0 5).
Lemma tenths_are ties : tenths ties = [0; 7205759403792794 * bpow radix2 (-56); 7205759403792794 * bpow radix2 (-55); 5404319552844595 * bpow radix2 (-54); 7205759403792794 * bpow radix2 (-54)].
Proof.
  unfold tenths. cbn [seq map INR]. unfold Rdiv at 1. rewrite Rmult_0_l. repeat f_equal.
  - apply (rd_id _ _ _ _ (flx_rounding 53 ties ltac:(lia))). apply generic_format_0.
  - now round_at (-56)%Z 7205759403792794%Z.
  - now round_at (-55)%Z 7205759403792794%Z.
  - now round_at (-54)%Z 5404319552844595%Z.
  - now round_at (-54)%Z 7205759403792794%Z.
Qed.
Lemma tenths_sorted ties : sorted_edges (tenths ties).
Proof. rewrite tenths_are. intros i Hi. unfold bin_edge. destruct i as [|[|[|[|i]]]]; cbn [length nth] in *; try lia; cbn; lra. Qed.
Theorem C133_on_edge_refuted : forall (ties : Z -> bool) (aeq : R -> R -> bool),
  r_hist (nearest_flx 53 ties) aeq true [bin_edge (tenths ties) 3] (tenths ties) = Ok [0; 0; 1; 0]%nat /\
  r_hist (nearest_flx 53 ties) aeq false [bin_edge (tenths ties) 3] (tenths ties) = Ok [0; 0; 0; 1]%nat.
Proof.
  intros ties aeq. split.
  - assert (H01 : bin_edge (tenths ties) 0 < bin_edge (tenths ties) 1) by (rewrite tenths_are; unfold bin_edge; cbn; lra).
    destruct (hist_bins 53 ties ltac:(lia) aeq (tenths ties) (tenths_sorted ties) ltac:(rewrite tenths_are; cbn; lia) H01 [bin_edge (tenths ties) 3]) as (h & -> & L & N). f_equal.
    pose proof (flx_rounding 53 ties ltac:(lia)) as RD. change (round radix2 (FLX_exp 53) (Znearest ties)) with (nearest_flx 53 ties) in RD.
    assert (F : forall k, in_flx 53 (bin_edge (tenths ties) k)). { intros k. unfold bin_edge. destruct (Nat.lt_ge_cases k 5) as [K|K]; [|rewrite nth_overflow by exact K; apply generic_format_0]. unfold tenths. rewrite (nth_indep _ 0 (nearest_flx 53 ties (INR 0 / 10))) by (now rewrite map_length, seq_length). rewrite (map_nth (fun k => nearest_flx 53 ties (INR k / 10))). apply (rd_fmt _ _ _ _ RD). }
    assert (P : position 53 ties (tenths ties) (bin_edge (tenths ties) 3) = 6755399441055743 * bpow radix2 (-51)).
    { unfold position, width. assert (E0 : bin_edge (tenths ties) 0 = 0) by now rewrite tenths_are. rewrite E0, !Rminus_0_r, (rd_id _ _ _ _ RD _ (F 3%nat)), (rd_id _ _ _ _ RD _ (F 1%nat)). rewrite tenths_are. unfold bin_edge. cbn [nth].
      replace (5404319552844595 * bpow radix2 (-54) / (7205759403792794 * bpow radix2 (-56))) with (21617278211378380 / 7205759403792794) by (cbn; lra). now round_at (-51)%Z 6755399441055743%Z. }
    assert (B : bin_of 53 ties aeq (tenths ties) (bin_edge (tenths ties) 3) = Some 2%nat).
    { unfold bin_of. rewrite P. replace (length (tenths ties) - 1)%nat with 4%nat by now rewrite tenths_are. rewrite (rd_id _ _ _ _ RD) by (rewrite INR_IZR_INZ; apply flx_integer; lia).
      destruct (Rle_b (INR 4) _) eqn:Q; [apply rle_b in Q; cbn in Q; lra|]. replace (Rle_b 0 _) with true by (symmetry; apply rle_b; cbn; lra). f_equal. apply floor_spec; cbn; lra. }
    assert (L4 : length h = 4%nat) by (rewrite L, tenths_are; reflexivity).
    apply (nth_ext _ _ 0%nat 0%nat); [now rewrite L4|]. intros i Hi. rewrite N by (rewrite tenths_are; cbn [length Nat.sub]; lia). unfold tally. cbn [filter]. rewrite B. destruct i as [|[|[|[|i]]]]; try reflexivity; lia.
  - rewrite tenths_are. unfold bin_edge. cbn [nth].
    assert (T : forall x y, x < y -> Rlt_b x y = true) by (intros; now apply rlt_b). assert (G : forall x y, y <= x -> Rlt_b x y = false) by (intros x y H; destruct (Rlt_b x y) eqn:E; [apply rlt_b in E; lra|reflexivity]).
    unfold r_hist, histogram. cbn [length Nat.leb Nat.sub repeat]. cbn [is_sorted].
    rewrite !G by (cbn; lra). cbn [negb andb require loop]. unfold step_general, upper_bound. cbn [length upper_bound_loop Nat.eqb Nat.div Nat.divmod fst Nat.add Nat.sub at_ub nth_error bind].
    rewrite G by (cbn; lra). cbn [upper_bound_loop Nat.eqb Nat.div Nat.divmod fst Nat.add Nat.sub at_ub nth_error bind]. rewrite T by (cbn; lra).
    cbn [upper_bound_loop Nat.eqb Nat.div Nat.divmod fst Nat.add Nat.sub at_ub nth_error bind]. rewrite G by (cbn; lra). reflexivity.
Qed.
Print Assumptions C133_on_edge_refuted.

(** *** densities *)
Lemma r_hist_length rnd aeq u xs b h : r_hist rnd aeq u xs b = Ok h -> length h = (length b - 1)%nat.
Proof.
  unfold r_hist, histogram. destruct (Nat.leb_spec (length b) 1) as [Hl|Hl].
  - injection 1 as <-. cbn. lia.
  - unfold require. destruct (is_sorted Rlt_b b); [|discriminate]. intros H. rewrite <- (repeat_length 0%nat (length b - 1)). revert H. destruct u.
    + rewrite !at_edge by lia. cbn [bind]. cbv zeta. destruct (Rlt_b 0 _); [|discriminate]. apply loop_length. intros g x g' E. unfold step_uniform in E. rewrite at_edge in E by lia. cbn [bind] in E. cbv zeta in E.
      destruct (Rle_b (rnd (INR (length g))) _).
      * destruct (back_ub b) as [z| | |]; try discriminate. cbn [bind] in E. destruct (aeq x z); [now apply incr_back_length|now injection E as <-].
      * destruct (Rle_b 0 _); [eapply incr_length; exact E|now injection E as <-].
    + apply loop_length. intros g x g' E. unfold step_general in E. destruct (upper_bound Rlt_b b x) as [k| | |]; try discriminate. cbn [bind] in E. destruct (k =? length b)%nat.
      * destruct (back_ub b) as [z| | |]; try discriminate. cbn [bind] in E. destruct (aeq x z); [now apply incr_back_length|now injection E as <-].
      * destruct (0 <=? Z.of_nat k - 1)%Z; [eapply incr_length; exact E|now injection E as <-].
Qed.
Lemma diff_widths (sub : R -> R -> R) b : b <> [] -> diff sub b 1 = Ok (map (fun i => sub (bin_edge b (S i)) (bin_edge b i)) (seq 0 (length b - 1))).
Proof.
  intros He. unfold diff. change (0 <=? 1)%Z with true. unfold require. change (Z.to_nat 1) with 1%nat. cbn [diff_loop].
  replace (length b =? 0)%nat with false by (symmetry; apply Nat.eqb_neq; destruct b; cbn; congruence).
  rewrite diff_once_tl by exact He. cbn [bind]. f_equal. apply list_eq_nth; [rewrite diff1_length, !map_length, seq_length; reflexivity|].
  intros i Hi. rewrite diff1_length in Hi. rewrite nth_error_map_seq by exact Hi. rewrite (nth_error_nth' _ 0) by (rewrite diff1_length; exact Hi). f_equal. now rewrite (diff1_nth (rO := 0)) by lia.
Qed.
Lemma list_sum_INR h : INR (list_sum h) = total (map INR h).
Proof. unfold total. induction h as [|x h IH]; cbn [map fold_right list_sum]; [reflexivity|]. now rewrite plus_INR, <- IH. Qed.
Lemma density_at (prec : Z) (ties : Z -> bool) aeq uniform xs b h (k : nat) : (0 < prec)%Z -> distinct_edges b -> (2 <= length b)%nat ->
  r_hist (nearest_flx prec ties) aeq uniform xs b = Ok h -> (0 < list_sum h)%nat -> (Z.of_nat (list_sum h) < 2 ^ 31)%Z ->
  (forall c, (c <= list_sum h)%nat -> rel (uro prec) k (nearest_flx prec ties (INR c)) (INR c)) ->
  exists d, r_dens (nearest_flx prec ties) aeq uniform xs b = Ok d /\ length d = (length b - 1)%nat /\
    forall i, (i < length b - 1)%nat -> rel (uro prec) (k + (k + 1) + 2) (nth i d 0) (INR (nth i h 0%nat) / (INR (list_sum h) * width b i)).
Proof.
  intros Hp Hd Hl E Hpos Hint Hk. pose proof (flx_rounding prec ties Hp) as RD. change (bpow radix2 (- prec)) with (uro prec) in RD.
  change (round radix2 (FLX_exp prec) (Znearest ties)) with (nearest_flx prec ties) in RD. pose proof (fun x => nearest_inv prec ties x Hp) as Hinv. set (rnd := nearest_flx prec ties) in *.
  pose proof (r_hist_length _ _ _ _ _ _ E) as Lh. set (N := list_sum h) in *.
  exists (map (fun i => rnd (rnd (INR (nth i h 0%nat)) / rnd (rnd (INR N) * rnd (width b i)))) (seq 0 (length b - 1))). split; [|split; [now rewrite map_length, seq_length|]].
  - unfold r_dens, histogram_density. destruct (Nat.leb_spec (length b) 1); [lia|]. unfold r_hist in E. rewrite E. cbn [bind]. rewrite diff_widths by (intros ->; cbn in Hl; lia). cbn [bind].
    rewrite transform1_map, map_map. rewrite sum_spec by (intros; lia).
    assert (Esum : bigop Nat.add 0%nat h = N) by (unfold N; clear; induction h as [|x h IH]; simpl; auto). rewrite Esum, int32_small by exact Hint. rewrite <- INR_IZR_INZ.
    match goal with |- map2 ?f ?u ?v = _ => destruct (map2_nth f u v) as [w [Ew [Lw Hw]]]; [now rewrite map_length, seq_length|] end. rewrite Ew. f_equal. apply list_eq_nth; [rewrite Lw, map_length, seq_length; exact Lh|].
    intros i Hi. rewrite Lw, Lh in Hi. rewrite nth_error_map_seq by exact Hi. erewrite Hw; [|rewrite (nth_error_nth' h 0%nat) by lia; reflexivity|now rewrite nth_error_map_seq by exact Hi]. reflexivity.
  - intros i Hi. rewrite (nth_indep _ 0 (rnd (rnd (INR (nth 0 h 0%nat)) / rnd (rnd (INR N) * rnd (width b 0))))) by (now rewrite map_length, seq_length).
    rewrite (map_nth (fun i => rnd (rnd (INR (nth i h 0%nat)) / rnd (rnd (INR N) * rnd (width b i))))), seq_nth by exact Hi. cbn [Nat.add].
    replace (k + (k + 1) + 2)%nat with (S (k + S (k + 1))) by lia. apply (rel_rnd _ _ _ RD Hinv). apply (rel_div _ _ _ RD).
    + apply Hk. unfold N. clear -Lh Hi. assert (In (nth i h 0%nat) h) as I by (apply nth_In; lia). revert I. generalize (nth i h 0%nat). clear. induction h as [|x h IH]; intros c []; cbn [list_sum fold_right]; [subst; lia|]. pose proof (IH c H). unfold list_sum in *. lia.
    + apply (rel_rnd _ _ _ RD Hinv). apply (rel_mul _ _ _ RD); [apply Hk; lia|apply (rel_rnd1 _ _ _ RD Hinv)].
Qed.
Lemma density_sum (u : R) k b h d : 0 <= u -> distinct_edges b -> (2 <= length b)%nat -> length h = (length b - 1)%nat -> (0 < list_sum h)%nat ->
  (forall i, (i < length b - 1)%nat -> Rabs (nth i d 0 - INR (nth i h 0%nat) / (INR (list_sum h) * width b i)) <= k * (INR (nth i h 0%nat) / (INR (list_sum h) * width b i))) ->
  Rabs (total (map (fun i => nth i d 0 * width b i) (seq 0 (length b - 1))) - 1) <= k.
Proof.
  intros Hu Hd Hl Lh Hpos H. set (N := list_sum h) in *. assert (N0 : 0 < INR N) by now apply lt_0_INR.
  assert (E1 : total (map (fun i => INR (nth i h 0%nat) / INR N) (seq 0 (length b - 1))) = 1).
  { assert (Eh : map (fun i => nth i h 0%nat) (seq 0 (length b - 1)) = h). { apply list_eq_nth; [now rewrite map_length, seq_length|]. intros i Hi. rewrite map_length, seq_length in Hi. rewrite nth_error_map_seq by exact Hi. symmetry. apply nth_error_nth'. lia. }
    assert (G : forall l, total (map (fun i => INR (nth i h 0%nat) / INR N) l) = total (map INR (map (fun i => nth i h 0%nat) l)) / INR N). { induction l as [|x l IH]; unfold total in *; cbn [map fold_right]; [field; lra|]. rewrite IH. field. lra. }
    rewrite G, Eh, <- list_sum_INR. fold N. field. lra. }
  assert (G : forall l, (forall i, In i l -> (i < length b - 1)%nat) -> Rabs (total (map (fun i => nth i d 0 * width b i) l) - total (map (fun i => INR (nth i h 0%nat) / INR N) l)) <= k * total (map (fun i => INR (nth i h 0%nat) / INR N) l)).
  { induction l as [|i l IH]; intros L; unfold total in *; cbn [map fold_right]; [rewrite Rminus_0_r, Rabs_R0; lra|].
    specialize (IH (fun j Hj => L j (or_intror Hj))). pose proof (L i (or_introl eq_refl)) as Hi. specialize (H i Hi). pose proof (Hd i ltac:(lia)) as Wi. fold (width b i) in *. assert (W : 0 < width b i) by (unfold width; lra).
    set (c := INR (nth i h 0%nat)) in *. apply (Rmult_le_compat_r (width b i)) in H; [|lra]. rewrite <- (Rabs_pos_eq (width b i)) in H at 2 by lra. rewrite <- Rabs_mult in H.
    replace ((nth i d 0 - c / (INR N * width b i)) * width b i) with (nth i d 0 * width b i - c / INR N) in H by (field; lra). replace (k * (c / (INR N * width b i)) * width b i) with (k * (c / INR N)) in H by (field; lra).
    set (p := fold_right Rplus 0 (map (fun i => nth i d 0 * width b i) l)) in *. set (q := fold_right Rplus 0 (map (fun i => INR (nth i h 0%nat) / INR N) l)) in *.
    replace (nth i d 0 * width b i + p - (c / INR N + q)) with ((nth i d 0 * width b i - c / INR N) + (p - q)) by ring. eapply Rle_trans; [apply Rabs_triang|]. lra. }
  specialize (G (seq 0 (length b - 1)) ltac:(intros i Hi; apply in_seq in Hi; lia)). rewrite E1, Rmult_1_r in G. exact G.
Qed.
(** The density of every bin has a relative error of at most five roundings (three when the counts are numbers of the format), and the densities integrate to 1 to that error. *)
Theorem C133_density : forall (prec : Z) (ties : Z -> bool) (aeq : R -> R -> bool) (uniform : bool) (xs b : list R) (h : list nat), (0 < prec)%Z -> distinct_edges b -> (2 <= length b)%nat ->
  r_hist (nearest_flx prec ties) aeq uniform xs b = Ok h -> (0 < list_sum h)%nat -> (Z.of_nat (list_sum h) < 2 ^ 31)%Z ->
  let err := gamma prec (if (Z.of_nat (list_sum h) <=? 2 ^ prec)%Z then 3 else 5) in let n := (length b - 1)%nat in
  exists d, r_dens (nearest_flx prec ties) aeq uniform xs b = Ok d /\ length d = n /\
    (forall i, (i < n)%nat -> let q := INR (nth i h 0%nat) / (INR (list_sum h) * width b i) in Rabs (nth i d 0 - q) <= err * q) /\
    Rabs (total (map (fun i => nth i d 0 * width b i) (seq 0 n)) - 1) <= err.
Proof.
  intros prec ties aeq uniform xs b h Hp Hd Hl E Hpos Hint err n. pose proof (flx_rounding prec ties Hp) as RD. change (bpow radix2 (- prec)) with (uro prec) in RD.
  change (round radix2 (FLX_exp prec) (Znearest ties)) with (nearest_flx prec ties) in RD. pose proof (fun x => nearest_inv prec ties x Hp) as Hinv.
  assert (Q : exists k, err = gamma prec (k + (k + 1) + 2) /\ forall c, (c <= list_sum h)%nat -> rel (uro prec) k (nearest_flx prec ties (INR c)) (INR c)).
  { unfold err. destruct (Z.leb_spec (Z.of_nat (list_sum h)) (2 ^ prec)) as [C|C].
    - exists 0%nat. split; [reflexivity|]. intros c Hc. rewrite (rd_id _ _ _ _ RD) by (rewrite INR_IZR_INZ; apply flx_integer; lia). apply (rel_0 _ _ _ RD).
    - exists 1%nat. split; [reflexivity|]. intros c _. apply (rel_rnd1 _ _ _ RD Hinv). }
  destruct Q as (k & Ek & Hk). destruct (density_at prec ties aeq uniform xs b h k Hp Hd Hl E Hpos Hint Hk) as (d & E1 & E2 & E3). exists d. split; [exact E1|split; [exact E2|]].
  assert (B : forall i, (i < n)%nat -> let q := INR (nth i h 0%nat) / (INR (list_sum h) * width b i) in Rabs (nth i d 0 - q) <= err * q).
  { intros i Hi q. assert (Q0 : 0 <= q). { unfold q. apply Rmult_le_pos; [apply pos_INR|]. left. apply Rinv_0_lt_compat. apply Rmult_lt_0_compat; [now apply lt_0_INR|]. unfold width. pose proof (Hd i ltac:(unfold n in Hi; lia)). lra. }
    pose proof (acc_err _ _ _ _ _ _ (rel_acc _ _ _ RD _ _ _ q (Req_le _ _ (Rabs_pos_eq _ Q0)) (E3 i Hi))) as G. rewrite Ek. unfold gamma. unfold FloatArithFacts.g in G. fold q in G. lra. }
  split; [exact B|]. apply (density_sum (uro prec) err b h d); [exact (u_pos _ _ _ _ RD)|exact Hd|exact Hl|exact (r_hist_length _ _ _ _ _ _ E)|exact Hpos|exact B].
Qed.
Print Assumptions C133_density.
(** three doubles in two bins of width 1: 2/3 and 1/3 to within three roundings *)
Example C133_nonvacuous : forall ties aeq, let b := [0; 1; 2] in distinct_edges b /\ r_hist (nearest_flx 53 ties) aeq true [0; 0; 1] b = Ok [2; 1]%nat.
Proof.
  intros ties aeq b. assert (D : distinct_edges b) by (intros i Hi; unfold bin_edge, b in *; destruct i as [|[|i]]; cbn [length nth] in *; lra || lia). split; [exact D|].
  assert (H01 : bin_edge b 0 < bin_edge b 1) by (apply D; cbn; lia).
  assert (Hs : sorted_edges b) by (intros i Hi; left; now apply D).
  destruct (C133_on_edge_partial 53 ties aeq b ltac:(lia) Hs ltac:(cbn; lia) ltac:(cbn; lia) H01) as [A0 A1].
  destruct (hist_bins 53 ties ltac:(lia) aeq b Hs ltac:(cbn; lia) H01 [bin_edge b 0]) as (h0 & F0 & _ & N0). rewrite A0 in F0. injection F0 as <-.
  destruct (hist_bins 53 ties ltac:(lia) aeq b Hs ltac:(cbn; lia) H01 [bin_edge b 1]) as (h1 & F1 & _ & N1). rewrite A1 in F1. injection F1 as <-.
  destruct (hist_bins 53 ties ltac:(lia) aeq b Hs ltac:(cbn; lia) H01 [0; 0; 1]) as (h & -> & L & N). f_equal. apply (nth_ext _ _ 0%nat 0%nat); [exact L|]. intros i Hi. rewrite L in Hi. rewrite N by exact Hi. cbn in Hi.
  pose proof (N0 i Hi) as M0. pose proof (N1 i Hi) as M1. unfold tally in *. change (bin_edge b 0) with 0 in M0. change (bin_edge b 1) with 1 in M1. cbn [filter] in *. set (p0 := match bin_of 53 ties aeq b 0 with Some j => (j =? i)%nat | None => false end) in *. set (p1 := match bin_of 53 ties aeq b 1 with Some j => (j =? i)%nat | None => false end) in *.
  clearbody p0 p1. destruct i as [|[|i]]; [| |lia]; destruct p0, p1; cbn in M0, M1; try discriminate; reflexivity.
Qed.
