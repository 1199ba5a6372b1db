(** Property C135: sawtooth in floating point (signal/waveforms.hpp).
    Every operation is rounded (unbounded exponent range), except std::fmod, which is exact (C99). [p] stands for pi<T>. *)
From Coq Require Import ZArith Reals Bool.
From Flocq Require Import Core Mult_error Relative.
From Verif Require Import Base Functional FunctionalProofs Waveforms FloatArith FloatArithFacts PropFloatArith FloatVarFacts PropFloatVar FloatWindowsFacts PropFloatWindows FloatSpectralErr PropFloatUnits.
From Verif Require PropWaveforms.
From Coq Require Import Lra Psatz Lia.
Open Scope R_scope.

(** waveforms.hpp:58-68  the lambda of sawtooth *)
Definition r_sawtooth_at (rnd : R -> R) (p width t_ : R) : outcome R :=
  let tmod := fmod t_ (rnd (2 * p)) in
  if rltb tmod (rnd (rnd (width * 2) * p)) then require (rltb 0 width) (Ok (rnd (rnd (tmod / rnd (width * p)) - 1)))
  else require (rltb width 1) (Ok (rnd (rnd (rnd (width + 1) - rnd (tmod / p)) / rnd (1 - width)))).
(** waveforms.hpp:52-70 *)
Definition r_sawtooth (rnd : R -> R) (p : R) (t : list R) (width : R) : outcome (list R) :=
  require (rleb 0 width && rleb width 1) (map_out (r_sawtooth_at rnd p width) t).
(** with exact operations this is the model of C58 *)
Lemma r_sawtooth_exact t w : r_sawtooth (fun x => x) PI t w = sawtooth t w. Proof. reflexivity. Qed.

Lemma rnd_double prec ties x : nearest_flx prec ties (2 * x) = 2 * nearest_flx prec ties x.
Proof.
  destruct (Req_dec x 0) as [->|N]; [rewrite Rmult_0_r; unfold nearest_flx; rewrite round_0 by apply valid_rnd_N; ring|].
  unfold nearest_flx, round, scaled_mantissa, cexp. replace (2 * x) with (x * bpow radix2 1) by (cbn; lra). rewrite mag_mult_bpow by exact N. unfold FLX_exp.
  replace (x * bpow radix2 1 * bpow radix2 (- (mag radix2 x + 1 - prec))) with (x * bpow radix2 (- (mag radix2 x - prec))).
  - unfold F2R. cbn [Fnum Fexp]. replace (mag radix2 x + 1 - prec)%Z with (1 + (mag radix2 x - prec))%Z by lia. rewrite bpow_plus. change (bpow radix2 1) with 2. ring.
  - rewrite Rmult_assoc, <- bpow_plus. do 2 f_equal. lia.
Qed.
Lemma rltb_spec x y : rltb x y = true <-> x < y. Proof. unfold rltb. destruct (Rlt_dec x y); split; intros; [assumption|reflexivity|discriminate|contradiction]. Qed.
Lemma rltb_no x y : rltb x y = false <-> y <= x. Proof. unfold rltb. destruct (Rlt_dec x y); split; intros; [discriminate|lra|lra|reflexivity]. Qed.
Lemma fmod_period P (k : nat) r : 0 <= r < P -> fmod (P * INR k + r) P = r.
Proof.
  intros H. unfold fmod. assert (E : (P * INR k + r) / P = INR k + r / P) by (field; lra). assert (Q : 0 <= r / P < 1).
  { split; [apply Rmult_le_pos; [lra|left; apply Rinv_0_lt_compat; lra]|]. apply (Rmult_lt_reg_r P); [lra|]. unfold Rdiv. rewrite Rmult_assoc, Rinv_l; lra. }
  assert (T : Rtrunc ((P * INR k + r) / P) = Z.of_nat k).
  { rewrite E. unfold Rtrunc. pose proof (pos_INR k). destruct (Rle_dec 0 (INR k + r / P)) as [_|C]; [|lra]. symmetry. apply PropWaveforms.Int_part_spec. rewrite <- INR_IZR_INZ. lra. }
  rewrite T, <- INR_IZR_INZ. ring.
Qed.

Section Setup.
Variables (prec : Z) (ties : Z -> bool).
Hypothesis Hp : (0 < prec)%Z.
Notation rnd := (nearest_flx prec ties).
Notation u := (uro prec).
Let RD : rounding u 0 (in_flx prec) rnd := flx_rounding prec ties Hp.
Let Hinv := fun x => nearest_inv prec ties x Hp.
Lemma one_in : in_flx prec 1. Proof. apply (flx_integer prec 1 Hp). pose proof (Z.pow_pos_nonneg 2 prec). lia. Qed.
Lemma two_in : in_flx prec 2. Proof. apply (flx_integer prec 2 Hp). replace prec with (1 + (prec - 1))%Z by lia. rewrite Z.pow_add_r by lia. pose proof (Z.pow_pos_nonneg 2 (prec - 1)). lia. Qed.
Lemma fix_ x : in_flx prec x -> rnd x = x. Proof. exact (rd_id _ _ _ _ RD x). Qed.
Lemma rnd_0 : rnd 0 = 0. Proof. apply fix_. exact (rd_0 _ _ _ _ RD). Qed.
Lemma rnd_pos x : 0 < x -> 0 < rnd x.
Proof. intros H. destruct (rel_rnd1 _ _ _ RD Hinv x) as (r & [R1 _] & E). rewrite E. apply Rmult_lt_0_compat; [exact H|]. pose proof (gi _ _ _ RD 1). lra. Qed.
Lemma acc_1 k A x X : acc u k A 0 x X -> Rabs (x - X) <= gamma prec k * A.
Proof. intros H. pose proof (acc_err _ _ _ _ _ _ H) as Q. rewrite Rmult_0_r, Rplus_0_r in Q. exact Q. Qed.

Variables p w : R.
Hypothesis Fp : in_flx prec p.
Hypothesis Pp : 0 < p.
Hypothesis Fw : in_flx prec w.
Hypothesis W : 0 <= w <= 1.
Lemma threshold : rnd (rnd (w * 2) * p) = 2 * rnd (w * p).
Proof. rewrite (Rmult_comm w 2), rnd_double, (fix_ w Fw), Rmult_assoc. apply rnd_double. Qed.
Lemma period : rnd (2 * p) = 2 * p. Proof. now rewrite rnd_double, (fix_ p Fp). Qed.
(** the rising part *)
Lemma rising r : 0 <= r -> r < 2 * rnd (w * p) -> 0 < w /\ let y := rnd (rnd (r / rnd (w * p)) - 1) in -1 <= y <= 1 /\ Rabs (y - (r / (w * p) - 1)) <= gamma prec 3 * (r / (w * p) + 1).
Proof.
  intros R0 R1. assert (W0 : 0 < w). { destruct (Req_dec w 0) as [->|]; [rewrite Rmult_0_l, rnd_0 in R1; lra|lra]. } split; [exact W0|]. intros y.
  assert (Q : 0 < rnd (w * p)) by (apply rnd_pos; nra). set (q := rnd (w * p)) in *. assert (I : 0 < / q) by now apply Rinv_0_lt_compat.
  assert (B : 0 <= rnd (r / q) <= 2). { split; [rewrite <- rnd_0; apply (rd_mono _ _ _ _ RD); apply Rmult_le_pos; lra|]. rewrite <- (fix_ 2 two_in). apply (rd_mono _ _ _ _ RD). apply (Rmult_le_reg_r q); [exact Q|]. unfold Rdiv. rewrite Rmult_assoc, Rinv_l; lra. }
  assert (M1 : in_flx prec (- (1))) by (apply generic_format_opp, one_in). split; [split|].
  - rewrite <- (fix_ (-1)) by (replace (-1) with (- (1)) by ring; exact M1). unfold y. apply (rd_mono _ _ _ _ RD). lra.
  - rewrite <- (fix_ 1 one_in). unfold y. apply (rd_mono _ _ _ _ RD). lra.
  - assert (E0 : 0 <= r / (w * p)) by (apply Rmult_le_pos; [lra|left; apply Rinv_0_lt_compat; nra]).
    apply acc_1. apply (acc_rnd _ _ _ RD). replace 0 with (0 + 0) by ring. apply (acc_sub u).
    + apply (rel_acc _ _ _ RD); [rewrite Rabs_pos_eq; lra|]. apply (rel_rnd _ _ _ RD Hinv). apply (rel_div _ _ _ RD 0 1); [apply (rel_0 _ _ _ RD)|apply (rel_rnd1 _ _ _ RD Hinv)].
    + apply (rel_acc _ _ _ RD); [rewrite Rabs_pos_eq; lra|]. apply (rel_weak RD (j := 0)); [lia|]. apply (rel_0 _ _ _ RD).
Qed.
(** the falling part *)
Lemma falling r : 0 <= r -> w < 1 -> let y := rnd (rnd (rnd (w + 1) - rnd (r / p)) / rnd (1 - w)) in Rabs (y - (w + 1 - r / p) / (1 - w)) <= gamma prec 4 * ((w + 1 + r / p) / (1 - w)).
Proof.
  intros R0 W1 y. assert (E0 : 0 <= r / p) by (apply Rmult_le_pos; [lra|left; now apply Rinv_0_lt_compat]). apply acc_1.
  rewrite <- (Rabs_pos_eq (1 - w)) at 1 by lra. apply (acc_quot RD (j := 2) (k := 1)); [|apply (rel_rnd1 _ _ _ RD Hinv)].
  apply (acc_rnd _ _ _ RD). replace 0 with (0 + 0) by ring. apply (acc_sub u); (apply (rel_acc _ _ _ RD); [rewrite Rabs_pos_eq; lra|apply (rel_rnd1 _ _ _ RD Hinv)]).
Qed.
End Setup.

(** For every non-negative time the value is within a few roundings of the textbook wave, the falling part relative to its slope; the rising part stays in [-1, 1]. *)
Theorem C135_sawtooth_partial : forall (prec : Z) (ties : Z -> bool) (p w : R) (t : list R), (0 < prec)%Z -> in_flx prec p -> 0 < p -> in_flx prec w -> 0 <= w <= 1 -> Forall (fun x => 0 <= x) t ->
  exists y, r_sawtooth (nearest_flx prec ties) p t w = Ok y /\ length y = length t /\
  forall (i : nat) (k : nat) r, (i < length t)%nat -> nth i t 0 = 2 * p * INR k + r -> 0 <= r < 2 * p ->
    let peak := 2 * nearest_flx prec ties (w * p) in
    (r < peak -> -1 <= nth i y 0 <= 1 /\ Rabs (nth i y 0 - (r / (w * p) - 1)) <= gamma prec 3 * (r / (w * p) + 1)) /\
    (peak <= r -> Rabs (nth i y 0 - (w + 1 - r / p) / (1 - w)) <= gamma prec 4 * ((w + 1 + r / p) / (1 - w))).
Proof.
  intros prec ties p w t Hp Fp Pp Fw W HT. pose proof (flx_rounding prec ties Hp) as RD. change (round radix2 (FLX_exp prec) (Znearest ties)) with (nearest_flx prec ties) in RD.
  unfold r_sawtooth. replace (rleb 0 w) with true by (unfold rleb; destruct (Rle_dec 0 w); [reflexivity|lra]). replace (rleb w 1) with true by (unfold rleb; destruct (Rle_dec w 1); [reflexivity|lra]). cbn [andb require].
  assert (AT : forall (x : R), 0 <= x -> exists y, r_sawtooth_at (nearest_flx prec ties) p w x = Ok y /\ forall (k : nat) r, x = 2 * p * INR k + r -> 0 <= r < 2 * p ->
    (r < 2 * nearest_flx prec ties (w * p) -> -1 <= y <= 1 /\ Rabs (y - (r / (w * p) - 1)) <= gamma prec 3 * (r / (w * p) + 1)) /\
    (2 * nearest_flx prec ties (w * p) <= r -> Rabs (y - (w + 1 - r / p) / (1 - w)) <= gamma prec 4 * ((w + 1 + r / p) / (1 - w)))).
  { intros x Hx. assert (D : exists (k : nat) r, x = 2 * p * INR k + r /\ 0 <= r < 2 * p).
    { pose proof (archimed (x / (2 * p))) as [U1 U2]. set (z := (up (x / (2 * p)) - 1)%Z). assert (Z1 : IZR z <= x / (2 * p) < IZR z + 1) by (unfold z; rewrite minus_IZR; lra).
      assert (X0 : 0 <= x / (2 * p)) by (apply Rmult_le_pos; [lra|left; apply Rinv_0_lt_compat; lra]). assert (Z0 : (0 <= z)%Z) by (assert (-1 < z)%Z; [apply lt_IZR; lra|lia]).
      exists (Z.to_nat z), (x - 2 * p * IZR z). rewrite INR_IZR_INZ, Z2Nat.id by exact Z0. split; [ring|]. assert (E : x = x / (2 * p) * (2 * p)) by (field; lra). destruct Z1 as [Z1 Z2]. apply (Rmult_le_compat_r (2 * p)) in Z1; [|lra]. apply (Rmult_lt_compat_r (2 * p)) in Z2; [|lra]. split; lra. }
    destruct D as (k & r & E & Hr). unfold r_sawtooth_at. rewrite (period prec ties Hp p Fp), (threshold prec ties Hp p w Fw), E, fmod_period by exact Hr. cbv zeta.
    assert (U : forall (k' : nat) r', 2 * p * INR k + r = 2 * p * INR k' + r' -> 0 <= r' < 2 * p -> r' = r) by (intros k' r' E' Hr'; rewrite <- (fmod_period (2 * p) k r Hr), <- (fmod_period (2 * p) k' r' Hr'); now rewrite E').
    destruct (rltb r (2 * nearest_flx prec ties (w * p))) eqn:B.
    - apply rltb_spec in B. destruct (rising prec ties Hp p w Pp Fw W r (proj1 Hr) B) as [W0 Q]. replace (rltb 0 w) with true by (symmetry; now apply rltb_spec). cbn [require]. eexists. split; [reflexivity|].
      intros k' r' E' Hr'. rewrite (U k' r' E' Hr'). split; [intros _; exact Q|intros C; lra].
    - apply rltb_no in B. assert (W1 : w < 1). { destruct (Req_dec w 1) as [->|]; [|lra]. rewrite Rmult_1_l, (fix_ prec ties Hp p Fp) in B. lra. }
      replace (rltb w 1) with true by (symmetry; now apply rltb_spec). cbn [require]. eexists. split; [reflexivity|].
      intros k' r' E' Hr'. rewrite (U k' r' E' Hr'). split; [intros C; lra|intros _; exact (falling prec ties Hp p w Pp W r (proj1 Hr) W1)]. }
  induction HT as [|x t Hx _ IH]; cbn [map_out]; [exists []; split; [reflexivity|split; [reflexivity|intros i k r Hi; cbn in Hi; lia]]|].
  destruct (AT x Hx) as (y0 & E0 & P0). destruct IH as (ys & E1 & L1 & P1). rewrite E0. cbn [bind]. rewrite E1. cbn [bind]. eexists. split; [reflexivity|]. split; [cbn [length]; now rewrite L1|].
  intros [|i] k r Hi E Hr; cbn [nth length] in *; [now apply (P0 k r)|apply (P1 i k r); [lia|exact E|exact Hr]].
Qed.
Print Assumptions C135_sawtooth_partial.
(** the default width, 1: always in [-1, 1] *)
Theorem C135_default_width : forall (prec : Z) (ties : Z -> bool) (p : R) (t : list R), (0 < prec)%Z -> in_flx prec p -> 0 < p -> Forall (fun x => 0 <= x) t ->
  exists y, r_sawtooth (nearest_flx prec ties) p t 1 = Ok y /\ length y = length t /\
  forall (i : nat) (k : nat) r, (i < length t)%nat -> nth i t 0 = 2 * p * INR k + r -> 0 <= r < 2 * p ->
    -1 <= nth i y 0 <= 1 /\ Rabs (nth i y 0 - (r / p - 1)) <= gamma prec 3 * (r / p + 1).
Proof.
  intros prec ties p t Hp Fp Pp HT. destruct (C135_sawtooth_partial prec ties p 1 t Hp Fp Pp (one_in prec Hp) ltac:(lra) HT) as (y & E & L & Q). exists y. split; [exact E|split; [exact L|]].
  intros i k r Hi Et Hr. destruct (Q i k r Hi Et Hr) as [A _]. rewrite Rmult_1_l, (fix_ prec ties Hp p Fp) in A. exact (A (proj2 Hr)).
Qed.
Print Assumptions C135_default_width.
(** "between -1 and 1" fails for a width just below 1: the falling part reaches 2 (pi<double> and a time just below its double) *)
Theorem C135_range_refuted : forall ties, let p := 7074237752028440 * bpow radix2 (-51) in let w := 1 - bpow radix2 (-52) in let t := 2 * p - bpow radix2 (-49) in
  in_flx 53 p /\ in_flx 53 w /\ in_flx 53 t /\ 0 < t < 2 * p /\ r_sawtooth (nearest_flx 53 ties) p [t] w = Ok [2].
Proof.
  intros ties p w t. assert (Fp : in_flx 53 p) by (apply generic_format_FLX; exists (Float radix2 7074237752028440 (-51)); [reflexivity|cbn; lia]).
  assert (Fw : in_flx 53 w) by (apply generic_format_FLX; exists (Float radix2 4503599627370495 (-52)); [unfold w, F2R; cbn; lra|cbn; lia]).
  assert (Ft : in_flx 53 t) by (apply generic_format_FLX; exists (Float radix2 7074237752028438 (-50)); [unfold t, p, F2R; cbn; lra|cbn; lia]).
  split; [exact Fp|]. split; [exact Fw|]. split; [exact Ft|]. assert (T : 0 < t < 2 * p) by (unfold t, p; cbn; lra). split; [exact T|].
  assert (W : 0 < w < 1) by (unfold w; cbn; lra).
  unfold r_sawtooth. replace (rleb 0 w) with true by (unfold rleb; destruct (Rle_dec 0 w); [reflexivity|lra]). replace (rleb w 1) with true by (unfold rleb; destruct (Rle_dec w 1); [reflexivity|lra]). cbn [andb require map_out].
  unfold r_sawtooth_at. rewrite (period 53 ties ltac:(lia) p Fp), (threshold 53 ties ltac:(lia) p w Fw). cbv zeta.
  assert (FM : fmod t (2 * p) = t) by (pose proof (fmod_period (2 * p) 0 t ltac:(lra)) as Q; rewrite Rmult_0_r, Rplus_0_l in Q; exact Q). rewrite FM.
  assert (TH : 2 * nearest_flx 53 ties (w * p) = t) by (unfold w, p; round_at (-51)%Z 7074237752028438%Z; unfold t, p; cbn; lra). rewrite TH.
  replace (rltb t t) with false by (symmetry; apply rltb_no; lra). replace (rltb w 1) with true by (symmetry; apply rltb_spec; lra). cbn [require bind].
  assert (A : nearest_flx 53 ties (w + 1) = 2 - bpow radix2 (-52)) by (unfold w; round_at (-52)%Z 9007199254740991%Z; cbn; lra).
  assert (B : nearest_flx 53 ties (t / p) = 2 - 3 * bpow radix2 (-52)).
  { replace (t / p) with (14148475504056876 / 7074237752028440) by (unfold t, p; cbn; lra). round_at (-52)%Z 9007199254740989%Z. cbn. lra. }
  assert (C : nearest_flx 53 ties (1 - w) = bpow radix2 (-52)) by (replace (1 - w) with (bpow radix2 (-52)) by (unfold w; ring); apply (fix_ 53 ties ltac:(lia)); apply generic_format_bpow; cbn; lia).
  rewrite A, B, C. replace (2 - bpow radix2 (-52) - (2 - 3 * bpow radix2 (-52))) with (bpow radix2 (-51)) by (cbn; lra).
  rewrite (fix_ 53 ties ltac:(lia) (bpow radix2 (-51))) by (apply generic_format_bpow; cbn; lia).
  replace (bpow radix2 (-51) / bpow radix2 (-52)) with 2 by (cbn; lra). rewrite (fix_ 53 ties ltac:(lia) 2) by (apply two_in; lia). reflexivity.
Qed.
Print Assumptions C135_range_refuted.
Example C135_nonvacuous : exists y, r_sawtooth (nearest_flx 53 (fun z => negb (Z.even z))) 3 [0; 3; 9] 1 = Ok y /\ length y = 3%nat /\ Rabs (nth 2 y 0 - 0) <= gamma 53 3 * 2.
Proof.
  destruct (C135_default_width 53 (fun z => negb (Z.even z)) 3 [0; 3; 9] ltac:(lia) ltac:(apply flx_integer; lia) ltac:(lra) ltac:(repeat constructor; lra)) as (y & E & L & Q). exists y. split; [exact E|split; [exact L|]].
  destruct (Q 2%nat 1%nat 3 ltac:(cbn; lia) ltac:(cbn; lra) ltac:(lra)) as [_ B]. replace (3 / 3 - 1) with 0 in B by lra. replace (3 / 3 + 1) with 2 in B by lra. exact B.
Qed.
