(** C121: quantities of a floating-point representation type (units/quantity.hpp). *)
From Coq Require Import ZArith Reals Bool.
From Flocq Require Import Core Mult_error Relative.
From Verif Require Import Base Arith ArithValue Quantity QuantityFacts QuantityInt UnitsSpec PropUnits FloatArith FloatArithFacts PropFloatArith FloatVarFacts PropFloatVar FloatWindowsFacts PropFloatWindows FloatUnits FloatUnitsFacts.
From Coq Require Import Lra Psatz Lia.
Open Scope R_scope.

(** Two units of one dimension with rational scales. *)
Definition compatible (a b : uty) : Prop := unit_ok a /\ unit_ok b /\ rational_scale a /\ rational_scale b /\ u_dim a = u_dim b.
(** Two such units with the same offset whose comparison factors are integers exactly representable with [prec] bits. *)
Definition comparable (prec : Z) (a b : uty) : Prop := compatible a b /\ u_off a = u_off b /\
  (rr_num (u_scale a) * rr_den (u_scale b) * r_den (u_off a) * r_den (u_off b) <= 2 ^ prec)%Z /\
  (rr_num (u_scale b) * rr_den (u_scale a) * r_den (u_off b) * r_den (u_off a) <= 2 ^ prec)%Z.

Lemma flx_rd prec ties : (0 < prec)%Z -> rounding (uro prec) 0 (in_flx prec) (nearest_flx prec ties).
Proof. exact (flx_rounding prec ties). Qed.

Section Setup.
Variables (prec : Z) (ties : Z -> bool).
Hypothesis Hp : (0 < prec)%Z.
Notation rnd := (nearest_flx prec ties).
Let RD : rounding (uro prec) 0 (in_flx prec) rnd := flx_rd prec ties Hp.
Let Hinv := fun x => nearest_inv prec ties x Hp.
Let F1 : in_flx prec 1 := flx_integer prec 1 Hp ltac:(pose proof (Z.pow_pos_nonneg 2 prec); lia).
Lemma cast_form' nan fuel a b : compatible a b ->
  exists s o, (forall v, fl_cast rnd nan fuel a b v = Some (rnd (rnd (s * v) + o))) /\ 0 < s /\
    rel (uro prec) 3 s (scale a / scale b) /\ rel (uro prec) 3 o (offset a - offset b) /\
    (u_off a = u_off b -> o = 0) /\ (u_scale a = u_scale b -> s = 1) /\
    (forall n, scale a = IZR n * scale b -> in_flx prec (IZR n) -> s = IZR n).
Proof. intros (Wa & Wb & Ra & Rb & D). exact (cast_form _ _ _ RD Hinv F1 nan fuel a b Wa Wb Ra Rb D). Qed.
Lemma cast_exact fuel a b v : compatible a b -> cast_R fuel a b v = Some (scale a / scale b * v + (offset a - offset b)).
Proof.
  intros (Wa & Wb & Ra & Rb & D). destruct (proj2 (C67_compiles fuel a b v) D Ra Rb) as [w E]. rewrite E. f_equal. exact (proj2 (@castR_val fuel a b v w Wa Wb E)).
Qed.
Lemma gm k : gamma prec k = g (uro prec) k - 1. Proof. reflexivity. Qed.
Lemma rel_close k x X : rel (uro prec) k x X -> Rabs (x - X) <= gamma prec k * Rabs X.
Proof. intros H. pose proof (acc_err _ _ _ _ _ _ (rel_acc _ _ _ RD k x X (Rabs X) (Rle_refl _) H)) as Q. rewrite gm. lra. Qed.
Lemma cast_rel nan fuel a b v : compatible a b -> u_off a = u_off b -> exists w, fl_cast rnd nan fuel a b v = Some w /\ in_flx prec w /\ rel (uro prec) 4 w (scale a / scale b * v).
Proof.
  intros C O. destruct (cast_form' nan fuel a b C) as (s & o & E & Ps & Rs & Ro & O0 & _). specialize (O0 O). subst o. exists (rnd (s * v)). rewrite E, Rplus_0_r.
  split; [f_equal; apply (rd_id _ _ _ _ RD), (rd_fmt _ _ _ _ RD)|split; [apply (rd_fmt _ _ _ _ RD)|]].
  apply (rel_rnd _ _ _ RD Hinv 3). replace 3%nat with (3 + 0)%nat by lia. apply (rel_mul _ _ _ RD 3 0); [exact Rs|apply (rel_0 _ _ _ RD)].
Qed.
Lemma Fint z : (Z.abs z <= 2 ^ prec)%Z -> in_flx prec (IZR z). Proof. now apply flx_integer. Qed.
End Setup.

(** quantity_cast and the converting constructor: five roundings away from the exact conversion, relative to the sum of the magnitudes of the scaled
    value and of the offset difference ... *)
Theorem C121_cast : forall (prec : Z) (ties : Z -> bool) (nan : R) (fuel : nat) (a b : uty) (v : R),
  (0 < prec)%Z -> compatible a b ->
  exists w W, fl_cast (nearest_flx prec ties) nan fuel a b v = Some w /\ cast_R fuel a b v = Some W /\
    Rabs (w - W) <= gamma prec 5 * (scale a / scale b * Rabs v + Rabs (offset a - offset b)).
Proof.
  intros prec ties nan fuel a b v Hp C. destruct (cast_form' prec ties Hp nan fuel a b C) as (s & o & E & Ps & Rs & Ro & _).
  eexists. eexists. split; [apply E|split; [now apply cast_exact|]]. pose proof (flx_rd prec ties Hp) as RD. pose proof (fun x => nearest_inv prec ties x Hp) as Hi.
  assert (A1 : acc (uro prec) 4 (Rabs (scale a / scale b * v)) 0 (nearest_flx prec ties (s * v)) (scale a / scale b * v)).
  { apply (rel_acc _ _ _ RD); [lra|]. apply (rel_rnd _ _ _ RD Hi 3). exact (rel_mul _ _ _ RD 3 0 _ _ _ _ Rs (rel_0 _ _ _ RD v)). }
  assert (A2 : acc (uro prec) 4 (Rabs (offset a - offset b)) 0 o (offset a - offset b)).
  { apply (acc_weak _ _ _ RD 3 4 (Rabs (offset a - offset b)) _ 0); [lia|lra|lra|]. apply (rel_acc _ _ _ RD); [lra|exact Ro]. }
  pose proof (acc_err _ _ _ _ _ _ (acc_rnd _ _ _ RD _ _ _ _ _ (acc_add _ _ _ _ _ _ _ _ _ _ A1 A2))) as Q. rewrite Rabs_mult in Q.
  rewrite (Rabs_pos_eq (scale a / scale b)) in Q by (left; apply Rdiv_lt_0_compat; apply scale_pos). change (gamma prec 5) with (g (uro prec) 5 - 1).
  lra.
Qed.
Print Assumptions C121_cast.

(** ... and four roundings, relative to the value itself, when the offsets are the same: the physical value is preserved to a few units in the last place,
    in particular zero and the sign are preserved. *)
Theorem C121_cast_same_offset : forall (prec : Z) (ties : Z -> bool) (nan : R) (fuel : nat) (a b : uty) (v : R),
  (0 < prec)%Z -> compatible a b -> u_off a = u_off b ->
  exists w, fl_cast (nearest_flx prec ties) nan fuel a b v = Some w /\ in_flx prec w /\
    Rabs (physical b w - physical a v) <= gamma prec 4 * (scale a * Rabs v) /\
    (w = 0 <-> v = 0) /\ (w < 0 <-> v < 0) /\ (0 < w <-> 0 < v).
Proof.
  intros prec ties nan fuel a b v Hp C O. destruct (cast_rel prec ties Hp nan fuel a b v C O) as (w & E & Fw & H). exists w. split; [exact E|split; [exact Fw|]].
  pose proof (scale_pos a) as Pa. pose proof (scale_pos b) as Pb. split.
  - pose proof (rel_close prec ties Hp 4 _ _ H) as Q. change (physical b w) with (scale b * w + offset b). change (physical a v) with (scale a * v + offset a).
    replace (offset b) with (offset a) by (unfold offset; now rewrite O). replace (scale b * w + offset a - (scale a * v + offset a)) with (scale b * (w - scale a / scale b * v)) by (field; lra).
    rewrite Rabs_mult, (Rabs_pos_eq (scale b)) by lra. eapply Rle_trans; [apply Rmult_le_compat_l; [lra|exact Q]|].
    rewrite Rabs_mult, (Rabs_pos_eq (scale a / scale b)) by (left; now apply Rdiv_lt_0_compat). apply Req_le. field. lra.
  - destruct H as (r & [R1 R2] & ->). pose proof (gi _ _ _ (flx_rd prec ties Hp) 4) as G. assert (K : 0 < scale a / scale b) by now apply Rdiv_lt_0_compat.
    assert (Kr : 0 < scale a / scale b * r) by (apply Rmult_lt_0_compat; [exact K|lra]). replace (scale a / scale b * v * r) with (scale a / scale b * r * v) by ring.
    clear R1 R2 G K E Fw Pa Pb. set (k := scale a / scale b * r) in *. clearbody k. clear - Kr.
    split; [split; intros H; [apply Rmult_integral in H; lra|subst; ring]|split; split; intros H; nra].
Qed.
Print Assumptions C121_cast_same_offset.

(** A conversion never reverses an order, whatever the units and offsets. *)
Theorem C121_cast_monotone : forall (prec : Z) (ties : Z -> bool) (nan : R) (fuel : nat) (a b : uty) (v v' : R),
  (0 < prec)%Z -> compatible a b -> v <= v' ->
  exists w w', fl_cast (nearest_flx prec ties) nan fuel a b v = Some w /\ fl_cast (nearest_flx prec ties) nan fuel a b v' = Some w' /\ w <= w'.
Proof.
  intros prec ties nan fuel a b v v' Hp C H. destruct (cast_form' prec ties Hp nan fuel a b C) as (s & o & E & Ps & _). eexists. eexists. split; [apply E|split; [apply E|]].
  pose proof (rd_mono _ _ _ _ (flx_rd prec ties Hp)) as M. apply M, Rplus_le_compat_r, M. apply Rmult_le_compat_l; lra.
Qed.
Print Assumptions C121_cast_monotone.

(** Exact conversions: to the unit itself, and to an n times smaller unit when n and n v are representable. *)
Theorem C121_cast_exact : forall (prec : Z) (ties : Z -> bool) (nan : R) (fuel : nat) (a b : uty) (v : R) (n : Z),
  (0 < prec)%Z -> compatible a b -> u_off a = u_off b -> scale a = IZR n * scale b ->
  in_flx prec (IZR n) -> in_flx prec (IZR n * v) ->
  fl_cast (nearest_flx prec ties) nan fuel a b v = Some (IZR n * v) /\ physical b (IZR n * v) = physical a v.
Proof.
  intros prec ties nan fuel a b v n Hp C O S Fn Fv. destruct (cast_form' prec ties Hp nan fuel a b C) as (s & o & E & Ps & _ & _ & O0 & _ & Sn). split.
  - rewrite E, (O0 O), (Sn n S Fn), Rplus_0_r. f_equal. pose proof (rd_id _ _ _ _ (flx_rd prec ties Hp)) as Id. rewrite !Id; [reflexivity|exact Fv|]. rewrite Id; exact Fv.
  - change (scale b * (IZR n * v) + offset b = scale a * v + offset a). unfold offset. rewrite O, S. ring.
Qed.
Print Assumptions C121_cast_exact.
Theorem C121_cast_same_unit : forall (prec : Z) (ties : Z -> bool) (nan : R) (fuel : nat) (a : uty) (v : R),
  (0 < prec)%Z -> unit_ok a -> rational_scale a -> in_flx prec v -> fl_cast (nearest_flx prec ties) nan fuel a a v = Some v.
Proof.
  intros prec ties nan fuel a v Hp Wa Ra Fv. assert (C : compatible a a) by (exact (conj Wa (conj Wa (conj Ra (conj Ra eq_refl))))).
  destruct (C121_cast_exact prec ties nan fuel a a v 1 Hp C eq_refl) as [E _].
  - ring.
  - apply Fint; [exact Hp|]. pose proof (Z.pow_pos_nonneg 2 prec). lia.
  - now rewrite Rmult_1_l.
  - now rewrite E, Rmult_1_l.
Qed.
Print Assumptions C121_cast_same_unit.

(** There and back: eight roundings ... *)
Theorem C121_round_trip : forall (prec : Z) (ties : Z -> bool) (nan : R) (fuel : nat) (a b : uty) (v : R),
  (0 < prec)%Z -> compatible a b -> u_off a = u_off b ->
  exists w v', fl_cast (nearest_flx prec ties) nan fuel a b v = Some w /\ fl_cast (nearest_flx prec ties) nan fuel b a w = Some v' /\
    Rabs (v' - v) <= gamma prec 8 * Rabs v.
Proof.
  intros prec ties nan fuel a b v Hp C O. destruct (cast_rel prec ties Hp nan fuel a b v C O) as (w & E & _ & (r & Hr & Ew)).
  assert (C' : compatible b a) by (destruct C as (C1 & C2 & C3 & C4 & C5); exact (conj C2 (conj C1 (conj C4 (conj C3 (eq_sym C5)))))).
  destruct (cast_rel prec ties Hp nan fuel b a w C' (eq_sym O)) as (v' & E' & _ & H'). exists w, v'. split; [exact E|split; [exact E'|]].
  apply (rel_close prec ties Hp). replace 8%nat with (4 + 4)%nat by lia. pose proof (flx_rd prec ties Hp) as RD.
  apply (rel_trans _ _ _ RD 4 4 _ (scale b / scale a * w)); [exact H'|]. exists r. split; [exact Hr|]. rewrite Ew. pose proof (scale_pos a). pose proof (scale_pos b). field. lra.
Qed.
Print Assumptions C121_round_trip.

(** ** evaluating roundings *)
Lemma nearest_at prec ties e m x : bpow radix2 (prec - 1 + e) <= Rabs x < bpow radix2 (prec + e) -> Rabs (x * bpow radix2 (- e) - IZR m) < / 2 ->
  nearest_flx prec ties x = IZR m * bpow radix2 e.
Proof.
  intros M H. unfold nearest_flx, round, scaled_mantissa, cexp. rewrite (mag_unique radix2 x (prec + e)); [|replace (prec + e - 1)%Z with (prec - 1 + e)%Z by lia; exact M].
  unfold FLX_exp. replace (prec + e - prec)%Z with e by lia. rewrite (Znearest_imp _ _ m) by exact H. reflexivity.
Qed.
Ltac round_at e m := rewrite (nearest_at _ _ e m);
  [|rewrite Rabs_pos_eq by (cbn; lra); cbn; lra|apply Rabs_def1; cbn; lra].

Section Binary64.
Variable ties : Z -> bool.
Notation rnd := (nearest_flx 53 ties).
Lemma id53 x : in_flx 53 x -> rnd x = x.
Proof. exact (rd_id _ _ _ _ (flx_rd 53 ties ltac:(lia)) x). Qed.
Lemma int53 z : (Z.abs z <= 2 ^ 53)%Z -> rnd (IZR z) = IZR z.
Proof. intros H. apply id53. apply flx_integer; [lia|exact H]. Qed.
Lemma rr53 x : rnd (rnd x) = rnd x.
Proof. apply id53. exact (rd_fmt _ _ _ _ (flx_rd 53 ties ltac:(lia)) x). Qed.
Lemma dyadic53 m e : (Z.abs m <= 2 ^ 53)%Z -> in_flx 53 (IZR m * bpow radix2 e).
Proof. intros H. apply mult_bpow_exact_FLX. apply flx_integer; [lia|exact H]. Qed.
Lemma milli : rnd (1 / 1000) = 4611686018427388 * bpow radix2 (-62).
Proof. now round_at (-62)%Z 4611686018427388%Z. Qed.
Lemma m_to_km nan fuel v : fl_cast rnd nan fuel metre kilometre v = Some (rnd (4611686018427388 * bpow radix2 (-62) * v)).
Proof.
  unfold fl_cast, quantity_cast. change (rr_eqb (u_dim metre) (u_dim kilometre)) with true. change (rr_divide fuel (u_scale metre) (u_scale kilometre)) with (Some (RR 1 1000 1)).
  unfold fl_eval, ct_root, fl_quot, fl_Z. cbn [rr_num rr_den rr_root]. rewrite !(int53 1), (int53 1000), milli by lia.
  destruct (RltbR (4611686018427388 * bpow radix2 (-62)) 0) eqn:E; [apply rltb_iff in E; cbn in E; lra|].
  change (ratio_subtract (u_off metre) (u_off kilometre)) with (Ratio 0 1). cbn [r_num r_den Z.eqb Pos.eqb]. rewrite (int53 1), (int53 0) by lia.
  unfold fl_add, fl_mul. replace (0 / 1) with (IZR 0) by lra. rewrite (int53 0), Rplus_0_r, rr53 by lia. reflexivity.
Qed.
Lemma km_to_m nan fuel v : fl_cast rnd nan fuel kilometre metre v = Some (rnd (1000 * v)).
Proof.
  unfold fl_cast, quantity_cast. change (rr_eqb (u_dim kilometre) (u_dim metre)) with true. change (rr_divide fuel (u_scale kilometre) (u_scale metre)) with (Some (RR 1000 1 1)).
  unfold fl_eval, ct_root, fl_quot, fl_Z. cbn [rr_num rr_den rr_root]. rewrite !(int53 1), (int53 1000) by lia. replace (1000 / 1) with (IZR 1000) by lra. rewrite (int53 1000) by lia.
  destruct (RltbR 1000 0) eqn:E; [apply rltb_iff in E; lra|].
  change (ratio_subtract (u_off kilometre) (u_off metre)) with (Ratio 0 1). cbn [r_num r_den Z.eqb Pos.eqb]. rewrite (int53 1), (int53 0) by lia.
  unfold fl_add, fl_mul. replace (0 / 1) with (IZR 0) by lra. rewrite (int53 0), Rplus_0_r, rr53 by lia. reflexivity.
Qed.
(** units without offset and with small scales: the comparison of the scaled values *)
Lemma eq53 a b x y F G : u_off a = Ratio 0 1 -> u_off b = Ratio 0 1 -> (rr_num (u_scale a) * rr_den (u_scale b) = F)%Z -> (rr_num (u_scale b) * rr_den (u_scale a) = G)%Z ->
  (0 <= F <= 2 ^ 53)%Z -> (0 <= G <= 2 ^ 53)%Z -> (fl_eq rnd a b x y = true <-> rnd (IZR F * x) = rnd (IZR G * y)).
Proof.
  intros Oa Ob EF EG HF HG. unfold fl_eq, q_eq, fl_Z, fl_mul, fl_add. rewrite Oa, Ob. cbn [r_num r_den]. rewrite !Z.mul_1_r, EF, EG, !Z.mul_0_l, !(int53 F), !(int53 G), !(int53 0), !Rplus_0_r, !rr53 by lia.
  unfold ReqbR. destruct (Req_EM_T _ _); split; intros; congruence.
Qed.
Lemma lt53 a b x y F G : u_off a = Ratio 0 1 -> u_off b = Ratio 0 1 -> (rr_num (u_scale a) * rr_den (u_scale b) = F)%Z -> (rr_num (u_scale b) * rr_den (u_scale a) = G)%Z ->
  (0 <= F <= 2 ^ 53)%Z -> (0 <= G <= 2 ^ 53)%Z -> (fl_lt rnd a b x y = true <-> rnd (IZR F * x) < rnd (IZR G * y)).
Proof.
  intros Oa Ob EF EG HF HG. unfold fl_lt, q_lt, fl_Z, fl_mul, fl_add. rewrite Oa, Ob. cbn [r_num r_den]. rewrite !Z.mul_1_r, EF, EG, !Z.mul_0_l, !(int53 F), !(int53 G), !(int53 0), !Rplus_0_r, !rr53 by lia.
  apply rltb_iff.
Qed.
End Binary64.

(** ... which are not always zero: 51. m converted to kilometres is not the double nearest to 0.051 km, compares different from 51. m, and converted back is
    51.00000000000001 m (the conversion multiplies by the double nearest to 1/1000 instead of dividing by 1000). *)
Theorem C121_round_trip_refuted : forall (ties : Z -> bool) (nan : R) (fuel : nat), exists w v',
  fl_cast (nearest_flx 53 ties) nan fuel metre kilometre 51 = Some w /\ w <> nearest_flx 53 ties (51 / 1000) /\
  fl_eq (nearest_flx 53 ties) metre kilometre 51 w = false /\
  fl_cast (nearest_flx 53 ties) nan fuel kilometre metre w = Some v' /\ v' = 51 + bpow radix2 (-47).
Proof.
  intros ties nan fuel. exists (7349874591868650 * bpow radix2 (-57)), (7177611906121729 * bpow radix2 (-47)).
  assert (B : nearest_flx 53 ties (1000 * (7349874591868650 * bpow radix2 (-57))) = 7177611906121729 * bpow radix2 (-47)) by now round_at (-47)%Z 7177611906121729%Z.
  split; [|split; [|split; [|split]]].
  - rewrite m_to_km. f_equal. now round_at (-57)%Z 7349874591868650%Z.
  - intros E. revert E. round_at (-57)%Z 7349874591868649%Z. cbn. lra.
  - destruct (fl_eq _ _ _ _ _) eqn:E; [|reflexivity]. exfalso. apply (eq53 ties metre kilometre 51 _ 1 1000) in E; try reflexivity; try lia. rewrite B in E.
    replace (1 * 51) with (IZR 51) in E by lra. rewrite int53 in E by lia. revert E. cbn. lra.
  - rewrite km_to_m. f_equal. exact B.
  - cbn. lra.
Qed.
Print Assumptions C121_round_trip_refuted.

(** Comparisons of quantities with the same offset never contradict the order of the physical values: a strict answer is right, physically equal values compare equal,
    and exactly one of <, ==, > is true. *)
Theorem C121_comparisons : forall (prec : Z) (ties : Z -> bool) (a b : uty) (x y : R), (0 < prec)%Z -> comparable prec a b ->
  let lt := fl_lt (nearest_flx prec ties) a b x y in let eq := fl_eq (nearest_flx prec ties) a b x y in let gt := fl_gt (nearest_flx prec ties) a b x y in
  (lt = true -> physical a x < physical b y) /\ (gt = true -> physical a x > physical b y) /\ (physical a x = physical b y -> eq = true) /\
  fl_ne (nearest_flx prec ties) a b x y = negb eq /\ fl_le (nearest_flx prec ties) a b x y = negb gt /\ fl_ge (nearest_flx prec ties) a b x y = negb lt /\
  ((lt = true /\ eq = false /\ gt = false) \/ (lt = false /\ eq = true /\ gt = false) \/ (lt = false /\ eq = false /\ gt = true)).
Proof.
  intros prec ties a b x y Hp ((Wa & Wb & Ra & Rb & D) & O & HF & HG). cbv zeta. pose proof (flx_rd prec ties Hp) as RD.
  assert (P1 : (0 < rr_num (u_scale a) * rr_den (u_scale b) * r_den (u_off a) * r_den (u_off b))%Z).
  { destruct Wa as (_ & (? & ? & _) & ?). destruct Wb as (_ & (? & ? & _) & ?). repeat apply Z.mul_pos_pos; assumption. }
  assert (P2 : (0 < rr_num (u_scale b) * rr_den (u_scale a) * r_den (u_off b) * r_den (u_off a))%Z).
  { destruct Wa as (_ & (? & ? & _) & ?). destruct Wb as (_ & (? & ? & _) & ?). repeat apply Z.mul_pos_pos; assumption. }
  assert (FF := Fint prec Hp _ ltac:(rewrite Z.abs_eq by (apply Z.lt_le_incl, P1); exact HF)). assert (FG := Fint prec Hp _ ltac:(rewrite Z.abs_eq by (apply Z.lt_le_incl, P2); exact HG)).
  pose proof (lt_form _ _ _ RD a b O FF FG x y) as EL. pose proof (eq_form _ _ _ RD a b O FF FG x y) as EE. pose proof (lt_form _ _ _ RD b a (eq_sym O) FG FF y x) as EG.
  pose proof (key_mono _ _ _ RD a b Wa Wb Ra Rb x y) as K1. pose proof (key_mono' _ _ _ RD a b Wa Wb Ra Rb x y) as K2.
  change (fl_gt (nearest_flx prec ties) a b x y) with (fl_lt (nearest_flx prec ties) b a y x).
  replace (nearest_flx prec ties (IZR (r_num (u_off b) * rr_den (u_scale a) * rr_den (u_scale b) * r_den (u_off a)))) with
    (nearest_flx prec ties (IZR (r_num (u_off a) * rr_den (u_scale b) * rr_den (u_scale a) * r_den (u_off b)))) in EG by (f_equal; rewrite O; f_equal; ring).
  set (p := nearest_flx prec ties (_ + _)) in EL at 1. set (q := nearest_flx prec ties (_ + _)) in EL at 1. change (rr_val (u_scale a)) with (scale a) in *. change (rr_val (u_scale b)) with (scale b) in *.
  fold p q in EE, EG, K1, K2.
  assert (PH : physical a x - physical b y = scale a * x - scale b * y).
  { change (scale a * x + offset a - (scale b * y + offset b) = scale a * x - scale b * y). unfold offset. rewrite O. ring. }
  split; [|split; [|split; [|split; [|split; [|split]]]]]; try reflexivity.
  - rewrite EL. intros H. apply rltb_iff in H. destruct (Rle_lt_dec (scale b * y) (scale a * x)) as [C|C]; [specialize (K2 C); lra|lra].
  - rewrite EG. intros H. apply rltb_iff in H. destruct (Rle_lt_dec (scale a * x) (scale b * y)) as [C|C]; [specialize (K1 C); lra|lra].
  - intros H. rewrite EE. unfold ReqbR. destruct (Req_EM_T p q) as [|N]; [reflexivity|]. exfalso. apply N. apply Rle_antisym; [apply K1; lra|apply K2; lra].
  - rewrite EL, EE, EG. unfold ReqbR, RltbR. destruct (Rtotal_order p q) as [C|[C|C]]; destruct (Req_EM_T p q); destruct (Rlt_dec p q); destruct (Rlt_dec q p); try lra; auto.
Qed.
Print Assumptions C121_comparisons.

(** Quantities without offset that compare equal differ by about two units in the last place at most ... *)
Theorem C121_equal_close : forall (prec : Z) (ties : Z -> bool) (a b : uty) (x y : R), (0 < prec)%Z -> comparable prec a b -> offset a = 0 ->
  fl_eq (nearest_flx prec ties) a b x y = true -> Rabs (physical a x - physical b y) <= 2 * uro prec * (1 + uro prec) * Rabs (physical a x).
Proof.
  intros prec ties a b x y Hp ((Wa & Wb & Ra & Rb & D) & O & HF & HG) Z E. pose proof (flx_rd prec ties Hp) as RD.
  assert (Z0 : r_num (u_off a) = 0%Z).
  { apply eq_IZR. unfold offset, Rdiv in Z. apply Rmult_integral in Z. destruct Z as [Z|Z]; [exact Z|]. exfalso. destruct Wa as (_ & _ & Oa). apply (Rinv_neq_0_compat (IZR (r_den (u_off a)))); [apply not_0_IZR; lia|exact Z]. }
  assert (P1 : (0 < rr_num (u_scale a) * rr_den (u_scale b) * r_den (u_off a) * r_den (u_off b))%Z).
  { destruct Wa as (_ & (? & ? & _) & ?). destruct Wb as (_ & (? & ? & _) & ?). repeat apply Z.mul_pos_pos; assumption. }
  assert (P2 : (0 < rr_num (u_scale b) * rr_den (u_scale a) * r_den (u_off b) * r_den (u_off a))%Z).
  { destruct Wa as (_ & (? & ? & _) & ?). destruct Wb as (_ & (? & ? & _) & ?). repeat apply Z.mul_pos_pos; assumption. }
  assert (FF := Fint prec Hp _ ltac:(rewrite Z.abs_eq by (apply Z.lt_le_incl, P1); exact HF)). assert (FG := Fint prec Hp _ ltac:(rewrite Z.abs_eq by (apply Z.lt_le_incl, P2); exact HG)).
  pose proof (eq_close _ _ _ RD (fun t => nearest_inv prec ties t Hp) a b Wa Wb O FF FG Ra Rb x y Z0 E) as Q.
  change (physical a x) with (scale a * x + offset a). change (physical b y) with (scale b * y + offset b). replace (offset b) with (offset a) by (unfold offset; now rewrite O). rewrite Z, !Rplus_0_r. exact Q.
Qed.
Print Assumptions C121_equal_close.

(** ... but need not be equal, even when they have the same type: two different numbers of kilometres compare equal (both are multiplied by 1000 and rounded first). *)
Theorem C121_equal_refuted : forall (ties : Z -> bool), exists x y, in_flx 53 x /\ in_flx 53 y /\ x < y /\ physical kilometre x < physical kilometre y /\
  fl_eq (nearest_flx 53 ties) kilometre kilometre x y = true /\ fl_lt (nearest_flx 53 ties) kilometre kilometre x y = false.
Proof.
  intros ties. exists (6755399441055765 * bpow radix2 (-52)), (6755399441055766 * bpow radix2 (-52)).
  assert (A : nearest_flx 53 ties (1000 * (6755399441055765 * bpow radix2 (-52))) = 6597069766656021 * bpow radix2 (-42)) by now round_at (-42)%Z 6597069766656021%Z.
  assert (B : nearest_flx 53 ties (1000 * (6755399441055766 * bpow radix2 (-52))) = 6597069766656021 * bpow radix2 (-42)) by now round_at (-42)%Z 6597069766656021%Z.
  split; [apply dyadic53; lia|split; [apply dyadic53; lia|split; [cbn; lra|split; [|split]]]].
  - change (physical kilometre ?t) with (scale kilometre * t + offset kilometre). pose proof (scale_pos kilometre). apply Rplus_lt_compat_r, Rmult_lt_compat_l; [assumption|cbn; lra].
  - apply (eq53 ties kilometre kilometre _ _ 1000 1000); try reflexivity; try lia. congruence.
  - destruct (fl_lt _ _ _ _ _) eqn:E; [|reflexivity]. exfalso. apply (lt53 ties kilometre kilometre _ _ 1000 1000) in E; try reflexivity; try lia. rewrite A, B in E. lra.
Qed.
Print Assumptions C121_equal_refuted.

(** == is not transitive across three units: a number of kilometres equal to a number of metres that is equal to a number of centimetres, but different from it. *)
Theorem C121_transitive_refuted : forall (ties : Z -> bool), exists x y z, in_flx 53 x /\ in_flx 53 y /\ in_flx 53 z /\
  fl_eq (nearest_flx 53 ties) kilometre metre x y = true /\ fl_eq (nearest_flx 53 ties) metre centimetre y z = true /\ fl_eq (nearest_flx 53 ties) kilometre centimetre x z = false.
Proof.
  intros ties. exists (6755399441055755 * bpow radix2 (-52)), (6597069766656011 * bpow radix2 (-42)), (5153960755200009 * bpow radix2 (-35)).
  assert (I : forall m e, (Z.abs m <= 2 ^ 53)%Z -> nearest_flx 53 ties (1 * (IZR m * bpow radix2 e)) = IZR m * bpow radix2 e) by (intros m e H; rewrite Rmult_1_l; now apply id53, dyadic53).
  split; [apply dyadic53; lia|split; [apply dyadic53; lia|split; [apply dyadic53; lia|split; [|split]]]].
  - apply (eq53 ties kilometre metre _ _ 1000 1); try reflexivity; try lia. rewrite I by lia. now round_at (-42)%Z 6597069766656011%Z.
  - apply (eq53 ties metre centimetre _ _ 100 1); try reflexivity; try lia. rewrite I by lia. now round_at (-35)%Z 5153960755200009%Z.
  - destruct (fl_eq _ _ _ _ _) eqn:E; [|reflexivity]. exfalso. apply (eq53 ties kilometre centimetre _ _ 100000 1) in E; try reflexivity; try lia. rewrite I in E by lia. revert E.
    round_at (-35)%Z 5153960755200008%Z. cbn. lra.
Qed.
Print Assumptions C121_transitive_refuted.

(** qty / k multiplies by the rounded reciprocal: two roundings instead of one ... *)
Theorem C121_division : forall (prec : Z) (ties : Z -> bool) (x k : R), (0 < prec)%Z -> k <> 0 ->
  Rabs (fl_qdiv (nearest_flx prec ties) x k - x / k) <= gamma prec 2 * Rabs (x / k) /\
  Rabs (fl_qidiv (nearest_flx prec ties) x k - x / k) <= gamma prec 1 * Rabs (x / k) /\
  Rabs (fl_qmul (nearest_flx prec ties) x k - k * x) <= gamma prec 1 * Rabs (k * x) /\ fl_qmul (nearest_flx prec ties) x k = fl_qimul (nearest_flx prec ties) x k.
Proof.
  intros prec ties x k Hp Hk. pose proof (flx_rd prec ties Hp) as RD. pose proof (fun t => nearest_inv prec ties t Hp) as Hi. split; [|split; [|split]].
  - apply (rel_close prec ties Hp). unfold fl_qdiv, q_divs, q_muls, q_smul, fl_mul, fl_quot. apply (rel_rnd _ _ _ RD Hi 1). replace (x / k) with (1 / k * x) by (field; exact Hk).
    exact (rel_mul _ _ _ RD 1 0 _ _ _ _ (rel_rnd1 _ _ _ RD Hi (1 / k)) (rel_0 _ _ _ RD x)).
  - apply (rel_close prec ties Hp). apply (rel_rnd1 _ _ _ RD Hi).
  - apply (rel_close prec ties Hp). apply (rel_rnd1 _ _ _ RD Hi).
  - unfold fl_qmul, q_muls, q_smul, fl_qimul, fl_mul. now rewrite Rmult_comm.
Qed.
Print Assumptions C121_division.

(** ... and they differ: 49. m / 49. is 0.9999999999999999 m, while q /= 49. gives 1 m. *)
Theorem C121_division_refuted : forall (ties : Z -> bool),
  fl_qdiv (nearest_flx 53 ties) 49 49 = 1 - bpow radix2 (-53) /\ fl_qidiv (nearest_flx 53 ties) 49 49 = 1.
Proof.
  intros ties. split.
  - unfold fl_qdiv, q_divs, q_muls, q_smul, fl_mul, fl_quot. assert (A : nearest_flx 53 ties (1 / 49) = 5882252574524729 * bpow radix2 (-58)) by now round_at (-58)%Z 5882252574524729%Z.
    rewrite A. round_at (-53)%Z 9007199254740991%Z. cbn. lra.
  - unfold fl_qidiv, fl_quot. replace (49 / 49) with (IZR 1) by lra. now rewrite int53 by lia.
Qed.
Print Assumptions C121_division_refuted.

(** a + b and a - b (same offset): the result has the unit of the exact sum, and its value is within five roundings of it, relative to the sum of the magnitudes of the
    operands; addition commutes exactly. *)
Theorem C121_sum : forall (prec : Z) (ties : Z -> bool) (nan : R) (fuel : nat) (a b c : uty) (x y Z : R), (0 < prec)%Z -> compatible a b ->
  let err := gamma prec 5 * (scale a / scale c * Rabs x + scale b / scale c * Rabs y) in
  (q_add Rplus Rmult Rdiv IZR exact_eval fuel true a b x y = Some (c, Z) ->
    exists z, fl_qadd (nearest_flx prec ties) nan fuel a b x y = Some (c, z) /\ Rabs (z - Z) <= err) /\
  (q_sub Rplus Rminus Rmult Rdiv IZR exact_eval fuel true a b x y = Some (c, Z) ->
    exists z, fl_qsub (nearest_flx prec ties) nan fuel a b x y = Some (c, z) /\ Rabs (z - Z) <= err).
Proof.
  intros prec ties nan fuel a b c x y Z Hp C err. pose proof (flx_rd prec ties Hp) as RD. destruct C as (Wa & Wb & Ra & Rb & D).
  assert (T : forall op, q_plus Rplus Rmult Rdiv IZR exact_eval fuel op true a b x y = Some (c, Z) ->
    ty_common fuel a b = Some c /\ Z = op (scale a / scale c * x) (scale b / scale c * y) /\
    exists x' y', fl_cast (nearest_flx prec ties) nan fuel a c x = Some x' /\ fl_cast (nearest_flx prec ties) nan fuel b c y = Some y' /\
      acc (uro prec) 4 (scale a / scale c * Rabs x) 0 x' (scale a / scale c * x) /\ acc (uro prec) 4 (scale b / scale c * Rabs y) 0 y' (scale b / scale c * y)).
  { intros op H. destruct (@q_plus_R op fuel a b c x y Z Wa Wb H) as (_ & Dc & Ob & Oc & Wc & Ez).
    assert (TC : ty_common fuel a b = Some c).
    { unfold q_plus in H. destruct (ty_common fuel a b) as [c'|]; [|discriminate]. destruct (convert _ _ _ _ _ fuel true a c' x); [|discriminate]. destruct (convert _ _ _ _ _ fuel true b c' y); [|discriminate]. congruence. }
    split; [exact TC|split; [exact Ez|]]. destruct (@ty_common_val fuel a b c Wa Wb TC) as (_ & _ & _ & _ & _ & EC).
    destruct (@rr_common_root1 fuel (u_scale a) (u_scale b) (u_scale c) (proj1 (proj2 Wa)) (proj1 (proj2 Wb)) Ra Rb EC) as (_ & Rc & _).
    assert (Ca : compatible a c) by exact (conj Wa (conj Wc (conj Ra (conj Rc (eq_sym Dc))))).
    assert (Cb : compatible b c) by exact (conj Wb (conj Wc (conj Rb (conj Rc (eq_sym (eq_trans Dc D)))))).
    destruct (cast_rel prec ties Hp nan fuel a c x Ca (eq_sym Oc)) as (x' & Ex & _ & Hx). destruct (cast_rel prec ties Hp nan fuel b c y Cb (eq_trans Ob (eq_sym Oc))) as (y' & Ey & _ & Hy).
    pose proof (scale_pos a). pose proof (scale_pos b). pose proof (scale_pos c).
    exists x', y'. split; [exact Ex|split; [exact Ey|split]]; apply (rel_acc _ _ _ RD); try assumption; rewrite Rabs_mult, Rabs_pos_eq; try lra; left; now apply Rdiv_lt_0_compat. }
  assert (G : forall Zv z, acc (uro prec) 5 (scale a / scale c * Rabs x + scale b / scale c * Rabs y) (0 + 0) z Zv -> Rabs (z - Zv) <= err).
  { intros Zv z H. pose proof (acc_err _ _ _ _ _ _ H) as Q. unfold err. change (gamma prec 5) with (g (uro prec) 5 - 1). lra. }
  split; intros H.
  - destruct (T Rplus H) as (TC & -> & x' & y' & Ex & Ey & Ax & Ay). exists (nearest_flx prec ties (x' + y')). split.
    + unfold fl_qadd, q_add, q_plus. rewrite TC. unfold convert. cbn [is_implicitly_convertible orb]. unfold fl_cast in Ex, Ey. rewrite Ex, Ey. reflexivity.
    + apply G. apply (acc_rnd _ _ _ RD). exact (acc_add _ _ _ _ _ _ _ _ _ _ Ax Ay).
  - destruct (T Rminus H) as (TC & -> & x' & y' & Ex & Ey & Ax & Ay). exists (nearest_flx prec ties (x' - y')). split.
    + unfold fl_qsub, q_sub, q_plus. rewrite TC. unfold convert. cbn [is_implicitly_convertible orb]. unfold fl_cast in Ex, Ey. rewrite Ex, Ey. reflexivity.
    + apply G. apply (acc_rnd _ _ _ RD). exact (acc_sub _ _ _ _ _ _ _ _ _ _ Ax Ay).
Qed.
Print Assumptions C121_sum.
Theorem C121_sum_commutes : forall (prec : Z) (ties : Z -> bool) (nan : R) (fuel : nat) (a b : uty) (x y : R), unit_ok a -> unit_ok b ->
  fl_qadd (nearest_flx prec ties) nan fuel a b x y = fl_qadd (nearest_flx prec ties) nan fuel b a y x.
Proof.
  intros prec ties nan fuel a b x y Wa Wb. unfold fl_qadd, q_add, q_plus. rewrite (ty_common_comm fuel b a Wb Wa). destruct (ty_common fuel a b) as [c|]; [|reflexivity].
  destruct (convert _ _ _ _ _ fuel true a c x); destruct (convert _ _ _ _ _ fuel true b c y); try reflexivity. unfold fl_add. now rewrite Rplus_comm.
Qed.
Print Assumptions C121_sum_commutes.

(** x += y and x -= y: the right operand is converted to the unit of the left one first: five roundings in all. *)
Theorem C121_compound : forall (prec : Z) (ties : Z -> bool) (nan : R) (fuel : nat) (a b : uty) (x y : R), (0 < prec)%Z -> compatible a b -> u_off a = u_off b ->
  let err := gamma prec 5 * (Rabs x + scale b / scale a * Rabs y) in
  (exists z, fl_qiadd (nearest_flx prec ties) nan fuel a b x y = Some z /\ Rabs (z - (x + scale b / scale a * y)) <= err) /\
  (exists z, fl_qisub (nearest_flx prec ties) nan fuel a b x y = Some z /\ Rabs (z - (x - scale b / scale a * y)) <= err).
Proof.
  intros prec ties nan fuel a b x y Hp C O err. pose proof (flx_rd prec ties Hp) as RD. destruct C as (Wa & Wb & Ra & Rb & D).
  assert (C' : compatible b a) by exact (conj Wb (conj Wa (conj Rb (conj Ra (eq_sym D))))).
  destruct (cast_rel prec ties Hp nan fuel b a y C' (eq_sym O)) as (y' & Ey & _ & Hy). pose proof (scale_pos a). pose proof (scale_pos b).
  assert (Ay : acc (uro prec) 4 (scale b / scale a * Rabs y) 0 y' (scale b / scale a * y)).
  { apply (rel_acc _ _ _ RD); [|exact Hy]. rewrite Rabs_mult, Rabs_pos_eq; [lra|]. left. now apply Rdiv_lt_0_compat. }
  assert (Ax : acc (uro prec) 4 (Rabs x) 0 x x).
  { apply (acc_weak _ _ _ RD 0 4 (Rabs x) _ 0); [lia|lra|lra|]. apply (acc_exact _ _ _ RD). lra. }
  assert (G : forall Zv z, acc (uro prec) 5 (Rabs x + scale b / scale a * Rabs y) (0 + 0) z Zv -> Rabs (z - Zv) <= err).
  { intros Zv z Hz. pose proof (acc_err _ _ _ _ _ _ Hz) as Q. unfold err. change (gamma prec 5) with (g (uro prec) 5 - 1). lra. }
  unfold fl_cast in Ey. split.
  - exists (nearest_flx prec ties (x + y')). split; [unfold fl_qiadd, q_iadd, convert; cbn [is_implicitly_convertible orb]; now rewrite Ey|].
    apply G. apply (acc_rnd _ _ _ RD). exact (acc_add _ _ _ _ _ _ _ _ _ _ Ax Ay).
  - exists (nearest_flx prec ties (x - y')). split; [unfold fl_qisub, q_isub, convert; cbn [is_implicitly_convertible orb]; now rewrite Ey|].
    apply G. apply (acc_rnd _ _ _ RD). exact (acc_sub _ _ _ _ _ _ _ _ _ _ Ax Ay).
Qed.
Print Assumptions C121_compound.

(** Kilometres and centimetres meet the hypotheses: 1.5 km converts to exactly 150000 cm, and their exact sum exists. *)
Example C121_nonvacuous : comparable 53 kilometre centimetre /\ compatible celsius fahrenheit /\
  (forall ties nan fuel, fl_cast (nearest_flx 53 ties) nan fuel kilometre centimetre (3 / 2) = Some 150000) /\
  (exists c z, q_add Rplus Rmult Rdiv IZR exact_eval 100 true kilometre centimetre 1 1 = Some (c, z)).
Proof.
  assert (C : compatible kilometre centimetre) by (split; [uok|split; [uok|repeat split]]). split; [|split; [|split]].
  - split; [exact C|split; [reflexivity|split; cbn; lia]].
  - split; [uok|split; [uok|repeat split]].
  - intros ties nan fuel. destruct (C121_cast_exact 53 ties nan fuel kilometre centimetre (3 / 2) 100000) as [E _]; try lia; try reflexivity; [exact C| | | |rewrite E; f_equal; lra].
    + rewrite !scale_root1 by (try reflexivity; uok). cbn. lra.
    + apply flx_integer; lia.
    + replace (100000 * (3 / 2)) with (IZR 150000) by lra. apply flx_integer; lia.
  - unfold q_add, q_plus, convert, quantity_cast. change (is_implicitly_convertible true true ?p ?q) with true. cbn [is_implicitly_convertible orb].
    replace (ty_common 100 kilometre centimetre) with (Some centimetre) by (vm_compute; reflexivity). eexists. eexists. reflexivity.
Qed.
