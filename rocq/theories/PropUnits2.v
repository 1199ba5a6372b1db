(** C79-C81: products, implicit conversions and mathematical functions of quantities. *)
From Verif Require Import Base Arith ArithFacts ArithFacts2 ArithNewton ArithValue Quantity QuantityMaths QuantityFacts QuantityInt
  UnitsSpec DimFacts2 DimFacts3 PropUnits.
From Coq Require Import ZArith QArith Lia List Bool Reals.
From Coq Require Import Lra.
Open Scope nat_scope.

(** ** C67: eval() *)
(** eval() is the physical value, in base units, offset included: 25 degrees Celsius evaluate to 298.15 *)
Theorem C67_eval : forall a x, q_eval Rplus Rmult Rdiv IZR exact_eval a x = Some (physical a x).
Proof. reflexivity. Qed.
Print Assumptions C67_eval.
Example C67_eval_nonvacuous : q_eval Rplus Rmult Rdiv IZR exact_eval celsius 25%R = Some (29815 / 100)%R.
Proof.
  rewrite C67_eval. f_equal. assert (W : unit_ok celsius) by uok. change (physical celsius 25) with (scale celsius * 25 + offset celsius)%R.
  rewrite (@scale_one celsius eq_refl eq_refl W). unfold offset. cbn [u_off celsius r_num r_den]. lra.
Qed.

(** ** C79 *)

(** Whenever these expressions compile, the physical value of the result is the product, quotient, inverse, power or root
    of the physical values, for a left operand without offset (a right operand with an offset does not compile).
    Missing: left operands with an offset, see [C79_offset_refuted]. *)
Theorem C79_physical_partial : forall fuel a b c x y z, unit_ok a -> unit_ok b -> offset a = 0%R ->
  (q_mul Rmult fuel a b x y = Some (c, z) -> physical c z = (physical a x * physical b y)%R) /\
  (y <> 0%R -> q_div Rdiv fuel a b x y = Some (c, z) -> physical c z = (physical a x / physical b y)%R) /\
  (x <> 0%R -> q_inv Rdiv IZR fuel a x = Some (c, z) -> physical c z = (/ physical a x)%R) /\
  (forall n, q_pow Rmult IZR fuel n a x = Some (c, z) -> physical c z = (physical a x ^ n)%R) /\
  (forall k root, (1 <= k)%Z -> (0 < x)%R -> root x = Rpower x (/ IZR k) ->
     q_root fuel root k a x = Some (c, z) -> physical c z = Rpower (physical a x) (/ IZR k)) /\
  (x <> 0%R -> q_sdiv (fun t : R => t) (fun t : R => t) Rmult 1%R Rdiv fuel a y x = Some (c, z) ->
     physical c z = (y / physical a x)%R).
Proof.
  intros fuel a b c x y z Wa Wb Oa. change physical with phys.
  change (offset a) with (ratio_val (u_off a)) in Oa.
  split; [|split; [|split; [|split; [|split]]]].
  - intros H. destruct (@q_mul_R fuel a b c x y z Wa Wb H) as [_ [_ ->]]. rewrite Oa. ring.
  - intros Hy H. destruct (@q_div_R fuel a b c x y z Wa Wb Hy H) as [_ [_ ->]]. rewrite Oa, Rminus_0_r. reflexivity.
  - intros Hx H. destruct (@q_inv_R fuel a c x z Wa Hx H) as [_ [_ ->]]. rewrite Oa, Rminus_0_r. reflexivity.
  - intros n H. destruct (@q_pow_R fuel n a c x z Wa H) as [_ [_ ->]]. rewrite Oa, Rminus_0_r. reflexivity.
  - intros k root Hk Hx Hr H. destruct (@q_root_R root fuel k a c x z Wa Hk Hx Hr H) as [_ [_ ->]].
    rewrite Oa, Rminus_0_r. reflexivity.
  - intros Hx H. unfold q_sdiv, q_smul in H. destruct (ty_inv fuel a) as [c'|] eqn:E; [|discriminate].
    assert (c' = c) by congruence. subst c'. assert (z = (y * (1 / x))%R) by congruence. subst z.
    assert (Q : q_inv Rdiv IZR fuel a x = Some (c, (1 / x)%R)) by (unfold q_inv; rewrite E; reflexivity).
    destruct (@q_inv_R fuel a c x _ Wa Hx Q) as [_ [_ P]]. rewrite Oa, Rminus_0_r in P.
    destruct (ty_inv_val fuel Wa E) as [_ [Oc _]]. unfold phys in P |- *. rewrite Oc, ratio_val_zero in P |- *.
    unfold Rdiv at 2. rewrite <- P. ring.
Qed.
Print Assumptions C79_physical_partial.

(** Products, quotients and inverses of units with rational dimensions and scales compile (the right operand having no offset). *)
Theorem C79_compiles : forall fuel a b, rational_scale a -> rational_scale b -> rr_root (u_dim a) = 1%Z -> rr_root (u_dim b) = 1%Z ->
  ((exists c, ty_mul fuel a b = Some c) <-> u_off b = Ratio 0 1) /\
  ((exists c, ty_div fuel a b = Some c) <-> u_off b = Ratio 0 1) /\
  (exists c, ty_inv fuel a = Some c).
Proof.
  intros fuel a b Sa Sb Da Db.
  destruct (rr_multiply_root1_some fuel (u_dim a) (u_dim b) Da Db) as [d1 [E1 _]].
  destruct (rr_multiply_root1_some fuel (u_scale a) (u_scale b) Sa Sb) as [s1 [F1 _]].
  destruct (rr_divide_root1_some fuel (u_dim a) (u_dim b) Da Db) as [d2 E2].
  destruct (rr_divide_root1_some fuel (u_scale a) (u_scale b) Sa Sb) as [s2 F2].
  destruct (rr_divide_root1_some fuel one_rr (u_dim a) eq_refl Da) as [d3 E3].
  destruct (rr_divide_root1_some fuel one_rr (u_scale a) eq_refl Sa) as [s3 F3].
  unfold ty_mul, ty_div, ty_inv. rewrite E1, F1, E2, F2, E3, F3.
  assert (Q : ratio_eqb (u_off b) zero_ratio = true <-> u_off b = Ratio 0 1) by apply ratio_eqb_eq.
  destruct (ratio_eqb (u_off b) zero_ratio).
  - split; [|split; [|eauto]]; (split; [intros; apply Q; reflexivity|eauto]).
  - assert (N : u_off b <> Ratio 0 1) by (intros N; apply Q in N; discriminate).
    split; [|split; [|eauto]]; (split; [intros [? ?]; discriminate|contradiction]).
Qed.
Print Assumptions C79_compiles.

(** A left operand with an offset compiles, but the offset is dropped: 20 C * 2 m is 40 K m instead of 586.3 K m,
    while 2 m * 20 C does not compile. *)
Theorem C79_offset_refuted : exists c z, q_mul Rmult 100 celsius metre 20%R 2%R = Some (c, z) /\
  physical c z = 40%R /\ (physical celsius 20 * physical metre 2 = 5863 / 10)%R /\
  q_mul Rmult 100 metre celsius 2%R 20%R = None.
Proof.
  assert (E : ty_mul 100 celsius metre = Some (U (RR 22 1 1) (RR 1 1 1) (Ratio 0 1))) by (vm_compute; reflexivity).
  exists (U (RR 22 1 1) (RR 1 1 1) (Ratio 0 1)), (20 * 2)%R. split; [unfold q_mul; rewrite E; reflexivity|].
  assert (W : unit_ok (U (RR 22 1 1) (RR 1 1 1) (Ratio 0 1))) by uok.
  assert (S : forall u v, physical u v = (scale u * v + offset u)%R) by reflexivity.
  rewrite !S. rewrite (@scale_one (U (RR 22 1 1) (RR 1 1 1) (Ratio 0 1)) eq_refl eq_refl W).
  rewrite (@scale_one celsius eq_refl eq_refl ltac:(uok)), (@scale_one metre eq_refl eq_refl ltac:(uok)).
  unfold offset. cbn [u_off celsius metre r_num r_den].
  split; [lra|]. split; [lra|]. vm_compute. reflexivity.
Qed.
Print Assumptions C79_offset_refuted.

Example C79_nonvacuous : unit_ok kilometre /\ unit_ok millisecond /\ offset kilometre = 0%R /\
  (exists c z, q_div Rdiv 300 kilometre millisecond 3%R 2%R = Some (c, z) /\ u_scale c = RR 1000000 1 1 /\ u_dim c = RR 2 3 1) /\
  (exists c z, q_pow Rmult IZR 300 3 kilometre 2%R = Some (c, z) /\ u_scale c = RR 1000000000 1 1 /\ u_dim c = RR 8 1 1) /\
  (exists c z, q_root 10000 sqrt 2 (U (RR 4 1 1) (RR 1000 1 1) (Ratio 0 1)) 9%R = Some (c, z) /\ u_scale c = RR 1000 1 2 /\ u_dim c = L).
Proof.
  split; [uok|]. split; [uok|]. split; [unfold offset; cbn; lra|]. split; [|split].
  - assert (E : ty_div 300 kilometre millisecond = Some (U (RR 2 3 1) (RR 1000000 1 1) (Ratio 0 1))) by (vm_compute; reflexivity).
    unfold q_div. rewrite E. eexists _, _. split; [reflexivity|]. split; reflexivity.
  - assert (E : ty_pow 300 3 kilometre = Some (U (RR 8 1 1) (RR 1000000000 1 1) (Ratio 0 1))) by (vm_compute; reflexivity).
    unfold q_pow. rewrite E. eexists _, _. split; [reflexivity|]. split; reflexivity.
  - assert (E : ty_root 10000 2 (U (RR 4 1 1) (RR 1000 1 1) (Ratio 0 1)) = Some (U (RR 2 1 1) (RR 1000 1 2) (Ratio 0 1))) by (vm_compute; reflexivity).
    unfold q_root. rewrite E. eexists _, _. split; [reflexivity|]. split; reflexivity.
Qed.

(** ** C80 *)

(** Between integer quantities with rational scales: the implicit conversion exists exactly when the source unit is a whole number
    of target units, and then (same offset) it preserves the physical value. *)
Theorem C80_integer_partial : forall fuel a b, unit_ok a -> unit_ok b -> rational_scale a -> rational_scale b ->
  u_dim a = u_dim b -> u_off a = u_off b ->
  (forall v, (exists w, implicit_Z fuel a b v = Some w) <-> exists m, (1 <= m)%Z /\ scale a = (IZR m * scale b)%R) /\
  (forall v w, implicit_Z fuel a b v = Some w -> physical b (IZR w) = physical a (IZR v)).
Proof.
  intros fuel a b Wa Wb Ra Rb ED EO. pose proof Wa as [_ [Sa _]]. pose proof Wb as [_ [Sb _]].
  pose proof (is_harmonic_iff Sb Sa Rb Ra) as HH. unfold implicit_Z, convert, is_implicitly_convertible. cbn [orb negb andb].
  assert (K : forall v, is_harmonic (u_scale b) (u_scale a) = true -> exists m, castZ fuel a b v = Some (m * v)%Z /\
    rr_val (u_scale a) = (IZR m * rr_val (u_scale b))%R).
  { intros v H. destruct (proj1 HH H) as [m [Hm E]]. exists m. split; [|exact E].
    exact (@castZ_multiple fuel a b v m Wa Wb ED EO Ra Rb E). }
  split.
  - intros v. change (scale a) with (rr_val (u_scale a)). change (scale b) with (rr_val (u_scale b)). rewrite <- HH. split.
    + intros [w H]. destruct (is_harmonic (u_scale b) (u_scale a)); [reflexivity|discriminate].
    + intros H. rewrite H. destruct (K v H) as [m [E _]]. exists (m * v)%Z. exact E.
  - intros v w H. destruct (is_harmonic (u_scale b) (u_scale a)) eqn:E; [|discriminate].
    destruct (K v eq_refl) as [m [E1 E2]]. unfold castZ in E1.
    assert (w = (m * v)%Z) by congruence. subst w.
    change physical with phys. unfold phys. rewrite E2, EO, mult_IZR. ring.
Qed.
Print Assumptions C80_integer_partial.

(** To a floating-point representation every conversion is implicit, from floating point to integer none is. *)
Theorem C80_floating_point : forall to from,
  is_implicitly_convertible true true to from = true /\ is_implicitly_convertible true false to from = true /\
  is_implicitly_convertible false true to from = false.
Proof. intros. repeat split; reflexivity. Qed.
Print Assumptions C80_floating_point.

(** Two lossy conversions of integers are implicit: 0 C becomes 273 K (the offset difference 5463/20 is truncated), and 1 sqrt(km) becomes
    31 sqrt(m) (the root of the scale is ignored by the check, and truncated by the conversion). *)
Theorem C80_lossy_refuted :
  implicit_Z 2000 celsius kelvin 0 = Some 273%Z /\ physical celsius (IZR 0) = (5463 / 20)%R /\
  implicit_Z 5000 sqrt_kilometre sqrt_metre 1 = Some 31%Z /\
  physical sqrt_metre (IZR 31) <> physical sqrt_kilometre (IZR 1).
Proof.
  assert (S : forall u v, physical u v = (scale u * v + offset u)%R) by reflexivity.
  split; [vm_compute; reflexivity|]. split; [|split; [vm_compute; reflexivity|]]; rewrite !S.
  - rewrite (@scale_one celsius eq_refl eq_refl ltac:(uok)). unfold offset. cbn [u_off celsius r_num r_den]. lra.
  - rewrite (@scale_one sqrt_metre eq_refl eq_refl ltac:(uok)). unfold offset, scale.
    cbn [u_off u_scale sqrt_kilometre sqrt_metre r_num r_den rr_num rr_den rr_root]. intros E.
    assert (F : (Rpower (1000 / 1) (/ 2) * Rpower (1000 / 1) (/ 2) = 1000)%R).
    { rewrite <- Rpower_plus. replace (/ 2 + / 2)%R with 1%R by lra. rewrite Rpower_1; lra. }
    assert (G : (Rpower (1000 / 1) (/ 2) = 31)%R) by lra. rewrite G in F. lra.
Qed.
Print Assumptions C80_lossy_refuted.

Example C80_nonvacuous : unit_ok kilometre /\ unit_ok centimetre /\ rational_scale kilometre /\ rational_scale centimetre /\
  u_dim kilometre = u_dim centimetre /\ u_off kilometre = u_off centimetre /\
  implicit_Z 300 kilometre centimetre 7 = Some 700000%Z /\ implicit_Z 300 centimetre kilometre 700000 = None.
Proof. split; [uok|]. split; [uok|]. repeat (split; [reflexivity|]). split; vm_compute; reflexivity. Qed.

(** ** C81 *)

(** The order and absolute-value functions act on the physical values: fmax, fmin for every unit; fabs/abs, hypot, norm and
    polar for units without offset; sin, cos, tan for angles in any unit. *)
Theorem C81_same_unit_partial : forall fuel a x y z, unit_ok a ->
  (let (c, m) := qm_same2 Rmax a x y in c = a /\ physical c m = Rmax (physical a x) (physical a y)) /\
  (let (c, m) := qm_same2 Rmin a x y in c = a /\ physical c m = Rmin (physical a x) (physical a y)) /\
  (offset a = 0%R ->
    (let (c, m) := qm_same1 Rabs a x in c = a /\ physical c m = Rabs (physical a x)) /\
    (let (c, m) := qm_same2 (fun s t => Rmax (s - t) 0) a x y in c = a /\ physical c m = Rmax (physical a x - physical a y) 0) /\
    (let (c, m) := qm_same2 (fun s t => sqrt (s * s + t * t)) a x y in c = a /\
       physical c m = sqrt (physical a x * physical a x + physical a y * physical a y)) /\
    (let (c, m) := qm_same3 (fun s t w => sqrt (s * s + t * t + w * w)) a x y z in c = a /\
       physical c m = sqrt (physical a x * physical a x + physical a y * physical a y + physical a z * physical a z)) /\
    (forall c m, qm_norm Rmult fuel a x = Some (c, m) -> physical c m = (physical a x * physical a x)%R)).
Proof.
  intros fuel a x y z Wa. unfold qm_same1, qm_same2, qm_same3.
  assert (S : forall u v, physical u v = (scale u * v + offset u)%R) by reflexivity. rewrite !S.
  pose proof (scale_pos a) as P.
  assert (M : forall s t k, (0 <= k)%R -> Rmax (k * s) (k * t) = (k * Rmax s t)%R) by (intros; rewrite RmaxRmult; auto).
  assert (Q : forall t, (0 <= t)%R -> sqrt (scale a * scale a * t) = (scale a * sqrt t)%R).
  { intros t Ht. rewrite sqrt_mult; [|apply Rmult_le_pos; lra|exact Ht]. rewrite sqrt_square by lra. reflexivity. }
  split; [split; [reflexivity|]|split; [split; [reflexivity|]|]].
  - unfold Rmax. destruct (Rle_dec x y) as [H|H]; destruct (Rle_dec _ _) as [H'|H']; try reflexivity; exfalso.
    + apply H'. apply Rplus_le_compat_r, Rmult_le_compat_l; lra.
    + apply H. apply (Rmult_le_reg_l (scale a)); lra.
  - unfold Rmin. destruct (Rle_dec x y) as [H|H]; destruct (Rle_dec _ _) as [H'|H']; try reflexivity; exfalso.
    + apply H'. apply Rplus_le_compat_r, Rmult_le_compat_l; lra.
    + apply H. apply (Rmult_le_reg_l (scale a)); lra.
  - intros O. rewrite O, !Rplus_0_r. split; [|split; [|split; [|split]]].
    + split; [reflexivity|]. rewrite Rabs_mult, (Rabs_pos_eq (scale a)) by lra. reflexivity.
    + split; [reflexivity|]. rewrite <- M by lra. f_equal; ring.
    + split; [reflexivity|]. rewrite <- Q by (nra). f_equal. ring.
    + split; [reflexivity|]. rewrite <- Q by (nra). f_equal. ring.
    + intros c m H. unfold qm_norm in H.
      assert (Hm : q_mul Rmult fuel a a x x = Some (c, m)) by exact H.
      pose proof (proj1 (@C79_physical_partial fuel a a c x x m Wa Wa O) Hm) as E. rewrite !S, O, !Rplus_0_r in E. rewrite S. exact E.
Qed.
Print Assumptions C81_same_unit_partial.

(** sin, cos, tan (any function f) of an angle, in any unit without offset, are those of its value in radians; polar(r, theta) too. *)
Theorem C81_angles : forall fuel f a x v, unit_ok a -> offset a = 0%R ->
  qm_trig Rplus Rmult Rdiv IZR exact_eval fuel f a x = Some v -> v = f (physical a x).
Proof.
  intros fuel f a x v Wa O H. unfold qm_trig, to_radian in H.
  destruct (radian fuel) as [r|] eqn:E; [|discriminate].
  destruct (rr_eqb (u_dim a) (u_dim r)); [|discriminate].
  destruct (quantity_cast _ _ _ _ _ _ _ fuel a r x) as [w|] eqn:C; [|discriminate].
  assert (v = f w) by congruence. subst v. f_equal.
  unfold radian, base_quantity in E. destruct (base_dimension fuel 11 8) as [d|] eqn:B; [|discriminate].
  destruct (base_dimension_ids _ _ B) as [_ Hd].
  assert (Er : r = U d one_rr zero_ratio) by congruence.
  assert (Wr : unit_ok r).
  { rewrite Er, Hd. split; [|split]; cbn; try (unfold rr_wf; cbn; repeat split); try lia; try reflexivity. }
  destruct (@castR_val fuel a r x w Wa Wr C) as [_ ->]. rewrite Er. cbn [u_scale u_off].
  change (rr_val (u_scale a)) with (scale a). change (ratio_val (u_off a)) with (offset a).
  rewrite one_rr_val, ratio_val_zero, O. change (physical a x) with (scale a * x + offset a)%R. rewrite O. lra.
Qed.
Print Assumptions C81_angles.

Theorem C81_polar : forall fuel a b r theta c re im, unit_ok b -> offset b = 0%R ->
  qm_polar Rplus Rmult Rdiv IZR exact_eval fuel cos sin a b r theta = Some (c, (re, im)) ->
  c = a /\ re = (r * cos (physical b theta))%R /\ im = (r * sin (physical b theta))%R.
Proof.
  intros fuel a b r theta c re im Wb O H. unfold qm_polar in H.
  destruct (to_radian Rplus Rmult Rdiv IZR exact_eval fuel b theta) as [t|] eqn:E; [|discriminate].
  assert (Et : t = physical b theta).
  { apply (@C81_angles fuel (fun v => v) b theta t Wb O). unfold qm_trig. rewrite E. reflexivity. }
  rewrite <- Et. split; [congruence|]. split; congruence.
Qed.
Print Assumptions C81_polar.

(** exp, log, asin, ... of a dimensionless quantity use its number: they are the function of the physical value for every
    value only if the scale is 1 (and the offset 0).  fma(x, y, z) adds the numbers: it is x*y + z only if z is in the unit of x*y. *)
Theorem C81_scale_one_partial : forall fuel f a x v, unit_ok a -> scale a = 1%R -> offset a = 0%R ->
  (qm_plain f a x = Some v -> v = f (physical a x)) /\
  (forall r v, qm_inverse_trig fuel f a x = Some (r, v) -> physical r v = f (physical a x)).
Proof.
  intros fuel f a x v Wa S O. change (physical a x) with (scale a * x + offset a)%R. rewrite S, O.
  replace (1 * x + 0)%R with x by ring. unfold qm_plain, qm_inverse_trig. split.
  - destruct (is_dimensionless a); congruence.
  - intros r w H. destruct (is_dimensionless a); [|discriminate]. unfold radian, base_quantity in H.
    destruct (base_dimension fuel 11 8) as [d|]; [|discriminate].
    assert (Er : r = U d one_rr zero_ratio) by congruence. assert (w = f x) by congruence. subst w r.
    change physical with phys. unfold phys. cbn [u_scale u_off]. rewrite one_rr_val, ratio_val_zero. ring.
Qed.
Print Assumptions C81_scale_one_partial.

Theorem C81_fma_partial : forall fuel a b c p x y z w, unit_ok a -> unit_ok b -> unit_ok c ->
  offset a = 0%R -> offset c = 0%R -> scale c = (scale a * scale b)%R ->
  q_fma fuel (fun s t v => s * t + v)%R a b c x y z = Some (p, w) ->
  u_dim p = u_dim c /\ physical p w = (physical a x * physical b y + physical c z)%R.
Proof.
  intros fuel a b c p x y z w Wa Wb Wc Oa Oc S H. unfold q_fma in H.
  destruct (ty_mul fuel a b) as [q|] eqn:E; [|discriminate]. destruct (rr_eqb (u_dim q) (u_dim c)) eqn:D; [|discriminate].
  apply rr_eqb_eq in D. assert (q = p) by congruence. subst q. assert (w = (x * y + z)%R) by congruence. subst w.
  split; [exact D|]. destruct (ty_mul_val fuel Wa Wb E) as [_ [Ob [Op [_ Sp]]]].
  change (rr_val (u_scale a)) with (scale a) in Sp. change (rr_val (u_scale b)) with (scale b) in Sp.
  change physical with phys. unfold phys. rewrite Op, Ob, ratio_val_zero, Sp.
  change (rr_val (u_scale a)) with (scale a). change (rr_val (u_scale b)) with (scale b). change (rr_val (u_scale c)) with (scale c).
  change (ratio_val (u_off a)) with (offset a). change (ratio_val (u_off c)) with (offset c). rewrite Oa, Oc, S. ring.
Qed.
Print Assumptions C81_fma_partial.

(** exp, log, asin, ... compile exactly for quantities without dimension; sin, cos, tan only for angles. *)
Theorem C81_dimension_checked : forall fuel u e, dim_of fuel false u e ->
  (forall (f : R -> R) x, qm_plain f u x <> None <-> forall i, 1 <= i <= 10 -> (e i == 0)%Q) /\
  (forall n (f : R -> R) x, radian n <> None -> (qm_inverse_trig n f u x <> None <-> forall i, 1 <= i <= 10 -> (e i == 0)%Q)) /\
  (forall f x, (exists i, 1 <= i <= 10 /\ ~ (e i == unit_vec 8 i)%Q) ->
     qm_trig Rplus Rmult Rdiv IZR exact_eval 200 f u x = None).
Proof.
  intros fuel u e D.
  assert (B0 : base_quantity 200 11 0 one_rr zero_ratio = Some (U one_rr one_rr zero_ratio)) by (vm_compute; reflexivity).
  assert (B8 : base_quantity 200 11 8 one_rr zero_ratio = Some (U (RR 19 1 1) one_rr zero_ratio)) by (vm_compute; reflexivity).
  assert (D0 : dim_of 200 false (U one_rr one_rr zero_ratio) (unit_vec 0)) by (eapply do_base; [|exact one_rr_wf| |exact B0]; [lia|reflexivity]).
  assert (D8 : dim_of 200 false (U (RR 19 1 1) one_rr zero_ratio) (unit_vec 8)) by (eapply do_base; [|exact one_rr_wf| |exact B8]; [lia|reflexivity]).
  assert (Z : is_dimensionless u = true <-> forall i, 1 <= i <= 10 -> (e i == 0)%Q).
  { unfold is_dimensionless. rewrite rr_eqb_eq. pose proof (@C66_products _ _ _ _ _ _ D D0) as P. cbn [u_dim] in P. rewrite P. unfold same_expo, unit_vec. split; intros H i Hi; specialize (H i Hi).
    - destruct (Nat.eqb_spec i 0); [lia|exact H].
    - destruct (Nat.eqb_spec i 0); [lia|exact H]. }
  split; [|split].
  - intros f x. rewrite <- Z. unfold qm_plain. destruct (is_dimensionless u); split; congruence.
  - intros n f x R. rewrite <- Z. unfold qm_inverse_trig. destruct (radian n) as [r|]; [|congruence]. destruct (is_dimensionless u); split; congruence.
  - intros f x [i [Hi N]]. unfold qm_trig, to_radian, radian. rewrite B8. destruct (rr_eqb (u_dim u) _) eqn:E; [|reflexivity].
    apply rr_eqb_eq in E. exfalso. apply N. exact (proj1 (@C66_products _ _ _ _ _ _ D D8) E i Hi).
Qed.
Print Assumptions C81_dimension_checked.

(** asin of 50 % (the sine of 30 degrees) computes asin(50), exp(100 %) is exp(100), and fma(1 m, 1 m, 1 cm^2) is 2 m^2. *)
Theorem C81_scaled_refuted :
  physical percent 50 = (1 / 2)%R /\ physical percent 100 = 1%R /\
  qm_inverse_trig 200 asin percent 50%R = Some (U (RR 19 1 1) (RR 1 1 1) (Ratio 0 1), asin 50) /\
  qm_plain exp percent 100%R = Some (exp 100) /\
  exists c z, q_fma 200 (fun s t v => s * t + v)%R metre metre (U (RR 4 1 1) (RR 1 10000 1) (Ratio 0 1)) 1%R 1%R 1%R = Some (c, z) /\
    physical c z = 2%R /\
    (physical metre 1 * physical metre 1 + physical (U (RR 4 1 1) (RR 1 10000 1) (Ratio 0 1)) 1 = 10001 / 10000)%R.
Proof.
  assert (S : forall u v, physical u v = (scale u * v + offset u)%R) by reflexivity.
  assert (Sp : scale percent = (1 / 100)%R) by (rewrite scale_root1; [reflexivity|uok|reflexivity]).
  rewrite !S, Sp. unfold offset at 1 2. cbn [u_off percent r_num r_den].
  split; [lra|]. split; [lra|]. split; [|split; [reflexivity|]].
  - unfold qm_inverse_trig. assert (E : radian 200 = Some (U (RR 19 1 1) (RR 1 1 1) (Ratio 0 1))) by (vm_compute; reflexivity).
    rewrite E. reflexivity.
  - assert (E : ty_mul 200 metre metre = Some (U (RR 4 1 1) (RR 1 1 1) (Ratio 0 1))) by (vm_compute; reflexivity).
    exists (U (RR 4 1 1) (RR 1 1 1) (Ratio 0 1)), (1 * 1 + 1)%R. split; [unfold q_fma; rewrite E; reflexivity|].
    rewrite !S. rewrite (@scale_one (U (RR 4 1 1) (RR 1 1 1) (Ratio 0 1)) eq_refl eq_refl ltac:(uok)).
    rewrite (@scale_one metre eq_refl eq_refl ltac:(uok)).
    rewrite (@scale_root1 (U (RR 4 1 1) (RR 1 10000 1) (Ratio 0 1))); [|uok|reflexivity].
    unfold offset. cbn [u_off u_scale metre r_num r_den rr_num rr_den]. split; lra.
Qed.
Print Assumptions C81_scaled_refuted.

Example C81_nonvacuous : unit_ok metre /\ offset metre = 0%R /\ scale metre = 1%R /\
  (exists v, qm_trig Rplus Rmult Rdiv IZR exact_eval 200 sin (U (RR 19 1 1) (RR 1 1000 1) (Ratio 0 1)) 5%R = Some v) /\
  (exists p w, q_fma 300 (fun s t v => s * t + v)%R metre centimetre (U (RR 4 1 1) (RR 1 100 1) (Ratio 0 1)) 1%R 1%R 1%R = Some (p, w)).
Proof.
  split; [uok|]. split; [unfold offset; cbn; lra|]. split; [apply scale_one; [reflexivity|reflexivity|uok]|]. split.
  - assert (E : radian 200 = Some (U (RR 19 1 1) (RR 1 1 1) (Ratio 0 1))) by (vm_compute; reflexivity).
    unfold qm_trig, to_radian. rewrite E. cbn [u_dim rr_eqb rr_num rr_den rr_root].
    destruct (proj2 (C67_compiles 200 (U (RR 19 1 1) (RR 1 1000 1) (Ratio 0 1)) (U (RR 19 1 1) (RR 1 1 1) (Ratio 0 1)) 5%R) eq_refl eq_refl eq_refl) as [w F].
    unfold cast_R in F. cbn [Z.eqb Pos.eqb andb]. rewrite F. eexists. reflexivity.
  - assert (E : ty_mul 300 metre centimetre = Some (U (RR 4 1 1) (RR 1 100 1) (Ratio 0 1))) by (vm_compute; reflexivity).
    unfold q_fma. rewrite E. eexists _, _. reflexivity.
Qed.
