(** C66-C68, C79-C81: quantities and units (scicpp/core/units/quantity.hpp, scicpp/core/units/maths.hpp).

    The vocabulary of the statements ([unit_ok], [physical], [dim_of], [same_expo]) is in UnitsSpec.v. *)
From Verif Require Import Base Arith ArithFacts ArithFacts2 ArithNewton ArithValue Quantity QuantityMaths QuantityFacts QuantityInt
  UnitsSpec DimFacts DimFacts2 DimFacts3.
From Coq Require Import ZArith QArith Lia List Bool Reals.
From Coq Require Import Lra.
Open Scope nat_scope.

(** Arithmetic of the representation: exact real numbers, and the (unbounded) integers with truncating division. *)
Definition exact_eval (x : rr) : option R := Some (Rpower (IZR (rr_num x) / IZR (rr_den x)) (/ IZR (rr_root x))).
Definition cast_R (fuel : nat) : uty -> uty -> R -> option R :=
  quantity_cast Rplus Rmult Rdiv IZR exact_eval (fun x => x) (fun x => x) fuel.
Definition cast_Z (fuel : nat) : uty -> uty -> Z -> option Z :=
  quantity_cast Z.add Z.mul Z.quot (fun z => z) (eval_Z fuel) (fun x => x) (fun x => x) fuel.
Definition implicit_Z (fuel : nat) : uty -> uty -> Z -> option Z := convert Z.add Z.mul Z.quot (fun z => z) (eval_Z fuel) fuel false.
Definition implicit_R (fuel : nat) : uty -> uty -> R -> option R := convert Rplus Rmult Rdiv IZR exact_eval fuel true.

Definition offset (u : uty) : R := (IZR (r_num (u_off u)) / IZR (r_den (u_off u)))%R.
Definition scale (u : uty) : R := Rpower (IZR (rr_num (u_scale u)) / IZR (rr_den (u_scale u))) (/ IZR (rr_root (u_scale u))).
(** The scale is a rational number (every named unit; only sqrt, cbrt and root produce others). *)
Definition rational_scale (u : uty) : Prop := rr_root (u_scale u) = 1%Z.

(** Some units, for the examples. *)
Definition L : rr := RR 2 1 1.
Definition metre := U L (RR 1 1 1) (Ratio 0 1).
Definition centimetre := U L (RR 1 100 1) (Ratio 0 1).
Definition kilometre := U L (RR 1000 1 1) (Ratio 0 1).
Definition second := U (RR 3 1 1) (RR 1 1 1) (Ratio 0 1).
Definition millisecond := U (RR 3 1 1) (RR 1 1000 1) (Ratio 0 1).
Definition kilogram := U (RR 5 1 1) (RR 1 1 1) (Ratio 0 1).
Definition kelvin := U (RR 11 1 1) (RR 1 1 1) (Ratio 0 1).
Definition celsius := U (RR 11 1 1) (RR 1 1 1) (Ratio 5463 20).
Definition fahrenheit := U (RR 11 1 1) (RR 5 9 1) (Ratio 45967 180).
Definition sqrt_metre := U (RR 2 1 2) (RR 1 1 1) (Ratio 0 1).
Definition sqrt_kilometre := U (RR 2 1 2) (RR 1000 1 2) (Ratio 0 1).
Definition percent := U (RR 1 1 1) (RR 1 100 1) (Ratio 0 1).

Lemma phys_physical u v : physical u v = phys u v.
Proof. reflexivity. Qed.
Ltac uok := split; [|split]; cbn; try (unfold rr_wf; cbn; repeat split); try lia; try reflexivity.
Lemma scale_one u : rational_scale u -> rr_num (u_scale u) = rr_den (u_scale u) -> unit_ok u -> scale u = 1%R.
Proof.
  intros H E [_ [[_ [A _]] _]]. unfold scale. rewrite E. unfold rational_scale in H. rewrite H.
  rewrite Rinv_1, Rpower_1.
  - apply Rinv_r. apply not_0_IZR. lia.
  - unfold Rdiv. rewrite Rinv_r; [lra|]. apply not_0_IZR. lia.
Qed.
Lemma scale_root1 u : unit_ok u -> rational_scale u -> scale u = (IZR (rr_num (u_scale u)) / IZR (rr_den (u_scale u)))%R.
Proof. intros [_ [A _]] H. exact (rr_val_root1 A H). Qed.
Lemma scale_pos u : (0 < scale u)%R.
Proof. apply rr_val_pos. Qed.

(** ** C66 *)

(** Same dimension type => same exponents, roots included. *)
Theorem C66_same_type_same_exponents : forall fuel fuel' roots roots' u v e f,
  dim_of fuel roots u e -> dim_of fuel' roots' v f -> u_dim u = u_dim v -> same_expo e f.
Proof. intros. eapply dim_of_sound; eauto. Qed.
Print Assumptions C66_same_type_same_exponents.

Lemma dim_of_noroot_integer fuel u e : dim_of fuel false u e -> forall i, exists z, (e i == inject_Z z)%Q.
Proof.
  intros D. remember false as r. induction D; intros i.
  - unfold unit_vec. destruct (Nat.eqb i I); [exists 1%Z|exists 0%Z]; reflexivity.
  - destruct (IHD1 i) as [z Hz]. destruct (IHD2 i) as [w Hw]. exists (z + w)%Z. rewrite Hz, Hw, inject_Z_plus. reflexivity.
  - destruct (IHD1 i) as [z Hz]. destruct (IHD2 i) as [w Hw]. exists (z - w)%Z. rewrite Hz, Hw.
    unfold Zminus. rewrite inject_Z_plus, inject_Z_opp. reflexivity.
  - destruct (IHD i) as [z Hz]. exists (- z)%Z. rewrite Hz, inject_Z_opp. reflexivity.
  - destruct (IHD i) as [z Hz]. exists (Z.of_nat n * z)%Z. rewrite Hz, inject_Z_mult. reflexivity.
  - congruence.
  - auto.
Qed.

(** Same exponents => same type for quantities obtained by products, quotients, inverses and powers ... *)
Theorem C66_products : forall fuel fuel' u v e f,
  dim_of fuel false u e -> dim_of fuel' false v f -> (u_dim u = u_dim v <-> same_expo e f).
Proof.
  intros fuel fuel' u v e f Du Dv. split; [eapply dim_of_sound; eauto|]. intros S.
  eapply dim_of_complete; eauto.
  rewrite (dim_of_integer Du), (dim_of_integer Dv); auto.
  - intros. eapply dim_of_noroot_integer; eauto.
  - intros. eapply dim_of_noroot_integer; eauto.
Qed.
Print Assumptions C66_products.

(** ... and, with roots, when the exponents are integers (sqrt(area) is a length).
    Missing for the full property: fractional exponents, see [C66_fractional_refuted]. *)
Theorem C66_integer_exponents_partial : forall fuel fuel' u v e f,
  dim_of fuel true u e -> dim_of fuel' true v f ->
  (forall i, 1 <= i <= 10 -> exists z, (e i == inject_Z z)%Q) ->
  (u_dim u = u_dim v <-> same_expo e f).
Proof.
  intros fuel fuel' u v e f Du Dv Ie. split; [eapply dim_of_sound; eauto|]. intros S.
  eapply dim_of_complete; eauto. rewrite (dim_of_integer Du Ie). symmetry. apply (dim_of_integer Dv).
  intros i Hi. destruct (Ie i Hi) as [z Hz]. exists z. rewrite <- (S i Hi). exact Hz.
Qed.
Print Assumptions C66_integer_exponents_partial.

Lemma base_metre : base_quantity 200 11 1 (RR 1 1 1) (Ratio 0 1) = Some metre.
Proof. vm_compute. reflexivity. Qed.
Lemma base_second : base_quantity 200 11 2 (RR 1 1 1) (Ratio 0 1) = Some second.
Proof. vm_compute. reflexivity. Qed.
Lemma base_kilogram : base_quantity 200 11 3 (RR 1 1 1) (Ratio 0 1) = Some kilogram.
Proof. vm_compute. reflexivity. Qed.
Lemma dim_metre roots : dim_of 200 roots metre (unit_vec 1).
Proof. apply (@do_base 200 roots 1 (RR 1 1 1) (Ratio 0 1)); [lia|unfold rr_wf; cbn; repeat split; lia|cbn; lia|exact base_metre]. Qed.
Lemma dim_second roots : dim_of 200 roots second (unit_vec 2).
Proof. apply (@do_base 200 roots 2 (RR 1 1 1) (Ratio 0 1)); [lia|unfold rr_wf; cbn; repeat split; lia|cbn; lia|exact base_second]. Qed.
Lemma dim_kilogram roots : dim_of 200 roots kilogram (unit_vec 3).
Proof. apply (@do_base 200 roots 3 (RR 1 1 1) (Ratio 0 1)); [lia|unfold rr_wf; cbn; repeat split; lia|cbn; lia|exact base_kilogram]. Qed.

(** root<4>(1 m^2) and sqrt(1 m) both have the dimension length^(1/2), but different types. *)
Theorem C66_fractional_refuted : exists fuel u v e f,
  dim_of fuel true u e /\ dim_of fuel true v f /\ same_expo e f /\ u_dim u <> u_dim v.
Proof.
  exists 200, (U (RR 4 1 4) (RR 1 1 1) (Ratio 0 1)), sqrt_metre,
    (fun i => (unit_vec 1 i + unit_vec 1 i) / inject_Z 4)%Q, (fun i => unit_vec 1 i / inject_Z 2)%Q.
  split; [|split; [|split]].
  - apply (@do_root 200 true 4 (U (RR 4 1 1) (RR 1 1 1) (Ratio 0 1)) _ (fun i => unit_vec 1 i + unit_vec 1 i)%Q); [reflexivity|lia| |vm_compute; reflexivity].
    apply (@do_mul 200 true metre metre); try apply dim_metre. vm_compute. reflexivity.
  - apply (@do_root 200 true 2 metre _ (unit_vec 1)); [reflexivity|lia|apply dim_metre|vm_compute; reflexivity].
  - intros i _. unfold unit_vec. destruct (Nat.eqb i 1); vm_compute; reflexivity.
  - discriminate.
Qed.
Print Assumptions C66_fractional_refuted.

(** newton = kg m / s^2 and joule / metre, built in two ways, have the same type; sqrt(m^2) is a length. *)
Example C66_nonvacuous :
  (exists u v e f, dim_of 200 false u e /\ dim_of 200 false v f /\ same_expo e f /\ u_dim u = RR 10 9 1 /\
     ~ same_expo e (unit_vec 1)) /\
  (exists u e, dim_of 200 true u e /\ same_expo e (unit_vec 1) /\ u_dim u = L).
Proof.
  split.
  - exists (U (RR 10 9 1) (RR 1 1 1) (Ratio 0 1)), (U (RR 10 9 1) (RR 1 1 1) (Ratio 0 1)).
    exists (fun i => (unit_vec 3 i + unit_vec 1 i) - inject_Z (Z.of_nat 2) * unit_vec 2 i)%Q,
      (fun i => (unit_vec 3 i - unit_vec 2 i) + (unit_vec 1 i - unit_vec 2 i))%Q.
    split; [|split; [|split; [|split]]].
    + apply (@do_div 200 false (U (RR 10 1 1) (RR 1 1 1) (Ratio 0 1)) (U (RR 9 1 1) (RR 1 1 1) (Ratio 0 1)) _
        (fun i => unit_vec 3 i + unit_vec 1 i)%Q (fun i => inject_Z (Z.of_nat 2) * unit_vec 2 i)%Q); [| |vm_compute; reflexivity].
      * apply (@do_mul 200 false kilogram metre); [apply dim_kilogram|apply dim_metre|vm_compute; reflexivity].
      * apply (@do_pow 200 false 2 second); [apply dim_second|vm_compute; reflexivity].
    + apply (@do_mul 200 false (U (RR 5 3 1) (RR 1 1 1) (Ratio 0 1)) (U (RR 2 3 1) (RR 1 1 1) (Ratio 0 1)) _
        (fun i => unit_vec 3 i - unit_vec 2 i)%Q (fun i => unit_vec 1 i - unit_vec 2 i)%Q); [| |vm_compute; reflexivity].
      * apply (@do_div 200 false kilogram second); [apply dim_kilogram|apply dim_second|vm_compute; reflexivity].
      * apply (@do_div 200 false metre second); [apply dim_metre|apply dim_second|vm_compute; reflexivity].
    + intros i _. change (inject_Z (Z.of_nat 2)) with 2%Q. ring.
    + reflexivity.
    + intros H. specialize (H 3 ltac:(lia)). vm_compute in H. discriminate.
  - exists metre, (fun i => (unit_vec 1 i + unit_vec 1 i) / inject_Z 2)%Q. split; [|split].
    + apply (@do_root 200 true 2 (U (RR 4 1 1) (RR 1 1 1) (Ratio 0 1)) _ (fun i => unit_vec 1 i + unit_vec 1 i)%Q); [reflexivity|lia| |vm_compute; reflexivity].
      apply (@do_mul 200 true metre metre); try apply dim_metre. vm_compute. reflexivity.
    + intros i _. unfold unit_vec. destruct (Nat.eqb i 1); vm_compute; reflexivity.
    + reflexivity.
Qed.

(** ** C67 *)

(** The cast compiles between units of the same dimension (with rational scales) and only between those. *)
Theorem C67_compiles : forall fuel a b v,
  (u_dim a <> u_dim b -> cast_R fuel a b v = None) /\
  (u_dim a = u_dim b -> rational_scale a -> rational_scale b -> exists w, cast_R fuel a b v = Some w).
Proof.
  intros fuel a b v. split.
  - intros N. unfold cast_R, quantity_cast. destruct (rr_eqb (u_dim a) (u_dim b)) eqn:E; [|reflexivity].
    apply rr_eqb_eq in E. contradiction.
  - intros E Ra Rb. exact (@castR_some fuel a b v E Ra Rb).
Qed.
Print Assumptions C67_compiles.

(** Without a change of offset the physical value is preserved and the cast back is the identity.
    Missing for the full property: differing offsets, see [C67_physical_iff] and [C67_temperature_refuted]. *)
Theorem C67_same_offset_partial : forall fuel a b v w, unit_ok a -> unit_ok b -> u_off a = u_off b ->
  cast_R fuel a b v = Some w ->
  physical b w = physical a v /\ (forall v', cast_R fuel b a w = Some v' -> v' = v).
Proof.
  intros fuel a b v w Wa Wb EO H. change physical with phys. split.
  - rewrite (@castR_phys fuel a b v w Wa Wb H). rewrite EO. ring.
  - intros v' H'. destruct (@castR_val fuel a b v w Wa Wb H) as [_ ->]. destruct (@castR_val fuel b a _ v' Wb Wa H') as [_ ->].
    rewrite EO. field. split; apply Rgt_not_eq, rr_val_pos.
Qed.
Print Assumptions C67_same_offset_partial.

(** Exactly when the physical value is preserved, and exactly when the round trip returns the original value. *)
Theorem C67_physical_iff : forall fuel a b v w, unit_ok a -> unit_ok b -> cast_R fuel a b v = Some w ->
  (physical b w = physical a v <-> offset a = offset b \/ scale b = 1%R).
Proof.
  intros fuel a b v w Wa Wb H. change physical with phys. rewrite (@castR_phys fuel a b v w Wa Wb H).
  change (ratio_val (u_off a)) with (offset a). change (ratio_val (u_off b)) with (offset b).
  change (rr_val (u_scale b)) with (scale b). split.
  - intros E. assert (Z0 : ((scale b - 1) * (offset a - offset b) = 0)%R) by lra.
    apply Rmult_integral in Z0. destruct Z0; [right|left]; lra.
  - intros [E|E]; rewrite E; lra.
Qed.
Print Assumptions C67_physical_iff.

Theorem C67_round_trip_iff : forall fuel a b v w v', unit_ok a -> unit_ok b ->
  cast_R fuel a b v = Some w -> cast_R fuel b a w = Some v' ->
  (v' = v <-> offset a = offset b \/ scale a = scale b).
Proof.
  intros fuel a b v w v' Wa Wb H H'.
  destruct (@castR_val fuel a b v w Wa Wb H) as [_ ->]. destruct (@castR_val fuel b a _ v' Wb Wa H') as [_ ->].
  change (ratio_val (u_off a)) with (offset a). change (ratio_val (u_off b)) with (offset b).
  change (rr_val (u_scale b)) with (scale b). change (rr_val (u_scale a)) with (scale a).
  pose proof (scale_pos a) as Pa. pose proof (scale_pos b) as Pb.
  assert (EQ : (scale b / scale a * (scale a / scale b * v + (offset a - offset b)) + (offset b - offset a) - v =
    (offset a - offset b) * (scale b - scale a) / scale a)%R) by (field; lra).
  split.
  - intros E. rewrite E in EQ. assert (Z0 : ((offset a - offset b) * (scale b - scale a) = 0)%R).
    { apply (Rmult_eq_reg_r (/ scale a)); [|apply Rinv_neq_0_compat; lra]. unfold Rdiv in EQ. lra. }
    apply Rmult_integral in Z0. destruct Z0; [left|right]; lra.
  - intros E. assert (Z0 : ((offset a - offset b) * (scale b - scale a) = 0)%R) by (destruct E as [E|E]; rewrite E; ring).
    rewrite Z0 in EQ. unfold Rdiv in EQ. lra.
Qed.
Print Assumptions C67_round_trip_iff.

(** 0 degrees Celsius (273.15 K) becomes 160/9 = 17.8 degrees Fahrenheit (265.2 K) instead of 32, and casting that back gives
    -7.9 degrees Celsius: the offsets are subtracted without being divided by the scale of the target. *)
Theorem C67_temperature_refuted : forall fuel,
  unit_ok celsius /\ unit_ok fahrenheit /\
  physical fahrenheit 32 = physical celsius 0 /\
  cast_R fuel celsius fahrenheit 0 = Some (160 / 9)%R /\
  cast_R fuel fahrenheit celsius (160 / 9) = Some (- (640 / 81))%R.
Proof.
  intros fuel.
  assert (Wc : unit_ok celsius) by uok. assert (Wf : unit_ok fahrenheit) by uok.
  assert (Sc : scale celsius = 1%R) by (apply scale_one; auto; reflexivity).
  assert (Sf : scale fahrenheit = (5 / 9)%R) by (rewrite scale_root1; auto; reflexivity).
  split; [exact Wc|]. split; [exact Wf|]. split; [|split].
  - change (physical fahrenheit 32) with (scale fahrenheit * 32 + 45967 / 180)%R.
    change (physical celsius 0) with (scale celsius * 0 + 5463 / 20)%R. rewrite Sc, Sf. lra.
  - destruct (proj2 (C67_compiles fuel celsius fahrenheit 0) eq_refl eq_refl eq_refl) as [w E]. rewrite E. f_equal.
    destruct (@castR_val fuel celsius fahrenheit _ w Wc Wf E) as [_ ->].
    change (rr_val (u_scale celsius)) with (scale celsius). change (rr_val (u_scale fahrenheit)) with (scale fahrenheit).
    rewrite Sc, Sf. unfold ratio_val. cbn [u_off celsius fahrenheit r_num r_den]. lra.
  - destruct (proj2 (C67_compiles fuel fahrenheit celsius (160/9)) eq_refl eq_refl eq_refl) as [w E]. rewrite E. f_equal.
    destruct (@castR_val fuel fahrenheit celsius _ w Wf Wc E) as [_ ->].
    change (rr_val (u_scale celsius)) with (scale celsius). change (rr_val (u_scale fahrenheit)) with (scale fahrenheit).
    rewrite Sc, Sf. unfold ratio_val. cbn [u_off celsius fahrenheit r_num r_den]. lra.
Qed.
Print Assumptions C67_temperature_refuted.

(** Integer representations: the value is multiplied by the integer part of the ratio of the scales. *)
Theorem C67_integer_value : forall fuel a b v, unit_ok a -> unit_ok b -> rational_scale a -> rational_scale b ->
  u_dim a = u_dim b -> u_off a = u_off b ->
  exists q, cast_Z fuel a b v = Some (q * v)%Z /\ (0 <= q)%Z /\ (IZR q * scale b <= scale a < (IZR q + 1) * scale b)%R.
Proof. intros fuel a b v Wa Wb Ra Rb ED EO. exact (@castZ_val fuel a b v Wa Wb ED EO Ra Rb). Qed.
Print Assumptions C67_integer_value.

(** So 5000 ms cast to seconds is 0 s (std::chrono::duration_cast gives 5). *)
Theorem C67_integer_refuted : cast_Z 10 millisecond second 5000 = Some 0%Z /\
  physical millisecond (IZR 5000) = physical second (IZR 5).
Proof.
  split; [vm_compute; reflexivity|].
  change (physical millisecond (IZR 5000)) with (scale millisecond * 5000 + 0 / 1)%R.
  change (physical second (IZR 5)) with (scale second * 5 + 0 / 1)%R.
  rewrite (@scale_root1 millisecond), (@scale_root1 second); try reflexivity; try uok.
  cbn [u_scale millisecond second rr_num rr_den]. lra.
Qed.
Print Assumptions C67_integer_refuted.

Example C67_nonvacuous : unit_ok kilometre /\ unit_ok centimetre /\ rational_scale kilometre /\ rational_scale centimetre /\
  u_off kilometre = u_off centimetre /\ u_dim kilometre = u_dim centimetre /\
  cast_Z 10 kilometre centimetre 3 = Some 300000%Z.
Proof.
  split; [uok|]. split; [uok|]. repeat (split; [reflexivity|]). vm_compute. reflexivity.
Qed.

(** ** C68 *)

(** All six comparisons decide the order of the physical values, for exact real and for (unbounded) integer representations, whatever
    the offsets.  Missing: irrational scales, see [C68_comparison_refuted]. *)
Theorem C68_comparisons_partial : forall a b, unit_ok a -> unit_ok b -> rational_scale a -> rational_scale b ->
  (forall x y : R,
    (q_eq Rplus Rmult IZR ReqbR a b x y = true <-> physical a x = physical b y) /\
    (q_ne Rplus Rmult IZR ReqbR a b x y = true <-> physical a x <> physical b y) /\
    (q_lt Rplus Rmult IZR RltbR a b x y = true <-> (physical a x < physical b y)%R) /\
    (q_le Rplus Rmult IZR RltbR a b x y = true <-> (physical a x <= physical b y)%R) /\
    (q_gt Rplus Rmult IZR RltbR a b x y = true <-> (physical a x > physical b y)%R) /\
    (q_ge Rplus Rmult IZR RltbR a b x y = true <-> (physical a x >= physical b y)%R)) /\
  (forall x y : Z,
    (q_eq Z.add Z.mul (fun z => z) Z.eqb a b x y = true <-> physical a (IZR x) = physical b (IZR y)) /\
    (q_ne Z.add Z.mul (fun z => z) Z.eqb a b x y = true <-> physical a (IZR x) <> physical b (IZR y)) /\
    (q_lt Z.add Z.mul (fun z => z) Z.ltb a b x y = true <-> (physical a (IZR x) < physical b (IZR y))%R) /\
    (q_le Z.add Z.mul (fun z => z) Z.ltb a b x y = true <-> (physical a (IZR x) <= physical b (IZR y))%R) /\
    (q_gt Z.add Z.mul (fun z => z) Z.ltb a b x y = true <-> (physical a (IZR x) > physical b (IZR y))%R) /\
    (q_ge Z.add Z.mul (fun z => z) Z.ltb a b x y = true <-> (physical a (IZR x) >= physical b (IZR y))%R)).
Proof.
  intros a b Wa Wb Ra Rb.
  assert (negb_iff : forall (bb : bool) (P : Prop), (bb = true <-> P) -> (negb bb = true <-> ~ P)).
  { intros [] P H; cbn; split; intros; try discriminate; try tauto. intros HP. apply H in HP. discriminate. }
  split; intros x y.
  - pose proof (@q_eq_R a b Wa Wb Ra Rb x y) as HE. pose proof (@q_lt_R a b Wa Wb Ra Rb x y) as HL.
    pose proof (@q_lt_R b a Wb Wa Rb Ra y x) as HG. change physical with phys. unfold q_ne, q_le, q_gt, q_ge.
    split; [exact HE|]. split; [apply negb_iff, HE|]. split; [exact HL|]. split; [rewrite (negb_iff _ _ HG); lra|].
    split; [rewrite HG; lra|]. rewrite (negb_iff _ _ HL). lra.
  - pose proof (@q_eq_Z a b Wa Wb Ra Rb x y) as HE. pose proof (@q_lt_Z a b Wa Wb Ra Rb x y) as HL.
    pose proof (@q_lt_Z b a Wb Wa Rb Ra y x) as HG. change physical with phys. unfold q_ne, q_le, q_gt, q_ge.
    split; [exact HE|]. split; [apply negb_iff, HE|]. split; [exact HL|]. split; [rewrite (negb_iff _ _ HG); lra|].
    split; [rewrite HG; lra|]. rewrite (negb_iff _ _ HL). lra.
Qed.
Print Assumptions C68_comparisons_partial.

(** a + b and a - b: the result has the dimension of the operands and its physical value is the sum or difference of theirs,
    when the units have no offset (units with different offsets do not compile).
    Missing: units with an offset, see [C68_offset_sum]. *)
Theorem C68_sum_partial : forall fuel a b c x y z, unit_ok a -> unit_ok b -> offset a = 0%R ->
  (q_add Rplus Rmult Rdiv IZR exact_eval fuel true a b x y = Some (c, z) ->
     u_dim c = u_dim a /\ u_dim c = u_dim b /\ physical c z = (physical a x + physical b y)%R) /\
  (q_sub Rplus Rminus Rmult Rdiv IZR exact_eval fuel true a b x y = Some (c, z) ->
     u_dim c = u_dim a /\ u_dim c = u_dim b /\ physical c z = (physical a x - physical b y)%R).
Proof.
  intros fuel a b c x y z Wa Wb H0. change physical with phys. split; intros H.
  - destruct (@q_plus_R Rplus fuel a b c x y z Wa Wb H) as [E1 [E2 _]]. destruct (@q_add_R fuel a b c x y z Wa Wb H) as [_ E3].
    change (ratio_val (u_off a)) with (offset a) in E3. split; [exact E2|]. split; [congruence|lra].
  - destruct (@q_plus_R Rminus fuel a b c x y z Wa Wb H) as [E1 [E2 _]]. destruct (@q_sub_R fuel a b c x y z Wa Wb H) as [_ E3].
    change (ratio_val (u_off a)) with (offset a) in E3. split; [exact E2|]. split; [congruence|lra].
Qed.
Print Assumptions C68_sum_partial.

(** Units with an offset (both operands must have the same): the numbers are added, so the sum has one offset
    too few: 20 C + 20 C is 40 C, i.e. 313.15 K, while the physical values add up to 586.3 K. *)
Theorem C68_offset_sum : forall fuel a b c x y z, unit_ok a -> unit_ok b ->
  (q_add Rplus Rmult Rdiv IZR exact_eval fuel true a b x y = Some (c, z) ->
     u_off a = u_off b /\ physical c z = (physical a x + physical b y - offset a)%R) /\
  (q_sub Rplus Rminus Rmult Rdiv IZR exact_eval fuel true a b x y = Some (c, z) ->
     u_off a = u_off b /\ physical c z = (physical a x - physical b y + offset a)%R).
Proof.
  intros fuel a b c x y z Wa Wb. change physical with phys. split; intros H.
  - destruct (@q_plus_R Rplus fuel a b c x y z Wa Wb H) as [_ [_ [E1 _]]]. destruct (@q_add_R fuel a b c x y z Wa Wb H) as [_ E3].
    split; [congruence|exact E3].
  - destruct (@q_plus_R Rminus fuel a b c x y z Wa Wb H) as [_ [_ [E1 _]]]. destruct (@q_sub_R fuel a b c x y z Wa Wb H) as [_ E3].
    split; [congruence|exact E3].
Qed.
Print Assumptions C68_offset_sum.

(** x += y and x -= y: the same, with the right operand converted to the unit of the left one. *)
Theorem C68_compound_partial : forall fuel a b x y z, unit_ok a -> unit_ok b -> offset a = 0%R -> offset b = 0%R ->
  (q_iadd Rplus Rmult Rdiv IZR exact_eval fuel true a b x y = Some z -> physical a z = (physical a x + physical b y)%R) /\
  (q_isub Rplus Rminus Rmult Rdiv IZR exact_eval fuel true a b x y = Some z -> physical a z = (physical a x - physical b y)%R).
Proof.
  intros fuel a b x y z Wa Wb Oa Ob. change physical with phys. split; intros H.
  - pose proof (@q_iadd_R fuel a b x y z Wa Wb H) as E. change (ratio_val (u_off a)) with (offset a) in E.
    change (ratio_val (u_off b)) with (offset b) in E. rewrite Oa, Ob in E. lra.
  - pose proof (@q_isub_R fuel a b x y z Wa Wb H) as E. change (ratio_val (u_off a)) with (offset a) in E.
    change (ratio_val (u_off b)) with (offset b) in E. rewrite Oa, Ob in E. lra.
Qed.
Print Assumptions C68_compound_partial.

(** Integers: the sum and the difference of any two units of the same dimension (rational scales, no offsets) that have a common
    unit compile and are exact. *)
Theorem C68_integer_sum : forall fuel a b c x y, unit_ok a -> unit_ok b -> rational_scale a -> rational_scale b ->
  offset a = 0%R -> ty_common fuel a b = Some c ->
  (exists z, q_add Z.add Z.mul Z.quot (fun w => w) (eval_Z fuel) fuel false a b x y = Some (c, z) /\
     physical c (IZR z) = (physical a (IZR x) + physical b (IZR y))%R) /\
  (exists z, q_sub Z.add Z.sub Z.mul Z.quot (fun w => w) (eval_Z fuel) fuel false a b x y = Some (c, z) /\
     physical c (IZR z) = (physical a (IZR x) - physical b (IZR y))%R).
Proof.
  intros fuel a b c x y Wa Wb Ra Rb Oa HC. change physical with phys.
  change (offset a) with (ratio_val (u_off a)) in Oa. unfold q_add, q_sub. split.
  - destruct (@q_plus_Z_some Z.add fuel a b c x y Wa Wb Ra Rb HC) as [z E]. exists z. split; [exact E|].
    destruct (@q_plus_Z _ fuel a b c x y z Wa Wb Ra Rb E) as [_ [Ob [Oc [m [n [Em [En ->]]]]]]].
    unfold phys. rewrite Ob, Oc, Oa, Em, En, plus_IZR, !mult_IZR. ring.
  - destruct (@q_plus_Z_some Z.sub fuel a b c x y Wa Wb Ra Rb HC) as [z E]. exists z. split; [exact E|].
    destruct (@q_plus_Z _ fuel a b c x y z Wa Wb Ra Rb E) as [_ [Ob [Oc [m [n [Em [En ->]]]]]]].
    unfold phys. rewrite Ob, Oc, Oa, Em, En, minus_IZR, !mult_IZR. ring.
Qed.
Print Assumptions C68_integer_sum.

(** factor * qty and qty * factor multiply, qty / factor divides the physical value (unit without offset), when the factor and the
    representation are the same field (here the reals).  Missing: integers, see [C68_division_refuted]. *)
Theorem C68_scalars_partial : forall a x k, unit_ok a -> offset a = 0%R ->
  physical a (q_smul (fun t : R => t) (fun t : R => t) Rmult k x) = (k * physical a x)%R /\
  physical a (q_muls (fun t : R => t) (fun t : R => t) Rmult x k) = (k * physical a x)%R /\
  (k <> 0%R -> physical a (q_divs 1%R Rdiv (fun t : R => t) (fun t : R => t) Rmult x k) = (physical a x / k)%R).
Proof.
  intros a x k _ Oa. change physical with phys. unfold phys. change (ratio_val (u_off a)) with (offset a). rewrite Oa.
  unfold q_divs, q_muls, q_smul. split; [ring|]. split; [ring|]. intros Hk. field. exact Hk.
Qed.
Print Assumptions C68_scalars_partial.

(** Comparing 1 sqrt(km) (31.6 sqrt(m)) with 100 sqrt(m): operator< says 100 sqrt(m) is smaller (the roots of the scales
    are ignored); and 10._m / 2 (a double quantity divided by an int) is 0 m, because 1 / 2 is computed in integers first. *)
Theorem C68_comparison_refuted : unit_ok sqrt_kilometre /\ unit_ok sqrt_metre /\ u_dim sqrt_kilometre = u_dim sqrt_metre /\
  (physical sqrt_kilometre 1 < physical sqrt_metre 100)%R /\
  q_lt Rplus Rmult IZR RltbR sqrt_kilometre sqrt_metre 1%R 100%R = false /\
  q_lt Rplus Rmult IZR RltbR sqrt_metre sqrt_kilometre 100%R 1%R = true.
Proof.
  split; [uok|]. split; [uok|]. split; [reflexivity|]. split; [|split].
  - change physical with phys. unfold phys, ratio_val. cbn [u_off sqrt_kilometre sqrt_metre r_num r_den].
    change (rr_val (u_scale sqrt_metre)) with (scale sqrt_metre). rewrite (@scale_one sqrt_metre); try reflexivity; [|uok].
    unfold rr_val. cbn [u_scale sqrt_kilometre rr_num rr_den rr_root].
    assert (H : (Rpower (1000 / 1) (/ 2) <= 40)%R).
    { apply Rnot_lt_le. intros H.
      assert (E : (Rpower (1000 / 1) (/ 2) * Rpower (1000 / 1) (/ 2) = 1000)%R).
      { rewrite <- Rpower_plus. replace (/ 2 + / 2)%R with 1%R by lra. rewrite Rpower_1; lra. }
      nra. }
    lra.
  - destruct (q_lt Rplus Rmult IZR RltbR sqrt_kilometre sqrt_metre 1%R 100%R) eqn:E; [|reflexivity].
    unfold q_lt in E. rewrite RltbR_iff in E. cbn [u_off u_scale sqrt_kilometre sqrt_metre rr_num rr_den r_num r_den] in E.
    rewrite !mult_IZR in E. lra.
  - unfold q_lt. rewrite RltbR_iff. cbn [u_off u_scale sqrt_kilometre sqrt_metre rr_num rr_den r_num r_den].
    rewrite !mult_IZR. lra.
Qed.
Print Assumptions C68_comparison_refuted.

(** Dividing a quantity with a real representation by an integer k with |k| >= 2 gives 0, whatever the value. *)
Theorem C68_division_refuted : forall (x : R) (k : Z), (2 <= Z.abs k)%Z ->
  q_divs 1%Z Z.quot IZR (fun t : R => t) Rmult x k = 0%R.
Proof.
  intros x k Hk. unfold q_divs, q_muls, q_smul.
  replace (Z.quot 1 k) with 0%Z; [apply Rmult_0_l|]. symmetry. apply Z.quot_small_iff; lia.
Qed.
Print Assumptions C68_division_refuted.

(** += with different offsets compiles: 10 C += 0 K adds -273.15 (converting 0 K to the Celsius scale), and mixes the scale up
    for Fahrenheit. *)
Theorem C68_compound_refuted : forall fuel,
  q_iadd Rplus Rmult Rdiv IZR exact_eval fuel true celsius kelvin 10%R 0%R = Some (10 - 5463 / 20)%R.
Proof.
  intros fuel. unfold q_iadd, convert. cbn [is_implicitly_convertible orb].
  destruct (proj2 (C67_compiles fuel kelvin celsius 0) eq_refl eq_refl eq_refl) as [w E]. unfold cast_R in E. rewrite E. f_equal.
  assert (Wc : unit_ok celsius) by uok. assert (Wk : unit_ok kelvin) by uok.
  destruct (@castR_val fuel kelvin celsius _ w Wk Wc E) as [_ ->].
  change (rr_val (u_scale celsius)) with (scale celsius). change (rr_val (u_scale kelvin)) with (scale kelvin).
  rewrite (@scale_one celsius), (@scale_one kelvin); try reflexivity; auto.
  unfold ratio_val. cbn [u_off celsius kelvin r_num r_den]. lra.
Qed.
Print Assumptions C68_compound_refuted.

(** 1 km + 50 cm = 100050 cm, for integers; 1 km > 9999 cm. *)
Example C68_nonvacuous : unit_ok kilometre /\ unit_ok centimetre /\ rational_scale kilometre /\ rational_scale centimetre /\
  q_add Z.add Z.mul Z.quot (fun w => w) (eval_Z 300) 300 false kilometre centimetre 1%Z 50%Z = Some (centimetre, 100050%Z) /\
  q_gt Z.add Z.mul (fun z => z) Z.ltb kilometre centimetre 1%Z 9999%Z = true.
Proof.
  split; [uok|]. split; [uok|]. split; [reflexivity|]. split; [reflexivity|].
  split; vm_compute; reflexivity.
Qed.
