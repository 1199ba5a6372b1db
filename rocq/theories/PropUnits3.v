(** C69: the named units.  UnitsTable.v is the model (generated from the headers), UnitsRef.v the reference definitions. *)
From Verif Require Import Base Arith ArithFacts ArithFacts2 ArithValue Quantity QuantityFacts QuantityInt UnitsSpec.
From Coq Require Import ZArith QArith Qreals Lia List String Bool Reals.
From Coq Require Import Lra.
From Verif Require Import UnitsRef UnitsTable UnitsFacts PiBound.
Import ListNotations.
Open Scope nat_scope.
Open Scope string_scope.

(** ** C69 *)

(** The families: for every scale s, family<T, s> has the dimension of the international definition and the scale s. *)
Definition family_correct (x : string * (rr -> option uty) * list Q) : Prop := let '(_, f, l) := x in
  forall s, rr_wf s -> rr_root s = 1%Z ->
  exists u, f s = Some u /\ has_dimension u l /\ u_scale u = s /\ forall v, physical u v = (IZR (rr_num s) / IZR (rr_den s) * v)%R.

Lemma fam_is_correct n f l : fam_is f (fdim (f one_rr)) l -> family_correct (n, f, l).
Proof.
  intros H s W R. destruct (H s W R) as [E [e [D S]]]. exists (uz (fdim (f one_rr)) s). split; [exact E|].
  split; [exists ufuel, e; auto|]. split; [reflexivity|]. intros v.
  change physical with phys. unfold phys. cbn [uz u_scale u_off]. rewrite rr_val_root1, ratio_val_zero by assumption. ring.
Qed.

Theorem C69_families_partial : Forall family_correct
  [("dimensionless", dimensionless, []); ("length", length, [1]); ("time", time, [0; 1]); ("mass", mass, [0; 0; 1]);
   ("electric_current", electric_current, [0; 0; 0; 1]); ("temperature", fun s => temperature s zero_ratio, [0; 0; 0; 0; 1]);
   ("amount_of_substance", amount_of_substance, [0; 0; 0; 0; 0; 1]); ("luminous_intensity", luminous_intensity, [0; 0; 0; 0; 0; 0; 1]);
   ("planar_angle", planar_angle, [0; 0; 0; 0; 0; 0; 0; 1]); ("solid_angle", solid_angle, [0; 0; 0; 0; 0; 0; 0; 0; 1]);
   ("data_quantity", data_quantity, [0; 0; 0; 0; 0; 0; 0; 0; 0; 1]);
   ("speed", speed, [1; -(1)]); ("acceleration", acceleration, [1; -(2)]); ("angular_velocity", angular_velocity, [0; -(1); 0; 0; 0; 0; 0; 1]);
   ("momentum", momentum, [1; -(1); 1]); ("area", area, [2]); ("volume", volume, [3]); ("force", force, [1; -(2); 1]);
   ("power", power, [2; -(3); 1]); ("energy", energy, [2; -(2); 1]); ("work", work, [2; -(2); 1]); ("pressure", pressure, [-(1); -(2); 1]);
   ("frequency", frequency, [0; -(1)]); ("data_rate", data_rate, [0; -(1); 0; 0; 0; 0; 0; 0; 0; 1]);
   ("chemical_potential", chemical_potential, [2; -(2); 1; 0; 0; -(1)]); ("molarity", molarity, [-(3); 0; 0; 0; 0; 1]);
   ("molality", molality, [0; 0; -(1); 0; 0; 1]); ("catalytic_activity", catalytic_activity, [0; -(1); 0; 0; 0; 1]);
   ("electric_potential", electric_potential, [2; -(3); 1; -(1)]); ("electric_charge", electric_charge, [0; 1; 0; 1]);
   ("electrical_resistance", electrical_resistance, [2; -(3); 1; -(2)]); ("electrical_resistivity", electrical_resistivity, [3; -(3); 1; -(2)]);
   ("capacitance", capacitance, [-(2); 4; -(1); 2]); ("inductance", inductance, [2; -(2); 1; -(2)]);
   ("magnetic_flux_density", magnetic_flux_density, [0; -(2); 1; -(1)]); ("magnetic_flux", magnetic_flux, [2; -(2); 1; -(1)]);
   ("current_noise_density", current_noise_density, [0; 1 / 2; 0; 1]); ("voltage_noise_density", voltage_noise_density, [2; -(5 / 2); 1; -(1)]);
   ("luminous_flux", luminous_flux, [0; 0; 0; 0; 0; 0; 1; 0; 1]); ("luminous_energy", luminous_energy, [0; 1; 0; 0; 0; 0; 1; 0; 1]);
   ("luminance", luminance, [-(2); 0; 0; 0; 0; 0; 1]); ("illuminance", illuminance, [-(2); 0; 0; 0; 0; 0; 1; 0; 1]);
   ("luminous_exposure", luminous_exposure, [-(2); 1; 0; 0; 0; 0; 1; 0; 1]);
   ("luminous_energy_density", luminous_energy_density, [-(3); 1; 0; 0; 0; 0; 1; 0; 1]);
   ("luminous_efficacy", luminous_efficacy, [-(2); 3; -(1); 0; 0; 0; 1; 0; 1]);
   ("heat", heat, [2; -(2); 1]); ("heat_transfer_rate", heat_transfer_rate, [2; -(3); 1]); ("heat_flux", heat_flux, [0; -(3); 1]);
   ("heat_capacity", heat_capacity, [2; -(2); 1; 0; -(1)]); ("thermal_resistance", thermal_resistance, [-(2); 3; -(1); 0; 1]);
   ("thermal_resistivity", thermal_resistivity, [-(1); 3; -(1); 0; 1]); ("thermal_insulance", thermal_insulance, [0; 3; -(1); 0; 1])]%Q.
Proof.
  apply Forall_cons; [exact (@fam_is_correct _ _ _ F_dimensionless)|].
  apply Forall_cons; [exact (@fam_is_correct _ _ _ F_length)|].
  apply Forall_cons; [exact (@fam_is_correct _ _ _ F_time)|].
  apply Forall_cons; [exact (@fam_is_correct _ _ _ F_mass)|].
  apply Forall_cons; [exact (@fam_is_correct _ _ _ F_electric_current)|].
  apply Forall_cons; [exact (@fam_is_correct _ _ _ F_temperature)|].
  apply Forall_cons; [exact (@fam_is_correct _ _ _ F_amount_of_substance)|].
  apply Forall_cons; [exact (@fam_is_correct _ _ _ F_luminous_intensity)|].
  apply Forall_cons; [exact (@fam_is_correct _ _ _ F_planar_angle)|].
  apply Forall_cons; [exact (@fam_is_correct _ _ _ F_solid_angle)|].
  apply Forall_cons; [exact (@fam_is_correct _ _ _ F_data_quantity)|].
  apply Forall_cons; [exact (@fam_is_correct _ _ _ F_speed)|].
  apply Forall_cons; [exact (@fam_is_correct _ _ _ F_acceleration)|].
  apply Forall_cons; [exact (@fam_is_correct _ _ _ F_angular_velocity)|].
  apply Forall_cons; [exact (@fam_is_correct _ _ _ F_momentum)|].
  apply Forall_cons; [exact (@fam_is_correct _ _ _ F_area)|].
  apply Forall_cons; [exact (@fam_is_correct _ _ _ F_volume)|].
  apply Forall_cons; [exact (@fam_is_correct _ _ _ F_force)|].
  apply Forall_cons; [exact (@fam_is_correct _ _ _ F_power)|].
  apply Forall_cons; [exact (@fam_is_correct _ _ _ F_energy)|].
  apply Forall_cons; [exact (@fam_is_correct _ _ _ F_work)|].
  apply Forall_cons; [exact (@fam_is_correct _ _ _ F_pressure)|].
  apply Forall_cons; [exact (@fam_is_correct _ _ _ F_frequency)|].
  apply Forall_cons; [exact (@fam_is_correct _ _ _ F_data_rate)|].
  apply Forall_cons; [exact (@fam_is_correct _ _ _ F_chemical_potential)|].
  apply Forall_cons; [exact (@fam_is_correct _ _ _ F_molarity)|].
  apply Forall_cons; [exact (@fam_is_correct _ _ _ F_molality)|].
  apply Forall_cons; [exact (@fam_is_correct _ _ _ F_catalytic_activity)|].
  apply Forall_cons; [exact (@fam_is_correct _ _ _ F_electric_potential)|].
  apply Forall_cons; [exact (@fam_is_correct _ _ _ F_electric_charge)|].
  apply Forall_cons; [exact (@fam_is_correct _ _ _ F_electrical_resistance)|].
  apply Forall_cons; [exact (@fam_is_correct _ _ _ F_electrical_resistivity)|].
  apply Forall_cons; [exact (@fam_is_correct _ _ _ F_capacitance)|].
  apply Forall_cons; [exact (@fam_is_correct _ _ _ F_inductance)|].
  apply Forall_cons; [exact (@fam_is_correct _ _ _ F_magnetic_flux_density)|].
  apply Forall_cons; [exact (@fam_is_correct _ _ _ F_magnetic_flux)|].
  apply Forall_cons; [exact (@fam_is_correct _ _ _ F_current_noise_density)|].
  apply Forall_cons; [exact (@fam_is_correct _ _ _ F_voltage_noise_density)|].
  apply Forall_cons; [exact (@fam_is_correct _ _ _ F_luminous_flux)|].
  apply Forall_cons; [exact (@fam_is_correct _ _ _ F_luminous_energy)|].
  apply Forall_cons; [exact (@fam_is_correct _ _ _ F_luminance)|].
  apply Forall_cons; [exact (@fam_is_correct _ _ _ F_illuminance)|].
  apply Forall_cons; [exact (@fam_is_correct _ _ _ F_luminous_exposure)|].
  apply Forall_cons; [exact (@fam_is_correct _ _ _ F_luminous_energy_density)|].
  apply Forall_cons; [exact (@fam_is_correct _ _ _ F_luminous_efficacy)|].
  apply Forall_cons; [exact (@fam_is_correct _ _ _ F_heat)|].
  apply Forall_cons; [exact (@fam_is_correct _ _ _ F_heat_transfer_rate)|].
  apply Forall_cons; [exact (@fam_is_correct _ _ _ F_heat_flux)|].
  apply Forall_cons; [exact (@fam_is_correct _ _ _ F_heat_capacity)|].
  apply Forall_cons; [exact (@fam_is_correct _ _ _ F_thermal_resistance)|].
  apply Forall_cons; [exact (@fam_is_correct _ _ _ F_thermal_resistivity)|].
  apply Forall_cons; [exact (@fam_is_correct _ _ _ F_thermal_insulance)|].
  apply Forall_nil.
Qed.
Print Assumptions C69_families_partial.

(** Missing: electrical and thermal conductivity.  family<T, s> is the inverse of the resistance with scale s, so its scale is 1/s: a
    millisiemens is 1000 siemens. *)
Theorem C69_conductivity_refuted : forall s, rr_wf s -> rr_root s = 1%Z ->
  (exists u, electrical_conductivity s = Some u /\ has_dimension u [-(2); 3; -(1); 2]%Q /\
     forall v, physical u v = (IZR (rr_den s) / IZR (rr_num s) * v)%R) /\
  (exists u, thermal_conductivity s = Some u /\ has_dimension u [1; -(3); 1; 0; -(1)]%Q /\
     forall v, physical u v = (IZR (rr_den s) / IZR (rr_num s) * v)%R).
Proof.
  intros s W R.
  assert (K : forall D s' v, rr_wf s' -> rr_val s' = (/ rr_val s)%R -> physical (uz D s') v = (IZR (rr_den s) / IZR (rr_num s) * v)%R).
  { intros D s' v W' V. change physical with phys. unfold phys. cbn [uz u_scale u_off]. rewrite V, (rr_val_root1 W R), ratio_val_zero.
    destruct W as [A [B _]]. field. split; apply not_0_IZR; lia. }
  split.
  - assert (Q1 : rr_divide ufuel one_rr (fdim (electrical_resistance one_rr)) = Some (fdim (electrical_conductivity one_rr))) by vmr.
    assert (Q2 : expo_check (fun a _ => - a)%Q [-(2); 3; -(1); 2]%Q e_ohm e_ohm = true) by vmr.
    destruct (@fam_inv _ _ _ _ _ F_electrical_resistance Q1 Q2 s W R) as [s' [E [W' [V [e [D S]]]]]]. eexists. split; [exact E|]. split; [exists ufuel, e; auto|]. intros v. apply K; assumption.
  - assert (Q1 : rr_divide ufuel one_rr (fdim (thermal_resistivity one_rr)) = Some (fdim (thermal_conductivity one_rr))) by vmr.
    assert (Q2 : expo_check (fun a _ => - a)%Q [1; -(3); 1; 0; -(1)]%Q [-(1); 3; -(1); 0; 1]%Q [-(1); 3; -(1); 0; 1]%Q = true) by vmr.
    destruct (@fam_inv _ _ _ _ _ F_thermal_resistivity Q1 Q2 s W R) as [s' [E [W' [V [e [D S]]]]]]. eexists. split; [exact E|]. split; [exists ufuel, e; auto|]. intros v. apply K; assumption.
Qed.
Print Assumptions C69_conductivity_refuted.

(** Units whose definition differs from the reference: wrong ([wrong_units]) or rounded ([rounded_units]). *)
Definition siemens_prefixes := ["atto"; "femto"; "pico"; "nano"; "micro"; "milli"; "centi"; "deci"; "deca"; "hecto"; "kilo"; "mega"; "giga"; "tera"; "peta"; "exa"].
Definition wrong_units : list string :=
  (["teratonne"; "_Tt"; "kilometer_per_hour"; "_km_per_h"; "knot"; "_kn"; "pound_force"; "poundal"; "kilogram_force"; "dyne"; "_flm"; "_flx";
   "_aS"; "_fS"; "_pS"; "_nS"; "_uS"; "_mS"; "_kS"; "_MS"; "_GS"; "_TS"; "_PS"; "_ES"] ++ map (fun p => (p ++ "siemens")%string) siemens_prefixes)%list.
Definition rounded_units : list string := ["parsec"; "_pc"; "degree"; "_deg"; "turn"; "_turn"; "mmHg"; "_mmHg"; "psi"; "_psi"; "enzyme_unit"].

(** Every other unit and literal of the library is exactly the one of the reference table: it has the reference dimension, and v units are
    factor * v + offset coherent SI units.  (The reference table names each unit once.) *)
Theorem C69_units_partial :
  NoDup (map ref_name units_ref) /\
  forall name t, In (name, t) units_table -> ~ In name wrong_units -> ~ In name rounded_units ->
  exists r u, In r units_ref /\ ref_name r = name /\ t = Some u /\ has_dimension u (ref_expo r) /\
    forall v, physical u v = (Q2R (ref_factor r) * v + Q2R (ref_offset r))%R.
Proof.
  split.
  - assert (H : forall l : list string, (fix nd l := match l with [] => true | x :: r => negb (existsb (String.eqb x) r) && nd r end) l = true -> NoDup l).
    { induction l as [|x l IH]; [constructor|]. intros H. apply andb_true_iff in H. destruct H as [H1 H2]. constructor; [|auto].
      intros I. apply negb_true_iff in H1. assert (X : existsb (String.eqb x) l = true) by (apply existsb_exists; exists x; split; [exact I|apply String.eqb_refl]).
      congruence. }
    apply H. vm_compute. reflexivity.
  - assert (F : forallb (fun x => existsb (String.eqb (fst x)) wrong_units || existsb (String.eqb (fst x)) rounded_units || entry_matches x) units_table = true)
      by (vm_compute; reflexivity).
    intros name t I N1 N2. rewrite forallb_forall in F. specialize (F _ I). cbn [fst] in F.
    assert (K : forall l, ~ In name l -> existsb (String.eqb name) l = false).
    { intros l N. destruct (existsb (String.eqb name) l) eqn:E; [|reflexivity]. apply existsb_exists in E. destruct E as [x [Hx Ex]].
      apply String.eqb_eq in Ex. subst x. contradiction. }
    rewrite (K _ N1), (K _ N2) in F. cbn [orb] in F. exact (entry_matches_ok _ _ F).
Qed.
Print Assumptions C69_units_partial.

(** The number of entries the theorem covers: 981 of the 1032 entries of the table. *)
Example C69_nonvacuous :
  List.length units_table = 1032%nat /\
  List.length (filter (fun x => negb (existsb (String.eqb (fst x)) (wrong_units ++ rounded_units)%list)) units_table) = 981%nat /\
  In ("mile_per_hour", Some (U (RR 2 3 1) (RR 1397 3125 1) (Ratio 0 1))) units_table /\
  In (Ref "mile_per_hour" e_speed (mile / UnitsRef.hour) 0) units_ref.
Proof.
  split; [vm_compute; reflexivity|]. split; [vm_compute; reflexivity|]. split.
  - assert (E : find (fun x => String.eqb (fst x) "mile_per_hour") units_table = Some ("mile_per_hour", Some (U (RR 2 3 1) (RR 1397 3125 1) (Ratio 0 1))))
      by (vm_compute; reflexivity). apply find_some in E. apply E.
  - assert (E : find (fun r => String.eqb (ref_name r) "mile_per_hour") units_ref = Some (Ref "mile_per_hour" e_speed (mile / UnitsRef.hour) 0))
      by (vm_compute; reflexivity). apply find_some in E. apply E.
Qed.

(** What the wrong ones are.  [named n u]: the library's unit n is u. *)
Definition named (n : string) (u : uty) : Prop := In (n, Some u) units_table.
Lemma named_find n u : find (fun x => String.eqb (fst x) n) units_table = Some (n, Some u) -> named n u.
Proof. intros E. apply find_some in E. apply E. Qed.
Ltac nm := apply named_find; vm_compute; reflexivity.
Ltac ph := intros; change physical with phys; unfold phys, ratio_val; cbn [u_scale u_off r_num r_den];
  rewrite rr_val_root1; [|repeat split; cbn; lia|reflexivity]; cbn [rr_num rr_den]; field.

(** 1 km/h is taken for 3.6 m/s and 1 knot for 6.6672 m/s (the inverse factors; 5/18 and 463/900 are correct); a teratonne is 10^18 kg; the
    four imperial and technical force units are volumes; the femto-lumen and femto-lux literals are pico; a millisiemens is 1000 S. *)
Theorem C69_wrong_refuted :
  (exists u, named "kilometer_per_hour" u /\ named "_km_per_h" u /\ (forall v, physical u v = (36 / 10 * v)%R)) /\
  (exists u, named "knot" u /\ named "_kn" u /\ (forall v, physical u v = (66672 / 10000 * v)%R)) /\
  (exists u, named "teratonne" u /\ named "_Tt" u /\ (forall v, physical u v = (1000000000000000000 * v)%R)) /\
  (forall n, In n ["pound_force"; "poundal"; "kilogram_force"; "dyne"] -> exists u, named n u /\ has_dimension u [3]%Q) /\
  (exists u, named "_flm" u /\ named "picolumen" u /\ (forall v, physical u v = (1 / 1000000000000 * v)%R)) /\
  (exists u, named "_flx" u /\ named "picolux" u /\ (forall v, physical u v = (1 / 1000000000000 * v)%R)) /\
  (exists u, named "millisiemens" u /\ named "_mS" u /\ (forall v, physical u v = (1000 * v)%R)) /\
  (exists u, named "kilosiemens" u /\ named "_kS" u /\ (forall v, physical u v = (1 / 1000 * v)%R)).
Proof.
  split; [eexists; repeat split; [nm|nm|ph]|].
  split; [eexists; repeat split; [nm|nm|ph]|].
  split; [eexists; repeat split; [nm|nm|ph]|].
  split; [|split; [eexists; repeat split; [nm|nm|ph]|split; [eexists; repeat split; [nm|nm|ph]|split; eexists; repeat split; [nm|nm|ph|nm|nm|ph]]]].
  assert (K : forall s, rr_wfb s = true -> rr_root s = 1%Z -> has_dimension (uz (fdim (volume one_rr)) s) [3]%Q).
  { intros s W R. destruct (F_volume (rr_wfb_ok _ W) R) as [_ [e [D S]]]. exists ufuel, e. auto. }
  intros n [E|[E|[E|[E|[]]]]]; subst n.
  - exists (uz (fdim (volume one_rr)) (mk_rr 44482216152605 10000000000000 1)). split; [nm|apply K; vmr].
  - exists (uz (fdim (volume one_rr)) (mk_rr 138254954376 1000000000000 1)). split; [nm|apply K; vmr].
  - exists (uz (fdim (volume one_rr)) (mk_rr 980665 100000 1)). split; [nm|apply K; vmr].
  - exists (uz (fdim (volume one_rr)) (mk_rr 1 100000 1)). split; [nm|apply K; vmr].
Qed.
Print Assumptions C69_wrong_refuted.

(** The rounded ones: pi is replaced by 21053343141/6701487259, so angles in degrees and turns are right to 10^-22 relative; a parsec is
    241773 m short of 648000/pi astronomical units (8 * 10^-12 relative); 1 mmHg is 101325/760 Pa, 1 psi 6894.76 Pa and one enzyme unit
    16.67 nmol/s. *)
Theorem C69_rounded_partial :
  (exists u, named "degree" u /\ named "_deg" u /\ forall v, (Rabs (physical u v - PI / 180 * v) <= 2 / 1000000000000000000000000 * Rabs v)%R) /\
  (exists u, named "turn" u /\ named "_turn" u /\ forall v, (Rabs (physical u v - 2 * PI * v) <= 6 / 10000000000000000000000 * Rabs v)%R) /\
  (exists u, named "parsec" u /\ named "_pc" u /\ (forall v, physical u v = (30856775814671900 * v)%R) /\
    (241772 <= 648000 / PI * 149597870700 - 30856775814671900 <= 241773)%R) /\
  (exists u, named "mmHg" u /\ named "_mmHg" u /\ (forall v, physical u v = (101325 / 760 * v)%R)) /\
  (exists u, named "psi" u /\ named "_psi" u /\ (forall v, physical u v = (689476 / 100 * v)%R)) /\
  (exists u, named "enzyme_unit" u /\ (forall v, physical u v = (1667 / 100000000000 * v)%R)).
Proof.
  pose proof pi_q_lower as L. pose proof pi_q_upper as H.
  unfold Q2R, pi_q in L, H. cbn [Qnum Qden] in L, H.
  assert (A : forall c k v d, (0 <= c)%R -> (0 <= PI * c - k <= d)%R -> (Rabs (k * v - PI * c * v) <= d * Rabs v)%R).
  { intros c k v d Hc Hd. replace (k * v - PI * c * v)%R with (- (PI * c - k) * v)%R by ring. rewrite Rabs_mult, Rabs_Ropp.
    rewrite (Rabs_right (PI * c - k)) by lra. apply Rmult_le_compat_r; [apply Rabs_pos|lra]. }
  split; [|split; [|split; [|split; [|split]]]].
  - eexists; repeat split; [nm|nm|]. intros v.
    match goal with |- (Rabs (physical ?u v - _) <= _)%R => replace (physical u v) with ((21053343141 / 6701487259 * / 180) * v)%R by (symmetry; ph) end.
    replace (PI / 180 * v)%R with (PI * / 180 * v)%R by (unfold Rdiv; ring). apply A; lra.
  - eexists; repeat split; [nm|nm|]. intros v.
    match goal with |- (Rabs (physical ?u v - _) <= _)%R => replace (physical u v) with ((21053343141 / 6701487259 * 2) * v)%R by (symmetry; ph) end.
    replace (2 * PI * v)%R with (PI * 2 * v)%R by ring. apply A; lra.
  - eexists; repeat split; [nm|nm|ph| |].
    + assert (P : (648000 / PI * PI = 648000)%R) by (field; lra).
      assert (X : (0 < 648000 / PI)%R) by (apply Rdiv_lt_0_compat; lra).
      pose proof (Rmult_le_compat_l _ _ _ (Rlt_le _ _ X) L) as L'. pose proof (Rmult_le_compat_l _ _ _ (Rlt_le _ _ X) H) as H'.
      generalize dependent (648000 / PI)%R. intros x P X L' H'. lra.
    + assert (P : (648000 / PI * PI = 648000)%R) by (field; lra).
      assert (X : (0 < 648000 / PI)%R) by (apply Rdiv_lt_0_compat; lra).
      pose proof (Rmult_le_compat_l _ _ _ (Rlt_le _ _ X) L) as L'. pose proof (Rmult_le_compat_l _ _ _ (Rlt_le _ _ X) H) as H'.
      generalize dependent (648000 / PI)%R. intros x P X L' H'. lra.
  - eexists; repeat split; [nm|nm|ph].
  - eexists; repeat split; [nm|nm|ph].
  - eexists; repeat split; [nm|ph].
Qed.
Print Assumptions C69_rounded_partial.
