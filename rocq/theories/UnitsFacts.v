(** Families and units: dimension and scale. *)
From Verif Require Import Base Arith ArithFacts ArithFacts2 ArithNewton ArithValue Quantity QuantityFacts QuantityInt
  UnitsSpec DimFacts2 DimFacts3.
From Coq Require Import ZArith QArith Qreals Lia List String Bool Reals.
From Verif Require Import UnitsRef UnitsTable.
Import ListNotations.
Open Scope nat_scope.
Set Implicit Arguments.

Lemma mk_rr_root1 s : rr_wf s -> rr_root s = 1%Z -> mk_rr (rr_num s) (rr_den s) 1 = s.
Proof. intros W E. rewrite <- E. apply mk_rr_self, W. Qed.

Lemma rr_multiply_one fuel s : rr_wf s -> rr_root s = 1%Z -> rr_multiply fuel s one_rr = Some s.
Proof.
  intros W E. unfold rr_multiply. rewrite E. cbn [one_rr rr_root rr_num rr_den Z.eqb Pos.eqb andb].
  rewrite !Z.mul_1_r. f_equal. apply mk_rr_root1; assumption.
Qed.
Lemma rr_divide_one fuel s : rr_wf s -> rr_root s = 1%Z -> rr_divide fuel s one_rr = Some s.
Proof.
  intros W E. unfold rr_divide. replace (mk_rr (rr_den one_rr) (rr_num one_rr) (rr_root one_rr)) with one_rr by (vm_compute; reflexivity).
  apply rr_multiply_one; assumption.
Qed.

Definition uz (d s : rr) : uty := U d s zero_ratio.
Definition fam_is (f : rr -> option uty) (D : rr) (l : list Q) : Prop :=
  forall s, rr_wf s -> rr_root s = 1%Z ->
  f s = Some (uz D s) /\ exists e, dim_of ufuel true (uz D s) e /\ same_expo e (listed l).
Definition const_is (t : option uty) (D : rr) (l : list Q) : Prop :=
  t = Some (uz D one_rr) /\ exists e, dim_of ufuel true (uz D one_rr) e /\ same_expo e (listed l).

Lemma fam_const f D l : fam_is f D l -> const_is (f one_rr) D l.
Proof. intros H. apply H; [repeat split; cbn; lia|reflexivity]. Qed.

(** Pointwise check of exponent lists. *)
Definition expo_check (g : Q -> Q -> Q) (l la lb : list Q) : bool :=
  forallb (fun i => Qeq_bool (listed l i) (g (listed la i) (listed lb i))) (seq 1 10).
Lemma expo_check_ok g l la lb : expo_check g l la lb = true -> forall i, 1 <= i <= 10 -> (listed l i == g (listed la i) (listed lb i))%Q.
Proof.
  intros H i Hi. apply Qeq_bool_iff. unfold expo_check in H. rewrite forallb_forall in H. apply H, in_seq. lia.
Qed.

Lemma fam_base I D l : I <= 10 -> base_dimension ufuel 11 I = Some D ->
  forallb (fun i => Qeq_bool (listed l i) (unit_vec I i)) (seq 1 10) = true ->
  fam_is (fun s => base_quantity ufuel 11 I s zero_ratio) D l.
Proof.
  intros HI HB HC s W R. assert (E : base_quantity ufuel 11 I s zero_ratio = Some (uz D s)) by (unfold base_quantity; rewrite HB; reflexivity).
  split; [exact E|]. exists (unit_vec I). split.
  - apply (@do_base ufuel true I s zero_ratio); auto. cbn. lia.
  - intros i Hi. symmetry. apply Qeq_bool_iff. rewrite forallb_forall in HC. apply HC, in_seq. lia.
Qed.

Lemma fam_mul f D l t D' l' D'' l'' : fam_is f D l -> const_is t D' l' -> rr_multiply ufuel D D' = Some D'' ->
  expo_check Qplus l'' l l' = true -> fam_is (fun s => qmul (f s) t) D'' l''.
Proof.
  intros Hf [Et [e' [De' Se']]] HM HC s W R. destruct (Hf s W R) as [Ef [e [De Se]]]. rewrite Ef, Et.
  assert (E : qmul (Some (uz D s)) (Some (uz D' one_rr)) = Some (uz D'' s)).
  { unfold qmul, bind2, ty_mul, uz. cbn [u_off u_dim u_scale]. replace (ratio_eqb zero_ratio zero_ratio) with true by reflexivity.
    rewrite HM, rr_multiply_one by assumption. reflexivity. }
  split; [exact E|]. exists (fun i => e i + e' i)%Q. split.
  - eapply do_mul; eauto.
  - intros i Hi. rewrite (Se i Hi), (Se' i Hi). symmetry. apply (@expo_check_ok _ _ _ _ HC i Hi).
Qed.

Lemma fam_div f D l t D' l' D'' l'' : fam_is f D l -> const_is t D' l' -> rr_divide ufuel D D' = Some D'' ->
  expo_check Qminus l'' l l' = true -> fam_is (fun s => qdiv (f s) t) D'' l''.
Proof.
  intros Hf [Et [e' [De' Se']]] HM HC s W R. destruct (Hf s W R) as [Ef [e [De Se]]]. rewrite Ef, Et.
  assert (E : qdiv (Some (uz D s)) (Some (uz D' one_rr)) = Some (uz D'' s)).
  { unfold qdiv, bind2, ty_div, uz. cbn [u_off u_dim u_scale]. replace (ratio_eqb zero_ratio zero_ratio) with true by reflexivity.
    rewrite HM, rr_divide_one by assumption. reflexivity. }
  split; [exact E|]. exists (fun i => e i - e' i)%Q. split.
  - eapply do_div; eauto.
  - intros i Hi. rewrite (Se i Hi), (Se' i Hi). symmetry. apply (@expo_check_ok _ _ _ _ HC i Hi).
Qed.

Lemma const_root k t D l D' l' : (1 <= k)%Z -> const_is t D l -> ty_root ufuel k (uz D one_rr) = Some (uz D' one_rr) ->
  expo_check (fun a _ => a / inject_Z k)%Q l' l l = true -> const_is (qroot k t) D' l'.
Proof.
  intros Hk [Et [e [De Se]]] HR HC. rewrite Et. split; [exact HR|]. exists (fun i => e i / inject_Z k)%Q. split.
  - eapply do_root; eauto.
  - intros i Hi. rewrite (Se i Hi). symmetry. apply (@expo_check_ok _ _ _ _ HC i Hi).
Qed.

(** quantity_invert inverts the scale as well. *)
Lemma fam_inv f D l D' l' : fam_is f D l -> rr_divide ufuel one_rr D = Some D' ->
  expo_check (fun a _ => - a)%Q l' l l = true ->
  forall s, rr_wf s -> rr_root s = 1%Z -> exists s', qinv (f s) = Some (uz D' s') /\ rr_wf s' /\ rr_val s' = (/ rr_val s)%R /\
    exists e, dim_of ufuel true (uz D' s') e /\ same_expo e (listed l').
Proof.
  intros Hf HD HC s W R. destruct (Hf s W R) as [Ef [e [De Se]]]. rewrite Ef.
  destruct (rr_divide_root1_some ufuel one_rr s eq_refl R) as [s' Es].
  destruct (rr_divide_val ufuel one_rr_wf W Es) as [Ws Vs]. rewrite one_rr_val in Vs.
  assert (E : qinv (Some (uz D s)) = Some (uz D' s')) by (unfold qinv, ty_inv, uz; cbn [u_dim u_scale]; rewrite HD, Es; reflexivity).
  exists s'. split; [exact E|]. split; [exact Ws|]. split; [rewrite Vs; unfold Rdiv; apply Rmult_1_l|].
  exists (fun i => - e i)%Q. split.
  - eapply do_inv; eauto.
  - intros i Hi. rewrite (Se i Hi). symmetry. apply (@expo_check_ok _ _ _ _ HC i Hi).
Qed.

Ltac vmr := vm_compute; reflexivity.
Definition fdim (t : option uty) : rr := match t with Some u => u_dim u | None => one_rr end.

Definition L_electric_current_electric_current : list Q := [0;0;0;2]%Q.
Definition L_electric_potential_time : list Q := [2;-(2);1;-(1)]%Q.
Definition L_electric_charge_speed : list Q := [1;0;0;1]%Q.
Definition tempf (s : rr) := temperature s zero_ratio.
Lemma F_temperature : fam_is tempf (fdim (tempf one_rr)) e_temperature.
Proof. refine (@fam_base 5 _ _ _ _ _); [lia|vmr|vmr]. Qed.
Lemma F_dimensionless : fam_is dimensionless (fdim (dimensionless one_rr)) []%Q.
Proof. refine (@fam_base 0 _ _ _ _ _); [lia|vmr|vmr]. Qed.
Lemma F_length : fam_is length (fdim (length one_rr)) e_length.
Proof. refine (@fam_base 1 _ _ _ _ _); [lia|vmr|vmr]. Qed.
Lemma F_time : fam_is time (fdim (time one_rr)) e_time.
Proof. refine (@fam_base 2 _ _ _ _ _); [lia|vmr|vmr]. Qed.
Lemma F_mass : fam_is mass (fdim (mass one_rr)) e_mass.
Proof. refine (@fam_base 3 _ _ _ _ _); [lia|vmr|vmr]. Qed.
Lemma F_electric_current : fam_is electric_current (fdim (electric_current one_rr)) e_current.
Proof. refine (@fam_base 4 _ _ _ _ _); [lia|vmr|vmr]. Qed.
Lemma F_amount_of_substance : fam_is amount_of_substance (fdim (amount_of_substance one_rr)) e_amount.
Proof. refine (@fam_base 6 _ _ _ _ _); [lia|vmr|vmr]. Qed.
Lemma F_luminous_intensity : fam_is luminous_intensity (fdim (luminous_intensity one_rr)) e_luminous.
Proof. refine (@fam_base 7 _ _ _ _ _); [lia|vmr|vmr]. Qed.
Lemma F_planar_angle : fam_is planar_angle (fdim (planar_angle one_rr)) e_angle.
Proof. refine (@fam_base 8 _ _ _ _ _); [lia|vmr|vmr]. Qed.
Lemma F_solid_angle : fam_is solid_angle (fdim (solid_angle one_rr)) e_solid.
Proof. refine (@fam_base 9 _ _ _ _ _); [lia|vmr|vmr]. Qed.
Lemma F_data_quantity : fam_is data_quantity (fdim (data_quantity one_rr)) e_data.
Proof. refine (@fam_base 10 _ _ _ _ _); [lia|vmr|vmr]. Qed.
Lemma F_speed : fam_is speed (fdim (speed one_rr)) e_speed.
Proof. refine (@fam_div _ _ _ _ _ _ _ _ F_length (fam_const F_time) _ _); [vmr|vmr]. Qed.
Lemma F_acceleration : fam_is acceleration (fdim (acceleration one_rr)) e_accel.
Proof. refine (@fam_div _ _ _ _ _ _ _ _ F_speed (fam_const F_time) _ _); [vmr|vmr]. Qed.
Lemma F_angular_velocity : fam_is angular_velocity (fdim (angular_velocity one_rr)) [0;-(1);0;0;0;0;0;1]%Q.
Proof. refine (@fam_div _ _ _ _ _ _ _ _ F_planar_angle (fam_const F_time) _ _); [vmr|vmr]. Qed.
Lemma F_momentum : fam_is momentum (fdim (momentum one_rr)) [1;-(1);1]%Q.
Proof. refine (@fam_mul _ _ _ _ _ _ _ _ F_mass (fam_const F_speed) _ _); [vmr|vmr]. Qed.
Lemma F_area : fam_is area (fdim (area one_rr)) e_area.
Proof. refine (@fam_mul _ _ _ _ _ _ _ _ F_length (fam_const F_length) _ _); [vmr|vmr]. Qed.
Lemma F_volume : fam_is volume (fdim (volume one_rr)) e_volume.
Proof. refine (@fam_mul _ _ _ _ _ _ _ _ F_area (fam_const F_length) _ _); [vmr|vmr]. Qed.
Lemma F_force : fam_is force (fdim (force one_rr)) e_force.
Proof. refine (@fam_mul _ _ _ _ _ _ _ _ F_mass (fam_const F_acceleration) _ _); [vmr|vmr]. Qed.
Lemma F_power : fam_is power (fdim (power one_rr)) e_power.
Proof. refine (@fam_mul _ _ _ _ _ _ _ _ F_force (fam_const F_speed) _ _); [vmr|vmr]. Qed.
Lemma F_energy : fam_is energy (fdim (energy one_rr)) e_energy.
Proof. refine (@fam_mul _ _ _ _ _ _ _ _ F_power (fam_const F_time) _ _); [vmr|vmr]. Qed.
Lemma F_work : fam_is work (fdim (work one_rr)) e_energy.
Proof. exact F_energy. Qed.
Lemma F_pressure : fam_is pressure (fdim (pressure one_rr)) e_pressure.
Proof. refine (@fam_div _ _ _ _ _ _ _ _ F_force (fam_const F_area) _ _); [vmr|vmr]. Qed.
Lemma F_frequency : fam_is frequency (fdim (frequency one_rr)) e_frequency.
Proof. refine (@fam_div _ _ _ _ _ _ _ _ F_dimensionless (fam_const F_time) _ _); [vmr|vmr]. Qed.
Definition L_rthz : list Q := [0; -(1 / 2)]%Q.
Lemma C_rthz : const_is (qroot 2 (frequency one_rr)) (fdim (qroot 2 (frequency one_rr))) L_rthz.
Proof. refine (@const_root _ _ _ _ _ _ _ (fam_const F_frequency) _ _); [lia|vmr|vmr]. Qed.
Lemma F_data_rate : fam_is data_rate (fdim (data_rate one_rr)) e_bitrate.
Proof. refine (@fam_div _ _ _ _ _ _ _ _ F_data_quantity (fam_const F_time) _ _); [vmr|vmr]. Qed.
Lemma F_chemical_potential : fam_is chemical_potential (fdim (chemical_potential one_rr)) [2;-(2);1;0;0;-(1)]%Q.
Proof. refine (@fam_div _ _ _ _ _ _ _ _ F_energy (fam_const F_amount_of_substance) _ _); [vmr|vmr]. Qed.
Lemma F_molarity : fam_is molarity (fdim (molarity one_rr)) [-(3);0;0;0;0;1]%Q.
Proof. refine (@fam_div _ _ _ _ _ _ _ _ F_amount_of_substance (fam_const F_volume) _ _); [vmr|vmr]. Qed.
Lemma F_molality : fam_is molality (fdim (molality one_rr)) [0;0;-(1);0;0;1]%Q.
Proof. refine (@fam_div _ _ _ _ _ _ _ _ F_amount_of_substance (fam_const F_mass) _ _); [vmr|vmr]. Qed.
Lemma F_catalytic_activity : fam_is catalytic_activity (fdim (catalytic_activity one_rr)) e_catalytic.
Proof. refine (@fam_div _ _ _ _ _ _ _ _ F_amount_of_substance (fam_const F_time) _ _); [vmr|vmr]. Qed.
Lemma F_electric_potential : fam_is electric_potential (fdim (electric_potential one_rr)) e_volt.
Proof. refine (@fam_div _ _ _ _ _ _ _ _ F_power (fam_const F_electric_current) _ _); [vmr|vmr]. Qed.
Lemma F_electric_charge : fam_is electric_charge (fdim (electric_charge one_rr)) e_coulomb.
Proof. refine (@fam_mul _ _ _ _ _ _ _ _ F_electric_current (fam_const F_time) _ _); [vmr|vmr]. Qed.
Lemma F_electric_current_electric_current : fam_is (fun s => qmul (electric_current s) (electric_current one_rr)) (fdim (qmul (electric_current one_rr) (electric_current one_rr))) L_electric_current_electric_current.
Proof. refine (@fam_mul _ _ _ _ _ _ _ _ F_electric_current (fam_const F_electric_current) _ _); [vmr|vmr]. Qed.
Lemma F_electrical_resistance : fam_is electrical_resistance (fdim (electrical_resistance one_rr)) e_ohm.
Proof. refine (@fam_div _ _ _ _ _ _ _ _ F_power (fam_const F_electric_current_electric_current) _ _); [vmr|vmr]. Qed.
Lemma F_electrical_resistivity : fam_is electrical_resistivity (fdim (electrical_resistivity one_rr)) [3;-(3);1;-(2)]%Q.
Proof. refine (@fam_mul _ _ _ _ _ _ _ _ F_electrical_resistance (fam_const F_length) _ _); [vmr|vmr]. Qed.
Lemma F_capacitance : fam_is capacitance (fdim (capacitance one_rr)) e_farad.
Proof. refine (@fam_div _ _ _ _ _ _ _ _ F_time (fam_const F_electrical_resistance) _ _); [vmr|vmr]. Qed.
Lemma F_electric_potential_time : fam_is (fun s => qmul (electric_potential s) (time one_rr)) (fdim (qmul (electric_potential one_rr) (time one_rr))) L_electric_potential_time.
Proof. refine (@fam_mul _ _ _ _ _ _ _ _ F_electric_potential (fam_const F_time) _ _); [vmr|vmr]. Qed.
Lemma F_inductance : fam_is inductance (fdim (inductance one_rr)) e_henry.
Proof. refine (@fam_div _ _ _ _ _ _ _ _ F_electric_potential_time (fam_const F_electric_current) _ _); [vmr|vmr]. Qed.
Lemma F_electric_charge_speed : fam_is (fun s => qmul (electric_charge s) (speed one_rr)) (fdim (qmul (electric_charge one_rr) (speed one_rr))) L_electric_charge_speed.
Proof. refine (@fam_mul _ _ _ _ _ _ _ _ F_electric_charge (fam_const F_speed) _ _); [vmr|vmr]. Qed.
Lemma F_magnetic_flux_density : fam_is magnetic_flux_density (fdim (magnetic_flux_density one_rr)) e_tesla.
Proof. refine (@fam_div _ _ _ _ _ _ _ _ F_force (fam_const F_electric_charge_speed) _ _); [vmr|vmr]. Qed.
Lemma F_magnetic_flux : fam_is magnetic_flux (fdim (magnetic_flux one_rr)) e_weber.
Proof. refine (@fam_mul _ _ _ _ _ _ _ _ F_magnetic_flux_density (fam_const F_area) _ _); [vmr|vmr]. Qed.
Lemma F_current_noise_density : fam_is current_noise_density (fdim (current_noise_density one_rr)) e_amp_noise.
Proof. refine (@fam_div _ _ _ _ _ _ _ _ F_electric_current C_rthz _ _); [vmr|vmr]. Qed.
Lemma F_voltage_noise_density : fam_is voltage_noise_density (fdim (voltage_noise_density one_rr)) e_volt_noise.
Proof. refine (@fam_div _ _ _ _ _ _ _ _ F_electric_potential C_rthz _ _); [vmr|vmr]. Qed.
Lemma F_luminous_flux : fam_is luminous_flux (fdim (luminous_flux one_rr)) e_lumen.
Proof. refine (@fam_mul _ _ _ _ _ _ _ _ F_luminous_intensity (fam_const F_solid_angle) _ _); [vmr|vmr]. Qed.
Lemma F_luminous_energy : fam_is luminous_energy (fdim (luminous_energy one_rr)) [0;1;0;0;0;0;1;0;1]%Q.
Proof. refine (@fam_mul _ _ _ _ _ _ _ _ F_luminous_flux (fam_const F_time) _ _); [vmr|vmr]. Qed.
Lemma F_luminance : fam_is luminance (fdim (luminance one_rr)) [-(2);0;0;0;0;0;1]%Q.
Proof. refine (@fam_div _ _ _ _ _ _ _ _ F_luminous_intensity (fam_const F_area) _ _); [vmr|vmr]. Qed.
Lemma F_illuminance : fam_is illuminance (fdim (illuminance one_rr)) e_lux.
Proof. refine (@fam_div _ _ _ _ _ _ _ _ F_luminous_flux (fam_const F_area) _ _); [vmr|vmr]. Qed.
Lemma F_luminous_exposure : fam_is luminous_exposure (fdim (luminous_exposure one_rr)) [-(2);1;0;0;0;0;1;0;1]%Q.
Proof. refine (@fam_mul _ _ _ _ _ _ _ _ F_illuminance (fam_const F_time) _ _); [vmr|vmr]. Qed.
Lemma F_luminous_energy_density : fam_is luminous_energy_density (fdim (luminous_energy_density one_rr)) [-(3);1;0;0;0;0;1;0;1]%Q.
Proof. refine (@fam_div _ _ _ _ _ _ _ _ F_luminous_energy (fam_const F_volume) _ _); [vmr|vmr]. Qed.
Lemma F_luminous_efficacy : fam_is luminous_efficacy (fdim (luminous_efficacy one_rr)) [-(2);3;-(1);0;0;0;1;0;1]%Q.
Proof. refine (@fam_div _ _ _ _ _ _ _ _ F_luminous_flux (fam_const F_power) _ _); [vmr|vmr]. Qed.
Lemma F_heat : fam_is heat (fdim (heat one_rr)) e_energy.
Proof. exact F_energy. Qed.
Lemma F_heat_transfer_rate : fam_is heat_transfer_rate (fdim (heat_transfer_rate one_rr)) e_power.
Proof. exact F_power. Qed.
Lemma F_heat_flux : fam_is heat_flux (fdim (heat_flux one_rr)) [0;-(3);1]%Q.
Proof. refine (@fam_div _ _ _ _ _ _ _ _ F_heat_transfer_rate (fam_const F_area) _ _); [vmr|vmr]. Qed.
Lemma F_heat_capacity : fam_is heat_capacity (fdim (heat_capacity one_rr)) [2;-(2);1;0;-(1)]%Q.
Proof. refine (@fam_div _ _ _ _ _ _ _ _ F_heat (fam_const F_temperature) _ _); [vmr|vmr]. Qed.
Lemma F_thermal_resistance : fam_is thermal_resistance (fdim (thermal_resistance one_rr)) [-(2);3;-(1);0;1]%Q.
Proof. refine (@fam_div _ _ _ _ _ _ _ _ F_temperature (fam_const F_heat_transfer_rate) _ _); [vmr|vmr]. Qed.
Lemma F_thermal_resistivity : fam_is thermal_resistivity (fdim (thermal_resistivity one_rr)) [-(1);3;-(1);0;1]%Q.
Proof. refine (@fam_mul _ _ _ _ _ _ _ _ F_thermal_resistance (fam_const F_length) _ _); [vmr|vmr]. Qed.
Lemma F_thermal_insulance : fam_is thermal_insulance (fdim (thermal_insulance one_rr)) [0;3;-(1);0;1]%Q.
Proof. refine (@fam_mul _ _ _ _ _ _ _ _ F_thermal_resistance (fam_const F_area) _ _); [vmr|vmr]. Qed.

(** ** The table of families *)
Definition families : list (string * (rr -> option uty) * list Q) :=
  [("temperature", (fun s => temperature s zero_ratio), e_temperature);
   ("dimensionless", dimensionless, []);
   ("length", length, e_length);
   ("time", time, e_time);
   ("mass", mass, e_mass);
   ("electric_current", electric_current, e_current);
   ("amount_of_substance", amount_of_substance, e_amount);
   ("luminous_intensity", luminous_intensity, e_luminous);
   ("planar_angle", planar_angle, e_angle);
   ("solid_angle", solid_angle, e_solid);
   ("data_quantity", data_quantity, e_data);
   ("speed", speed, e_speed);
   ("acceleration", acceleration, e_accel);
   ("angular_velocity", angular_velocity, [0;-(1);0;0;0;0;0;1]);
   ("momentum", momentum, [1;-(1);1]);
   ("area", area, e_area);
   ("volume", volume, e_volume);
   ("force", force, e_force);
   ("power", power, e_power);
   ("energy", energy, e_energy);
   ("work", work, e_energy);
   ("pressure", pressure, e_pressure);
   ("frequency", frequency, e_frequency);
   ("data_rate", data_rate, e_bitrate);
   ("chemical_potential", chemical_potential, [2;-(2);1;0;0;-(1)]);
   ("molarity", molarity, [-(3);0;0;0;0;1]);
   ("molality", molality, [0;0;-(1);0;0;1]);
   ("catalytic_activity", catalytic_activity, e_catalytic);
   ("electric_potential", electric_potential, e_volt);
   ("electric_charge", electric_charge, e_coulomb);
   ("electrical_resistance", electrical_resistance, e_ohm);
   ("electrical_resistivity", electrical_resistivity, [3;-(3);1;-(2)]);
   ("capacitance", capacitance, e_farad);
   ("inductance", inductance, e_henry);
   ("magnetic_flux_density", magnetic_flux_density, e_tesla);
   ("magnetic_flux", magnetic_flux, e_weber);
   ("current_noise_density", current_noise_density, e_amp_noise);
   ("voltage_noise_density", voltage_noise_density, e_volt_noise);
   ("luminous_flux", luminous_flux, e_lumen);
   ("luminous_energy", luminous_energy, [0;1;0;0;0;0;1;0;1]);
   ("luminance", luminance, [-(2);0;0;0;0;0;1]);
   ("illuminance", illuminance, e_lux);
   ("luminous_exposure", luminous_exposure, [-(2);1;0;0;0;0;1;0;1]);
   ("luminous_energy_density", luminous_energy_density, [-(3);1;0;0;0;0;1;0;1]);
   ("luminous_efficacy", luminous_efficacy, [-(2);3;-(1);0;0;0;1;0;1]);
   ("heat", heat, e_energy);
   ("heat_transfer_rate", heat_transfer_rate, e_power);
   ("heat_flux", heat_flux, [0;-(3);1]);
   ("heat_capacity", heat_capacity, [2;-(2);1;0;-(1)]);
   ("thermal_resistance", thermal_resistance, [-(2);3;-(1);0;1]);
   ("thermal_resistivity", thermal_resistivity, [-(1);3;-(1);0;1]);
   ("thermal_insulance", thermal_insulance, [0;3;-(1);0;1])]%Q.

Lemma families_ok : Forall (fun '(n, f, l) => fam_is f (fdim (f one_rr)) l) families.
Proof.
  unfold families.   apply Forall_cons; [exact F_temperature|].
  apply Forall_cons; [exact F_dimensionless|].
  apply Forall_cons; [exact F_length|].
  apply Forall_cons; [exact F_time|].
  apply Forall_cons; [exact F_mass|].
  apply Forall_cons; [exact F_electric_current|].
  apply Forall_cons; [exact F_amount_of_substance|].
  apply Forall_cons; [exact F_luminous_intensity|].
  apply Forall_cons; [exact F_planar_angle|].
  apply Forall_cons; [exact F_solid_angle|].
  apply Forall_cons; [exact F_data_quantity|].
  apply Forall_cons; [exact F_speed|].
  apply Forall_cons; [exact F_acceleration|].
  apply Forall_cons; [exact F_angular_velocity|].
  apply Forall_cons; [exact F_momentum|].
  apply Forall_cons; [exact F_area|].
  apply Forall_cons; [exact F_volume|].
  apply Forall_cons; [exact F_force|].
  apply Forall_cons; [exact F_power|].
  apply Forall_cons; [exact F_energy|].
  apply Forall_cons; [exact F_work|].
  apply Forall_cons; [exact F_pressure|].
  apply Forall_cons; [exact F_frequency|].
  apply Forall_cons; [exact F_data_rate|].
  apply Forall_cons; [exact F_chemical_potential|].
  apply Forall_cons; [exact F_molarity|].
  apply Forall_cons; [exact F_molality|].
  apply Forall_cons; [exact F_catalytic_activity|].
  apply Forall_cons; [exact F_electric_potential|].
  apply Forall_cons; [exact F_electric_charge|].
  apply Forall_cons; [exact F_electrical_resistance|].
  apply Forall_cons; [exact F_electrical_resistivity|].
  apply Forall_cons; [exact F_capacitance|].
  apply Forall_cons; [exact F_inductance|].
  apply Forall_cons; [exact F_magnetic_flux_density|].
  apply Forall_cons; [exact F_magnetic_flux|].
  apply Forall_cons; [exact F_current_noise_density|].
  apply Forall_cons; [exact F_voltage_noise_density|].
  apply Forall_cons; [exact F_luminous_flux|].
  apply Forall_cons; [exact F_luminous_energy|].
  apply Forall_cons; [exact F_luminance|].
  apply Forall_cons; [exact F_illuminance|].
  apply Forall_cons; [exact F_luminous_exposure|].
  apply Forall_cons; [exact F_luminous_energy_density|].
  apply Forall_cons; [exact F_luminous_efficacy|].
  apply Forall_cons; [exact F_heat|].
  apply Forall_cons; [exact F_heat_transfer_rate|].
  apply Forall_cons; [exact F_heat_flux|].
  apply Forall_cons; [exact F_heat_capacity|].
  apply Forall_cons; [exact F_thermal_resistance|].
  apply Forall_cons; [exact F_thermal_resistivity|].
  apply Forall_cons; [exact F_thermal_insulance|].
  apply Forall_nil.
Qed.

(** ** Checking the table of units *)
Definition rr_wfb (s : rr) : bool := ((0 <? rr_num s) && (0 <? rr_den s) && (0 <? rr_root s) && (Z.gcd (rr_num s) (rr_den s) =? 1))%Z.
Lemma rr_wfb_ok s : rr_wfb s = true -> rr_wf s.
Proof.
  unfold rr_wfb, rr_wf. rewrite !andb_true_iff, !Z.ltb_lt, Z.eqb_eq. intros [[[A B] C] D]. repeat split; lia.
Qed.

Definition same_list (l l' : list Q) : bool := expo_check (fun a _ => a) l l' l'.
Definition fam_dims : list (rr * list Q) := Eval vm_compute in map (fun x => (fdim (snd (fst x) one_rr), snd x)) families.
Lemma fam_dims_ok : fam_dims = map (fun x => (fdim (snd (fst x) one_rr), snd x)) families.
Proof. vm_compute. reflexivity. Qed.
Definition dim_known (D : rr) (l : list Q) : bool := existsb (fun x => if rr_eqb D (fst x) then same_list l (snd x) else false) fam_dims.
Definition dim_temperature : rr := fdim (temperature one_rr zero_ratio).
Definition dim_conductivity : rr := Eval vm_compute in fdim (electrical_conductivity one_rr).
Lemma C_conductivity : const_is (electrical_conductivity one_rr) dim_conductivity e_siemens.
Proof.
  assert (Q1 : rr_divide ufuel one_rr (fdim (electrical_resistance one_rr)) = Some dim_conductivity) by vmr.
  assert (Q2 : expo_check (fun a _ => - a)%Q e_siemens e_ohm e_ohm = true) by vmr.
  destruct (F_electrical_resistance one_rr_wf eq_refl) as [Ef [e [De Se]]].
  assert (E : electrical_conductivity one_rr = Some (uz dim_conductivity one_rr)) by vmr.
  split; [exact E|]. exists (fun i => - e i)%Q. split.
  - eapply do_inv; [exact De|]. vmr.
  - intros i Hi. rewrite (Se i Hi). symmetry. apply (@expo_check_ok _ _ _ _ Q2 i Hi).
Qed.
Definition unit_matches (r : unit_ref) (u : uty) : bool :=
  rr_wfb (u_scale u) && (rr_root (u_scale u) =? 1)%Z && (0 <? r_den (u_off u))%Z &&
  Qeq_bool (inject_Z (rr_num (u_scale u)) / inject_Z (rr_den (u_scale u))) (ref_factor r) &&
  Qeq_bool (inject_Z (r_num (u_off u)) / inject_Z (r_den (u_off u))) (ref_offset r) &&
  ((ratio_eqb (u_off u) zero_ratio && dim_known (u_dim u) (ref_expo r)) ||
   (rr_eqb (u_dim u) dim_temperature && same_list (ref_expo r) e_temperature) ||
   (ratio_eqb (u_off u) zero_ratio && rr_eqb (u_scale u) one_rr && rr_eqb (u_dim u) dim_conductivity && same_list (ref_expo r) e_siemens)).
Definition entry_matches (x : string * option uty) : bool :=
  match find (fun r => String.eqb (ref_name r) (fst x)) units_ref, snd x with Some r, Some u => unit_matches r u | _, _ => false end.

Lemma dim_known_ok D l s : dim_known D l = true -> rr_wf s -> rr_root s = 1%Z -> has_dimension (uz D s) l.
Proof.
  unfold dim_known. rewrite existsb_exists, fam_dims_ok. intros [[D' l'] [I H]] W R. cbn [fst snd] in H.
  destruct (rr_eqb D D') eqn:E; [|discriminate]. rename H into S. apply rr_eqb_eq in E.
  apply in_map_iff in I. destruct I as [[[n f] l2] [X I]]. cbn [fst snd] in X. injection X as X1 X2. subst D' l'. pose proof families_ok as F. rewrite Forall_forall in F. specialize (F _ I). cbn in F.
  destruct (F s W R) as [_ [e [De Se]]]. rewrite E. exists ufuel, e. split; [exact De|].
  intros i Hi. rewrite (Se i Hi). symmetry. apply (@expo_check_ok _ _ _ _ S i Hi).
Qed.

Lemma Q2R_div_Z a b : (0 < b)%Z -> Q2R (inject_Z a / inject_Z b) = (IZR a / IZR b)%R.
Proof.
  intros H. rewrite Q2R_div.
  - unfold Q2R, inject_Z. cbn. field. apply not_0_IZR. lia.
  - unfold Qeq, inject_Z. cbn. lia.
Qed.

Lemma unit_matches_ok r u : unit_matches r u = true -> has_dimension u (ref_expo r) /\
  forall v, physical u v = (Q2R (ref_factor r) * v + Q2R (ref_offset r))%R.
Proof.
  unfold unit_matches. rewrite !andb_true_iff. intros [[[[[W R] O] F] G] H]. apply rr_wfb_ok in W. apply Z.eqb_eq in R.
  apply Z.ltb_lt in O. apply Qeq_bool_iff in F, G. split.
  - rewrite !orb_true_iff, !andb_true_iff in H. destruct H as [[[Z0 D]|[D S]]|[[[Z0 Z1] D] S]].
    + apply ratio_eqb_eq in Z0. replace u with (uz (u_dim u) (u_scale u)).
      * apply dim_known_ok; assumption.
      * clear - Z0. destruct u as [d s o]. unfold uz. cbn in *. congruence.
    + apply rr_eqb_eq in D. exists ufuel, (unit_vec 5). split.
      * apply (@do_base ufuel true 5 (u_scale u) (u_off u)); auto; [lia|].
        destruct u as [d s o]. cbn [u_dim u_scale u_off] in *. rewrite D. reflexivity.
      * intros i Hi. transitivity (listed e_temperature i).
        -- do 11 (destruct i as [|i]; [reflexivity|]). lia.
        -- symmetry. apply (@expo_check_ok _ _ _ _ S i Hi).
    + apply ratio_eqb_eq in Z0. apply rr_eqb_eq in Z1. apply rr_eqb_eq in D. destruct C_conductivity as [_ [e [De Se]]].
      replace u with (uz dim_conductivity one_rr) by (destruct u as [d s o]; cbn in *; unfold uz; congruence).
      exists ufuel, e. split; [exact De|]. intros i Hi. rewrite (Se i Hi). symmetry. apply (@expo_check_ok _ _ _ _ S i Hi).
  - intros v. change (physical u v) with (rr_val (u_scale u) * v + IZR (r_num (u_off u)) / IZR (r_den (u_off u)))%R.
    rewrite (rr_val_root1 W R). destruct W as [_ [W _]].
    rewrite <- Q2R_div_Z by exact W. rewrite <- Q2R_div_Z by exact O.
    rewrite (Qeq_eqR _ _ F), (Qeq_eqR _ _ G). reflexivity.
Qed.

Lemma entry_matches_ok n t : entry_matches (n, t) = true ->
  exists r u, In r units_ref /\ ref_name r = n /\ t = Some u /\ has_dimension u (ref_expo r) /\
  forall v, physical u v = (Q2R (ref_factor r) * v + Q2R (ref_offset r))%R.
Proof.
  unfold entry_matches. cbn [fst snd]. destruct (find _ units_ref) as [r|] eqn:F; [|discriminate]. apply find_some in F. destruct F as [I E].
  apply String.eqb_eq in E. destruct t as [u|]; [|discriminate]. intros M. destruct (unit_matches_ok _ _ M). eauto 8.
Qed.
