(** Generated by tools/units.py from scicpp/core/units/{units,chemical,electromagnetism,photometry,thermal}.hpp: the quantity
    families (alias templates with a Scale parameter), the named units and the literals.  Each entry cites its source. *)
From Verif Require Import Base Arith Quantity.
From Coq Require Import ZArith List String.
Import ListNotations.
Open Scope string_scope.
Open Scope Z_scope.

(** Bound on the steps of the compile-time searches (enough for every definition below). *)
Definition ufuel : nat := 200%nat.

Definition bind2 (f : uty -> uty -> option uty) (a b : option uty) : option uty :=
  match a, b with Some x, Some y => f x y | _, _ => None end.
(** quantity.hpp:475-487  quantity_multiply, quantity_divide, quantity_invert, quantity_root *)
Definition qmul := bind2 (ty_mul ufuel).
Definition qdiv := bind2 (ty_div ufuel).
Definition qinv (a : option uty) : option uty := match a with Some x => ty_inv ufuel x | None => None end.
Definition qroot (k : Z) (a : option uty) : option uty := match a with Some x => ty_root ufuel k x | None => None end.

(** quantity.hpp:56-57  scale<std::ratio<n, d>> *)
Definition scale (r : ratio) : rr := mk_rr (r_num r) (r_den r) 1.

(** <ratio>: std::ratio_multiply, std::ratio_divide and the SI prefixes *)
Definition std_ratio_multiply (x y : ratio) : ratio := mk_ratio (r_num x * r_num y) (r_den x * r_den y).
Definition std_ratio_divide (x y : ratio) : ratio := mk_ratio (r_num x * r_den y) (r_den x * r_num y).
Definition std_atto := mk_ratio 1 1000000000000000000.
Definition std_femto := mk_ratio 1 1000000000000000.
Definition std_pico := mk_ratio 1 1000000000000.
Definition std_nano := mk_ratio 1 1000000000.
Definition std_micro := mk_ratio 1 1000000.
Definition std_milli := mk_ratio 1 1000.
Definition std_centi := mk_ratio 1 100.
Definition std_deci := mk_ratio 1 10.
Definition std_deca := mk_ratio 10 1.
Definition std_hecto := mk_ratio 100 1.
Definition std_kilo := mk_ratio 1000 1.
Definition std_mega := mk_ratio 1000000 1.
Definition std_giga := mk_ratio 1000000000 1.
Definition std_tera := mk_ratio 1000000000000 1.
Definition std_peta := mk_ratio 1000000000000000 1.
Definition std_exa := mk_ratio 1000000000000000000 1.

(** units.hpp:200-234  SCICPP_CORE_UNITS_DEFINE_PREFIXES_ALIAS(quantity, base_unit) *)
Definition prefixes_alias (quantity : rr -> option uty) (base_unit : string) : list (string * option uty) :=
  [("atto" ++ base_unit, quantity (scale std_atto));
   ("femto" ++ base_unit, quantity (scale std_femto));
   ("pico" ++ base_unit, quantity (scale std_pico));
   ("nano" ++ base_unit, quantity (scale std_nano));
   ("micro" ++ base_unit, quantity (scale std_micro));
   ("milli" ++ base_unit, quantity (scale std_milli));
   ("centi" ++ base_unit, quantity (scale std_centi));
   ("deci" ++ base_unit, quantity (scale std_deci));
   (base_unit, quantity one_rr);
   ("deca" ++ base_unit, quantity (scale std_deca));
   ("hecto" ++ base_unit, quantity (scale std_hecto));
   ("kilo" ++ base_unit, quantity (scale std_kilo));
   ("mega" ++ base_unit, quantity (scale std_mega));
   ("giga" ++ base_unit, quantity (scale std_giga));
   ("tera" ++ base_unit, quantity (scale std_tera));
   ("peta" ++ base_unit, quantity (scale std_peta));
   ("exa" ++ base_unit, quantity (scale std_exa))].

(** * Families *)

(** units.hpp:25 *)
Definition dimensionless (s : rr) : option uty := base_quantity ufuel 11 0 s zero_ratio.
(** units.hpp:28 *)
Definition length (s : rr) : option uty := base_quantity ufuel 11 1 s zero_ratio.
(** units.hpp:31 *)
Definition time (s : rr) : option uty := base_quantity ufuel 11 2 s zero_ratio.
(** units.hpp:34 *)
Definition mass (s : rr) : option uty := base_quantity ufuel 11 3 s zero_ratio.
(** units.hpp:37 *)
Definition electric_current (s : rr) : option uty := base_quantity ufuel 11 4 s zero_ratio.
(** units.hpp:42 *)
Definition temperature (s : rr) (o : ratio) : option uty := base_quantity ufuel 11 5 s o.
(** units.hpp:45 *)
Definition amount_of_substance (s : rr) : option uty := base_quantity ufuel 11 6 s zero_ratio.
(** units.hpp:48 *)
Definition luminous_intensity (s : rr) : option uty := base_quantity ufuel 11 7 s zero_ratio.
(** units.hpp:51 *)
Definition planar_angle (s : rr) : option uty := base_quantity ufuel 11 8 s zero_ratio.
(** units.hpp:54 *)
Definition solid_angle (s : rr) : option uty := base_quantity ufuel 11 9 s zero_ratio.
(** units.hpp:57 *)
Definition data_quantity (s : rr) : option uty := base_quantity ufuel 11 10 s zero_ratio.
(** units.hpp:63 *)
Definition speed (s : rr) : option uty := qdiv (length s) (time one_rr).
(** units.hpp:67 *)
Definition acceleration (s : rr) : option uty := qdiv (speed s) (time one_rr).
(** units.hpp:71 *)
Definition angular_velocity (s : rr) : option uty := qdiv (planar_angle s) (time one_rr).
(** units.hpp:75 *)
Definition momentum (s : rr) : option uty := qmul (mass s) (speed one_rr).
(** units.hpp:79 *)
Definition area (s : rr) : option uty := qmul (length s) (length one_rr).
(** units.hpp:83 *)
Definition volume (s : rr) : option uty := qmul (area s) (length one_rr).
(** units.hpp:87 *)
Definition force (s : rr) : option uty := qmul (mass s) (acceleration one_rr).
(** units.hpp:91 *)
Definition power (s : rr) : option uty := qmul (force s) (speed one_rr).
(** units.hpp:95 *)
Definition energy (s : rr) : option uty := qmul (power s) (time one_rr).
(** units.hpp:98 *)
Definition work (s : rr) : option uty := energy s.
(** units.hpp:102 *)
Definition pressure (s : rr) : option uty := qdiv (force s) (area one_rr).
(** units.hpp:106 *)
Definition frequency (s : rr) : option uty := qdiv (dimensionless s) (time one_rr).
(** units.hpp:110 *)
Definition data_rate (s : rr) : option uty := qdiv (data_quantity s) (time one_rr).
(** chemical.hpp:6-7 *)
Definition chemical_potential (s : rr) : option uty := qdiv (energy s) (amount_of_substance one_rr).
(** chemical.hpp:13 *)
Definition molarity (s : rr) : option uty := qdiv (amount_of_substance s) (volume one_rr).
(** chemical.hpp:19 *)
Definition molality (s : rr) : option uty := qdiv (amount_of_substance s) (mass one_rr).
(** chemical.hpp:25-26 *)
Definition catalytic_activity (s : rr) : option uty := qdiv (amount_of_substance s) (time one_rr).
(** electromagnetism.hpp:6-7 *)
Definition electric_potential (s : rr) : option uty := qdiv (power s) (electric_current one_rr).
(** electromagnetism.hpp:13 *)
Definition electric_charge (s : rr) : option uty := qmul (electric_current s) (time one_rr).
(** electromagnetism.hpp:19-21 *)
Definition electrical_resistance (s : rr) : option uty := qdiv (power s) (qmul (electric_current one_rr) (electric_current one_rr)).
(** electromagnetism.hpp:27-28 *)
Definition electrical_conductivity (s : rr) : option uty := qinv (electrical_resistance s).
(** electromagnetism.hpp:34-35 *)
Definition electrical_resistivity (s : rr) : option uty := qmul (electrical_resistance s) (length one_rr).
(** electromagnetism.hpp:41 *)
Definition capacitance (s : rr) : option uty := qdiv (time s) (electrical_resistance one_rr).
(** electromagnetism.hpp:47-49 *)
Definition inductance (s : rr) : option uty := qdiv (qmul (electric_potential s) (time one_rr)) (electric_current one_rr).
(** electromagnetism.hpp:55-57 *)
Definition magnetic_flux_density (s : rr) : option uty := qdiv (force s) (qmul (electric_charge one_rr) (speed one_rr)).
(** electromagnetism.hpp:63-64 *)
Definition magnetic_flux (s : rr) : option uty := qmul (magnetic_flux_density s) (area one_rr).
(** electromagnetism.hpp:69-70 *)
Definition current_noise_density (s : rr) : option uty := qdiv (electric_current s) (qroot 2 (frequency one_rr)).
(** electromagnetism.hpp:75-76 *)
Definition voltage_noise_density (s : rr) : option uty := qdiv (electric_potential s) (qroot 2 (frequency one_rr)).
(** photometry.hpp:8-9 *)
Definition luminous_flux (s : rr) : option uty := qmul (luminous_intensity s) (solid_angle one_rr).
(** photometry.hpp:15 *)
Definition luminous_energy (s : rr) : option uty := qmul (luminous_flux s) (time one_rr).
(** photometry.hpp:21 *)
Definition luminance (s : rr) : option uty := qdiv (luminous_intensity s) (area one_rr).
(** photometry.hpp:27 *)
Definition illuminance (s : rr) : option uty := qdiv (luminous_flux s) (area one_rr).
(** photometry.hpp:33 *)
Definition luminous_exposure (s : rr) : option uty := qmul (illuminance s) (time one_rr).
(** photometry.hpp:39-40 *)
Definition luminous_energy_density (s : rr) : option uty := qdiv (luminous_energy s) (volume one_rr).
(** photometry.hpp:46 *)
Definition luminous_efficacy (s : rr) : option uty := qdiv (luminous_flux s) (power one_rr).
(** thermal.hpp:5 *)
Definition heat (s : rr) : option uty := energy s.
(** thermal.hpp:10 *)
Definition heat_transfer_rate (s : rr) : option uty := power s.
(** thermal.hpp:15 *)
Definition heat_flux (s : rr) : option uty := qdiv (heat_transfer_rate s) (area one_rr).
(** thermal.hpp:20 *)
Definition heat_capacity (s : rr) : option uty := qdiv (heat s) (temperature one_rr zero_ratio).
(** thermal.hpp:26-27 *)
Definition thermal_resistance (s : rr) : option uty := qdiv (temperature s zero_ratio) (heat_transfer_rate one_rr).
(** thermal.hpp:33-34 *)
Definition thermal_resistivity (s : rr) : option uty := qmul (thermal_resistance s) (length one_rr).
(** thermal.hpp:40 *)
Definition thermal_conductivity (s : rr) : option uty := qinv (thermal_resistivity s).
(** thermal.hpp:46-47 *)
Definition thermal_insulance (s : rr) : option uty := qmul (thermal_resistance s) (area one_rr).

(** * Ratios *)

(** units.hpp:516-518 *)
Definition pi_ratio : ratio := (mk_ratio 21053343141 6701487259).
(** units.hpp:519 *)
Definition deg_to_rad_ratio : ratio := (std_ratio_divide pi_ratio (mk_ratio 180 1)).
(** units.hpp:520 *)
Definition turn_to_rad_ratio : ratio := (std_ratio_multiply (mk_ratio 2 1) pi_ratio).

(** * Named units and literals *)

Definition units_table : list (string * option uty) := List.concat [
  (* units.hpp:242 *) prefixes_alias length "meter";
  (* units.hpp:245 *) [("angstrom", length (scale (mk_ratio 1 10000000000)))];
  (* units.hpp:250 *) [("inch", length (scale (mk_ratio 254 10000)))];
  (* units.hpp:253 *) [("foot", length (scale (mk_ratio 3048 10000)))];
  (* units.hpp:256 *) [("yard", length (scale (mk_ratio 9144 10000)))];
  (* units.hpp:259 *) [("mile", length (scale (mk_ratio 25146000 15625)))];
  (* units.hpp:264 *) [("nautical_mile", length (scale (mk_ratio 1852 1)))];
  (* units.hpp:269 *) [("astronomical_unit", length (scale (mk_ratio 149597870700 1)))];
  (* units.hpp:272 *) [("light_year", length (scale (mk_ratio 9460730472580800 1)))];
  (* units.hpp:275 *) [("parsec", length (scale (mk_ratio 30856775814671900 1)))];
  (* units.hpp:279 *) [("_am", length (scale std_atto))];
  (* units.hpp:280 *) [("_fm", length (scale std_femto))];
  (* units.hpp:281 *) [("_pm", length (scale std_pico))];
  (* units.hpp:282 *) [("_nm", length (scale std_nano))];
  (* units.hpp:283 *) [("_um", length (scale std_micro))];
  (* units.hpp:284 *) [("_mm", length (scale std_milli))];
  (* units.hpp:285 *) [("_cm", length (scale std_centi))];
  (* units.hpp:286 *) [("_m", length (scale (mk_ratio 1 1)))];
  (* units.hpp:287 *) [("_km", length (scale std_kilo))];
  (* units.hpp:288 *) [("_Mm", length (scale std_mega))];
  (* units.hpp:289 *) [("_Gm", length (scale std_giga))];
  (* units.hpp:290 *) [("_Tm", length (scale std_tera))];
  (* units.hpp:291 *) [("_Pm", length (scale std_peta))];
  (* units.hpp:292 *) [("_Em", length (scale std_exa))];
  (* units.hpp:294 *) [("_angstrom", length (scale (mk_ratio 1 10000000000)))];
  (* units.hpp:295 *) [("_mi", length (scale (mk_ratio 25146000 15625)))];
  (* units.hpp:296 *) [("_in", length (scale (mk_ratio 254 10000)))];
  (* units.hpp:297 *) [("_ft", length (scale (mk_ratio 3048 10000)))];
  (* units.hpp:298 *) [("_yd", length (scale (mk_ratio 9144 10000)))];
  (* units.hpp:299 *) [("_nmi", length (scale (mk_ratio 1852 1)))];
  (* units.hpp:301 *) [("_au", length (scale (mk_ratio 149597870700 1)))];
  (* units.hpp:302 *) [("_ly", length (scale (mk_ratio 9460730472580800 1)))];
  (* units.hpp:303 *) [("_pc", length (scale (mk_ratio 30856775814671900 1)))];
  (* units.hpp:311 *) prefixes_alias time "second";
  (* units.hpp:314 *) [("minute", time (scale (mk_ratio 60 1)))];
  (* units.hpp:317 *) [("hour", time (scale (mk_ratio 3600 1)))];
  (* units.hpp:320 *) [("day", time (scale (mk_ratio 86400 1)))];
  (* units.hpp:323 *) [("week", time (scale (mk_ratio 604800 1)))];
  (* units.hpp:327 *) [("_as", time (scale std_atto))];
  (* units.hpp:328 *) [("_fs", time (scale std_femto))];
  (* units.hpp:329 *) [("_ps", time (scale std_pico))];
  (* units.hpp:330 *) [("_ns", time (scale std_nano))];
  (* units.hpp:331 *) [("_us", time (scale std_micro))];
  (* units.hpp:332 *) [("_ms", time (scale std_milli))];
  (* units.hpp:333 *) [("_s", time (scale (mk_ratio 1 1)))];
  (* units.hpp:334 *) [("_ks", time (scale std_kilo))];
  (* units.hpp:335 *) [("_Ms", time (scale std_mega))];
  (* units.hpp:336 *) [("_Gs", time (scale std_giga))];
  (* units.hpp:337 *) [("_Ts", time (scale std_tera))];
  (* units.hpp:338 *) [("_Ps", time (scale std_peta))];
  (* units.hpp:339 *) [("_Es", time (scale std_exa))];
  (* units.hpp:341 *) [("_min", time (scale (mk_ratio 60 1)))];
  (* units.hpp:342 *) [("_h", time (scale (mk_ratio 3600 1)))];
  (* units.hpp:343 *) [("_day", time (scale (mk_ratio 86400 1)))];
  (* units.hpp:344 *) [("_week", time (scale (mk_ratio 604800 1)))];
  (* units.hpp:353 *) [("femtogram", mass (scale std_atto))];
  (* units.hpp:356 *) [("picogram", mass (scale std_femto))];
  (* units.hpp:359 *) [("nanogram", mass (scale std_pico))];
  (* units.hpp:362 *) [("microgram", mass (scale std_nano))];
  (* units.hpp:365 *) [("milligram", mass (scale std_micro))];
  (* units.hpp:368 *) [("gram", mass (scale std_milli))];
  (* units.hpp:371 *) [("kilogram", mass one_rr)];
  (* units.hpp:374 *) [("tonne", mass (scale std_kilo))];
  (* units.hpp:377 *) [("kilotonne", mass (scale std_mega))];
  (* units.hpp:380 *) [("megatonne", mass (scale std_giga))];
  (* units.hpp:383 *) [("gigatonne", mass (scale std_tera))];
  (* units.hpp:386 *) [("teratonne", mass (scale std_exa))];
  (* units.hpp:390 *) [("_fg", mass (scale std_atto))];
  (* units.hpp:391 *) [("_pg", mass (scale std_femto))];
  (* units.hpp:392 *) [("_ng", mass (scale std_pico))];
  (* units.hpp:393 *) [("_ug", mass (scale std_nano))];
  (* units.hpp:394 *) [("_mg", mass (scale std_micro))];
  (* units.hpp:395 *) [("_g", mass (scale std_milli))];
  (* units.hpp:396 *) [("_kg", mass (scale (mk_ratio 1 1)))];
  (* units.hpp:397 *) [("_t", mass (scale std_kilo))];
  (* units.hpp:398 *) [("_kt", mass (scale std_mega))];
  (* units.hpp:399 *) [("_Mt", mass (scale std_giga))];
  (* units.hpp:400 *) [("_Gt", mass (scale std_tera))];
  (* units.hpp:401 *) [("_Tt", mass (scale std_exa))];
  (* units.hpp:409 *) prefixes_alias electric_current "ampere";
  (* units.hpp:413 *) [("_aA", electric_current (scale std_atto))];
  (* units.hpp:414 *) [("_fA", electric_current (scale std_femto))];
  (* units.hpp:415 *) [("_pA", electric_current (scale std_pico))];
  (* units.hpp:416 *) [("_nA", electric_current (scale std_nano))];
  (* units.hpp:417 *) [("_uA", electric_current (scale std_micro))];
  (* units.hpp:418 *) [("_mA", electric_current (scale std_milli))];
  (* units.hpp:419 *) [("_A", electric_current (scale (mk_ratio 1 1)))];
  (* units.hpp:420 *) [("_kA", electric_current (scale std_kilo))];
  (* units.hpp:421 *) [("_MA", electric_current (scale std_mega))];
  (* units.hpp:422 *) [("_GA", electric_current (scale std_giga))];
  (* units.hpp:423 *) [("_TA", electric_current (scale std_tera))];
  (* units.hpp:424 *) [("_PA", electric_current (scale std_peta))];
  (* units.hpp:425 *) [("_EA", electric_current (scale std_exa))];
  (* units.hpp:433 *) prefixes_alias (fun s => temperature s zero_ratio) "kelvin";
  (* units.hpp:436 *) [("celsius", temperature (scale (mk_ratio 1 1)) (mk_ratio 27315 100))];
  (* units.hpp:439-440 *) [("fahrhenheit", temperature (scale (mk_ratio 5 9)) (mk_ratio 45967 180))];
  (* units.hpp:444 *) [("_aK", temperature (scale std_atto) zero_ratio)];
  (* units.hpp:445 *) [("_fK", temperature (scale std_femto) zero_ratio)];
  (* units.hpp:446 *) [("_pK", temperature (scale std_pico) zero_ratio)];
  (* units.hpp:447 *) [("_nK", temperature (scale std_nano) zero_ratio)];
  (* units.hpp:448 *) [("_uK", temperature (scale std_micro) zero_ratio)];
  (* units.hpp:449 *) [("_mK", temperature (scale std_milli) zero_ratio)];
  (* units.hpp:450 *) [("_K", temperature (scale (mk_ratio 1 1)) zero_ratio)];
  (* units.hpp:451 *) [("_kK", temperature (scale std_kilo) zero_ratio)];
  (* units.hpp:452 *) [("_MK", temperature (scale std_mega) zero_ratio)];
  (* units.hpp:453 *) [("_GK", temperature (scale std_giga) zero_ratio)];
  (* units.hpp:454 *) [("_TK", temperature (scale std_tera) zero_ratio)];
  (* units.hpp:455 *) [("_PK", temperature (scale std_peta) zero_ratio)];
  (* units.hpp:456 *) [("_EK", temperature (scale std_exa) zero_ratio)];
  (* units.hpp:458 *) [("_degC", temperature (scale (mk_ratio 1 1)) (mk_ratio 27315 100))];
  (* units.hpp:459 *) [("_degF", temperature (scale (mk_ratio 5 9)) (mk_ratio 45967 180))];
  (* units.hpp:467 *) prefixes_alias amount_of_substance "mole";
  (* units.hpp:471 *) [("_amol", amount_of_substance (scale std_atto))];
  (* units.hpp:472 *) [("_fmol", amount_of_substance (scale std_femto))];
  (* units.hpp:473 *) [("_pmol", amount_of_substance (scale std_pico))];
  (* units.hpp:474 *) [("_nmol", amount_of_substance (scale std_nano))];
  (* units.hpp:475 *) [("_umol", amount_of_substance (scale std_micro))];
  (* units.hpp:476 *) [("_mmol", amount_of_substance (scale std_milli))];
  (* units.hpp:477 *) [("_mol", amount_of_substance (scale (mk_ratio 1 1)))];
  (* units.hpp:478 *) [("_kmol", amount_of_substance (scale std_kilo))];
  (* units.hpp:479 *) [("_Mmol", amount_of_substance (scale std_mega))];
  (* units.hpp:480 *) [("_Gmol", amount_of_substance (scale std_giga))];
  (* units.hpp:481 *) [("_Tmol", amount_of_substance (scale std_tera))];
  (* units.hpp:482 *) [("_Pmol", amount_of_substance (scale std_peta))];
  (* units.hpp:483 *) [("_Emol", amount_of_substance (scale std_exa))];
  (* units.hpp:491 *) prefixes_alias luminous_intensity "candela";
  (* units.hpp:495 *) [("_aCd", luminous_intensity (scale std_atto))];
  (* units.hpp:496 *) [("_fCd", luminous_intensity (scale std_femto))];
  (* units.hpp:497 *) [("_pCd", luminous_intensity (scale std_pico))];
  (* units.hpp:498 *) [("_nCd", luminous_intensity (scale std_nano))];
  (* units.hpp:499 *) [("_uCd", luminous_intensity (scale std_micro))];
  (* units.hpp:500 *) [("_mCd", luminous_intensity (scale std_milli))];
  (* units.hpp:501 *) [("_Cd", luminous_intensity (scale (mk_ratio 1 1)))];
  (* units.hpp:502 *) [("_kCd", luminous_intensity (scale std_kilo))];
  (* units.hpp:503 *) [("_MCd", luminous_intensity (scale std_mega))];
  (* units.hpp:504 *) [("_GCd", luminous_intensity (scale std_giga))];
  (* units.hpp:505 *) [("_TCd", luminous_intensity (scale std_tera))];
  (* units.hpp:506 *) [("_PCd", luminous_intensity (scale std_peta))];
  (* units.hpp:507 *) [("_ECd", luminous_intensity (scale std_exa))];
  (* units.hpp:515 *) prefixes_alias planar_angle "radian";
  (* units.hpp:523 *) [("degree", planar_angle (scale deg_to_rad_ratio))];
  (* units.hpp:526 *) [("turn", planar_angle (scale turn_to_rad_ratio))];
  (* units.hpp:530 *) [("_arad", planar_angle (scale std_atto))];
  (* units.hpp:531 *) [("_frad", planar_angle (scale std_femto))];
  (* units.hpp:532 *) [("_prad", planar_angle (scale std_pico))];
  (* units.hpp:533 *) [("_nrad", planar_angle (scale std_nano))];
  (* units.hpp:534 *) [("_urad", planar_angle (scale std_micro))];
  (* units.hpp:535 *) [("_mrad", planar_angle (scale std_milli))];
  (* units.hpp:536 *) [("_rad", planar_angle (scale (mk_ratio 1 1)))];
  (* units.hpp:537 *) [("_krad", planar_angle (scale std_kilo))];
  (* units.hpp:538 *) [("_Mrad", planar_angle (scale std_mega))];
  (* units.hpp:539 *) [("_Grad", planar_angle (scale std_giga))];
  (* units.hpp:540 *) [("_Trad", planar_angle (scale std_tera))];
  (* units.hpp:541 *) [("_Prad", planar_angle (scale std_peta))];
  (* units.hpp:542 *) [("_Erad", planar_angle (scale std_exa))];
  (* units.hpp:544-547 *) [("_deg", planar_angle (scale (mk_ratio (r_num deg_to_rad_ratio) (r_den deg_to_rad_ratio))))];
  (* units.hpp:549-552 *) [("_turn", planar_angle (scale (mk_ratio (r_num turn_to_rad_ratio) (r_den turn_to_rad_ratio))))];
  (* units.hpp:560 *) prefixes_alias solid_angle "steradian";
  (* units.hpp:564 *) [("_asr", solid_angle (scale std_atto))];
  (* units.hpp:565 *) [("_fsr", solid_angle (scale std_femto))];
  (* units.hpp:566 *) [("_psr", solid_angle (scale std_pico))];
  (* units.hpp:567 *) [("_nsr", solid_angle (scale std_nano))];
  (* units.hpp:568 *) [("_usr", solid_angle (scale std_micro))];
  (* units.hpp:569 *) [("_msr", solid_angle (scale std_milli))];
  (* units.hpp:570 *) [("_sr", solid_angle (scale (mk_ratio 1 1)))];
  (* units.hpp:571 *) [("_ksr", solid_angle (scale std_kilo))];
  (* units.hpp:572 *) [("_Msr", solid_angle (scale std_mega))];
  (* units.hpp:573 *) [("_Gsr", solid_angle (scale std_giga))];
  (* units.hpp:574 *) [("_Tsr", solid_angle (scale std_tera))];
  (* units.hpp:575 *) [("_Psr", solid_angle (scale std_peta))];
  (* units.hpp:576 *) [("_Esr", solid_angle (scale std_exa))];
  (* units.hpp:585 *) [("bit", data_quantity (scale (mk_ratio 1 1)))];
  (* units.hpp:588 *) [("shannon", data_quantity (scale (mk_ratio 1 1)))];
  (* units.hpp:591 *) [("nibble", data_quantity (scale (mk_ratio 4 1)))];
  (* units.hpp:594 *) [("byte", data_quantity (scale (mk_ratio 8 1)))];
  (* units.hpp:597 *) [("kibibyte", data_quantity (scale (mk_ratio (8 * 1024) 1)))];
  (* units.hpp:600 *) [("mebibyte", data_quantity (scale (mk_ratio (8 * 1048576) 1)))];
  (* units.hpp:603 *) [("gibibyte", data_quantity (scale (mk_ratio (8 * 1073741824) 1)))];
  (* units.hpp:606 *) [("tebibyte", data_quantity (scale (mk_ratio (8 * 1099511627776) 1)))];
  (* units.hpp:609 *) [("pebibyte", data_quantity (scale (mk_ratio (8 * 1125899906842624) 1)))];
  (* units.hpp:613 *) [("_Sh", data_quantity (scale (mk_ratio 1 1)))];
  (* units.hpp:614 *) [("_b", data_quantity (scale (mk_ratio 1 1)))];
  (* units.hpp:615 *) [("_B", data_quantity (scale (mk_ratio 8 1)))];
  (* units.hpp:616 *) [("_kiB", data_quantity (scale (mk_ratio (8 * 1024) 1)))];
  (* units.hpp:617 *) [("_MiB", data_quantity (scale (mk_ratio (8 * 1048576) 1)))];
  (* units.hpp:618 *) [("_GiB", data_quantity (scale (mk_ratio (8 * 1073741824) 1)))];
  (* units.hpp:619-622 *) [("_TiB", data_quantity (scale (mk_ratio (8 * 1099511627776) 1)))];
  (* units.hpp:623-626 *) [("_PiB", data_quantity (scale (mk_ratio (8 * 1125899906842624) 1)))];
  (* units.hpp:634 *) prefixes_alias speed "meter_per_second";
  (* units.hpp:637 *) [("kilometer_per_hour", speed (scale (mk_ratio 3600 1000)))];
  (* units.hpp:640 *) [("knot", speed (scale (mk_ratio 66672 10000)))];
  (* units.hpp:643 *) [("mile_per_hour", speed (scale (mk_ratio 44704 100000)))];
  (* units.hpp:647 *) [("_am_per_s", speed (scale std_atto))];
  (* units.hpp:648 *) [("_fm_per_s", speed (scale std_femto))];
  (* units.hpp:649 *) [("_pm_per_s", speed (scale std_pico))];
  (* units.hpp:650 *) [("_nm_per_s", speed (scale std_nano))];
  (* units.hpp:651 *) [("_um_per_s", speed (scale std_micro))];
  (* units.hpp:652 *) [("_mm_per_s", speed (scale std_milli))];
  (* units.hpp:653 *) [("_m_per_s", speed (scale (mk_ratio 1 1)))];
  (* units.hpp:654 *) [("_km_per_s", speed (scale std_kilo))];
  (* units.hpp:655 *) [("_Mm_per_s", speed (scale std_mega))];
  (* units.hpp:656 *) [("_Gm_per_s", speed (scale std_giga))];
  (* units.hpp:657 *) [("_Tm_per_s", speed (scale std_tera))];
  (* units.hpp:658 *) [("_Pm_per_s", speed (scale std_peta))];
  (* units.hpp:659 *) [("_Em_per_s", speed (scale std_exa))];
  (* units.hpp:661 *) [("_km_per_h", speed (scale (mk_ratio 3600 1000)))];
  (* units.hpp:662 *) [("_kn", speed (scale (mk_ratio 66672 10000)))];
  (* units.hpp:663 *) [("_mph", speed (scale (mk_ratio 44704 100000)))];
  (* units.hpp:671 *) prefixes_alias acceleration "meter_per_second_squared";
  (* units.hpp:674 *) [("galileo", acceleration (scale (mk_ratio 1 100)))];
  (* units.hpp:677 *) [("milligalileo", acceleration (scale (mk_ratio 1 100000)))];
  (* units.hpp:680 *) [("microgalileo", acceleration (scale (mk_ratio 1 100000000)))];
  (* units.hpp:683 *) [("nanogalileo", acceleration (scale (mk_ratio 1 100000000000)))];
  (* units.hpp:687 *) [("_am_per_s2", acceleration (scale std_atto))];
  (* units.hpp:688 *) [("_fm_per_s2", acceleration (scale std_femto))];
  (* units.hpp:689 *) [("_pm_per_s2", acceleration (scale std_pico))];
  (* units.hpp:690 *) [("_nm_per_s2", acceleration (scale std_nano))];
  (* units.hpp:691 *) [("_um_per_s2", acceleration (scale std_micro))];
  (* units.hpp:692 *) [("_mm_per_s2", acceleration (scale std_milli))];
  (* units.hpp:693 *) [("_m_per_s2", acceleration (scale (mk_ratio 1 1)))];
  (* units.hpp:694 *) [("_km_per_s2", acceleration (scale std_kilo))];
  (* units.hpp:695 *) [("_Mm_per_s2", acceleration (scale std_mega))];
  (* units.hpp:696 *) [("_Gm_per_s2", acceleration (scale std_giga))];
  (* units.hpp:697 *) [("_Tm_per_s2", acceleration (scale std_tera))];
  (* units.hpp:698 *) [("_Pm_per_s2", acceleration (scale std_peta))];
  (* units.hpp:699 *) [("_Em_per_s2", acceleration (scale std_exa))];
  (* units.hpp:701 *) [("_Gal", acceleration (scale (mk_ratio 1 100)))];
  (* units.hpp:702 *) [("_mGal", acceleration (scale (mk_ratio 1 100000)))];
  (* units.hpp:703 *) [("_uGal", acceleration (scale (mk_ratio 1 100000000)))];
  (* units.hpp:704 *) [("_nGal", acceleration (scale (mk_ratio 1 100000000000)))];
  (* units.hpp:715 *) [("square_micrometer", area (scale std_pico))];
  (* units.hpp:718 *) [("square_millimeter", area (scale std_micro))];
  (* units.hpp:721 *) [("square_centimeter", area (scale (mk_ratio 1 10000)))];
  (* units.hpp:724 *) [("square_meter", area one_rr)];
  (* units.hpp:727 *) [("square_kilometer", area (scale std_mega))];
  (* units.hpp:730 *) [("square_megameter", area (scale std_tera))];
  (* units.hpp:735 *) [("square_inch", area (scale (mk_ratio 64516 100000000)))];
  (* units.hpp:738 *) [("square_foot", area (scale (mk_ratio 9290304 100000000)))];
  (* units.hpp:741 *) [("square_yard", area (scale (mk_ratio 83612736 100000000)))];
  (* units.hpp:744 *) [("square_mile", area (scale (mk_ratio 2589988110336 1000000)))];
  (* units.hpp:749 *) [("are", area (scale (mk_ratio 100 1)))];
  (* units.hpp:752 *) [("hectare", area (scale (mk_ratio 10000 1)))];
  (* units.hpp:756 *) [("_um2", area (scale std_pico))];
  (* units.hpp:757 *) [("_mm2", area (scale std_micro))];
  (* units.hpp:758 *) [("_cm2", area (scale (mk_ratio 1 10000)))];
  (* units.hpp:759 *) [("_m2", area (scale (mk_ratio 1 1)))];
  (* units.hpp:760 *) [("_km2", area (scale std_mega))];
  (* units.hpp:761 *) [("_Mm2", area (scale std_tera))];
  (* units.hpp:763 *) [("_in2", area (scale (mk_ratio 64516 100000000)))];
  (* units.hpp:764 *) [("_ft2", area (scale (mk_ratio 9290304 100000000)))];
  (* units.hpp:765 *) [("_yd2", area (scale (mk_ratio 83612736 100000000)))];
  (* units.hpp:766 *) [("_mi2", area (scale (mk_ratio 2589988110336 1000000)))];
  (* units.hpp:768 *) [("_a", area (scale (mk_ratio 100 1)))];
  (* units.hpp:769 *) [("_ha", area (scale (mk_ratio 10000 1)))];
  (* units.hpp:780 *) [("cubic_millimeter", volume (scale std_nano))];
  (* units.hpp:783 *) [("cubic_centimeter", volume (scale std_micro))];
  (* units.hpp:786 *) [("cubic_meter", volume one_rr)];
  (* units.hpp:789 *) [("cubic_kilometer", volume (scale std_giga))];
  (* units.hpp:794 *) [("microliter", volume (scale std_nano))];
  (* units.hpp:797 *) [("milliliter", volume (scale std_micro))];
  (* units.hpp:800 *) [("liter", volume (scale std_milli))];
  (* units.hpp:803 *) [("hectoliter", volume (scale (mk_ratio 1 10)))];
  (* units.hpp:808 *) [("cubic_inch", volume (scale (mk_ratio 16387064 1000000000000)))];
  (* units.hpp:811 *) [("cubic_foot", volume (scale (mk_ratio 28316846592 1000000000000)))];
  (* units.hpp:814 *) [("cubic_yard", volume (scale (mk_ratio 764554857984 1000000000000)))];
  (* units.hpp:817-818 *) [("cubic_mile", volume (scale (mk_ratio 4168181825440579584 1000000000)))];
  (* units.hpp:822 *) [("_mm3", volume (scale std_nano))];
  (* units.hpp:823 *) [("_cm3", volume (scale std_micro))];
  (* units.hpp:824 *) [("_m3", volume (scale (mk_ratio 1 1)))];
  (* units.hpp:825 *) [("_km3", volume (scale std_giga))];
  (* units.hpp:827 *) [("_uL", volume (scale std_nano))];
  (* units.hpp:828 *) [("_mL", volume (scale std_micro))];
  (* units.hpp:829 *) [("_L", volume (scale std_milli))];
  (* units.hpp:830 *) [("_hL", volume (scale (mk_ratio 1 10)))];
  (* units.hpp:832 *) [("_in3", volume (scale (mk_ratio 16387064 1000000000000)))];
  (* units.hpp:833 *) [("_ft3", volume (scale (mk_ratio 28316846592 1000000000000)))];
  (* units.hpp:834 *) [("_yd3", volume (scale (mk_ratio 764554857984 1000000000000)))];
  (* units.hpp:835-838 *) [("_mi3", volume (scale (mk_ratio 4168181825440579584 1000000000)))];
  (* units.hpp:846 *) prefixes_alias force "newton";
  (* units.hpp:851-852 *) [("pound_force", volume (scale (mk_ratio 44482216152605 10000000000000)))];
  (* units.hpp:855 *) [("poundal", volume (scale (mk_ratio 138254954376 1000000000000)))];
  (* units.hpp:860 *) [("kilogram_force", volume (scale (mk_ratio 980665 100000)))];
  (* units.hpp:863 *) [("dyne", volume (scale (mk_ratio 1 100000)))];
  (* units.hpp:867 *) [("_aN", force (scale std_atto))];
  (* units.hpp:868 *) [("_fN", force (scale std_femto))];
  (* units.hpp:869 *) [("_pN", force (scale std_pico))];
  (* units.hpp:870 *) [("_nN", force (scale std_nano))];
  (* units.hpp:871 *) [("_uN", force (scale std_micro))];
  (* units.hpp:872 *) [("_mN", force (scale std_milli))];
  (* units.hpp:873 *) [("_N", force (scale (mk_ratio 1 1)))];
  (* units.hpp:874 *) [("_kN", force (scale std_kilo))];
  (* units.hpp:875 *) [("_MN", force (scale std_mega))];
  (* units.hpp:876 *) [("_GN", force (scale std_giga))];
  (* units.hpp:877 *) [("_TN", force (scale std_tera))];
  (* units.hpp:878 *) [("_PN", force (scale std_peta))];
  (* units.hpp:879 *) [("_EN", force (scale std_exa))];
  (* units.hpp:881 *) [("_lbf", force (scale (mk_ratio 44482216152605 10000000000000)))];
  (* units.hpp:882 *) [("_pdl", force (scale (mk_ratio 138254954376 1000000000000)))];
  (* units.hpp:883 *) [("_kgf", force (scale (mk_ratio 980665 100000)))];
  (* units.hpp:884 *) [("_dyn", force (scale (mk_ratio 1 100000)))];
  (* units.hpp:892 *) prefixes_alias power "watt";
  (* units.hpp:896 *) [("_aW", power (scale std_atto))];
  (* units.hpp:897 *) [("_fW", power (scale std_femto))];
  (* units.hpp:898 *) [("_pW", power (scale std_pico))];
  (* units.hpp:899 *) [("_nW", power (scale std_nano))];
  (* units.hpp:900 *) [("_uW", power (scale std_micro))];
  (* units.hpp:901 *) [("_mW", power (scale std_milli))];
  (* units.hpp:902 *) [("_W", power (scale (mk_ratio 1 1)))];
  (* units.hpp:903 *) [("_kW", power (scale std_kilo))];
  (* units.hpp:904 *) [("_MW", power (scale std_mega))];
  (* units.hpp:905 *) [("_GW", power (scale std_giga))];
  (* units.hpp:906 *) [("_TW", power (scale std_tera))];
  (* units.hpp:907 *) [("_PW", power (scale std_peta))];
  (* units.hpp:908 *) [("_EW", power (scale std_exa))];
  (* units.hpp:916 *) prefixes_alias energy "joule";
  (* units.hpp:919 *) [("watt_hour", energy (scale (mk_ratio 3600 1)))];
  (* units.hpp:922 *) [("kilowatt_hour", energy (scale (mk_ratio 3600000 1)))];
  (* units.hpp:925 *) [("megawatt_hour", energy (scale (mk_ratio 3600000000 1)))];
  (* units.hpp:928 *) [("gigawatt_hour", energy (scale (mk_ratio 3600000000000 1)))];
  (* units.hpp:931 *) [("terawatt_hour", energy (scale (mk_ratio 3600000000000000 1)))];
  (* units.hpp:934 *) [("petawatt_hour", energy (scale (mk_ratio 3600000000000000000 1)))];
  (* units.hpp:937 *) [("calorie", energy (scale (mk_ratio 4184 1000)))];
  (* units.hpp:940 *) [("kilocalorie", energy (scale (mk_ratio 4184 1)))];
  (* units.hpp:944 *) [("_aJ", energy (scale std_atto))];
  (* units.hpp:945 *) [("_fJ", energy (scale std_femto))];
  (* units.hpp:946 *) [("_pJ", energy (scale std_pico))];
  (* units.hpp:947 *) [("_nJ", energy (scale std_nano))];
  (* units.hpp:948 *) [("_uJ", energy (scale std_micro))];
  (* units.hpp:949 *) [("_mJ", energy (scale std_milli))];
  (* units.hpp:950 *) [("_J", energy (scale (mk_ratio 1 1)))];
  (* units.hpp:951 *) [("_kJ", energy (scale std_kilo))];
  (* units.hpp:952 *) [("_MJ", energy (scale std_mega))];
  (* units.hpp:953 *) [("_GJ", energy (scale std_giga))];
  (* units.hpp:954 *) [("_TJ", energy (scale std_tera))];
  (* units.hpp:955 *) [("_PJ", energy (scale std_peta))];
  (* units.hpp:956 *) [("_EJ", energy (scale std_exa))];
  (* units.hpp:958 *) [("_Wh", energy (scale (mk_ratio 3600 1)))];
  (* units.hpp:959 *) [("_kWh", energy (scale (mk_ratio 3600000 1)))];
  (* units.hpp:960 *) [("_MWh", energy (scale (mk_ratio 3600000000 1)))];
  (* units.hpp:961 *) [("_GWh", energy (scale (mk_ratio 3600000000000 1)))];
  (* units.hpp:962 *) [("_TWh", energy (scale (mk_ratio 3600000000000000 1)))];
  (* units.hpp:963 *) [("_PWh", energy (scale (mk_ratio 3600000000000000000 1)))];
  (* units.hpp:965 *) [("_cal", energy (scale (mk_ratio 4184 1000)))];
  (* units.hpp:966 *) [("_kcal", energy (scale (mk_ratio 4184 1)))];
  (* units.hpp:974 *) prefixes_alias pressure "pascal";
  (* units.hpp:977 *) [("millibar", pressure (scale (mk_ratio 100 1)))];
  (* units.hpp:980 *) [("bar", pressure (scale (mk_ratio 100000 1)))];
  (* units.hpp:983 *) [("kilobar", pressure (scale (mk_ratio 100000000 1)))];
  (* units.hpp:986 *) [("mmHg", pressure (scale (mk_ratio 101325 760)))];
  (* units.hpp:989 *) [("torr", pressure (scale (mk_ratio 101325 760)))];
  (* units.hpp:992 *) [("psi", pressure (scale (mk_ratio 689476 100)))];
  (* units.hpp:995 *) [("atm", pressure (scale (mk_ratio 101325 1)))];
  (* units.hpp:999 *) [("_aPa", pressure (scale std_atto))];
  (* units.hpp:1000 *) [("_fPa", pressure (scale std_femto))];
  (* units.hpp:1001 *) [("_pPa", pressure (scale std_pico))];
  (* units.hpp:1002 *) [("_nPa", pressure (scale std_nano))];
  (* units.hpp:1003 *) [("_uPa", pressure (scale std_micro))];
  (* units.hpp:1004 *) [("_mPa", pressure (scale std_milli))];
  (* units.hpp:1005 *) [("_Pa", pressure (scale (mk_ratio 1 1)))];
  (* units.hpp:1006 *) [("_hPa", pressure (scale std_hecto))];
  (* units.hpp:1007 *) [("_kPa", pressure (scale std_kilo))];
  (* units.hpp:1008 *) [("_MPa", pressure (scale std_mega))];
  (* units.hpp:1009 *) [("_GPa", pressure (scale std_giga))];
  (* units.hpp:1010 *) [("_TPa", pressure (scale std_tera))];
  (* units.hpp:1011 *) [("_PPa", pressure (scale std_peta))];
  (* units.hpp:1012 *) [("_EPa", pressure (scale std_exa))];
  (* units.hpp:1014 *) [("_mbar", pressure (scale (mk_ratio 100 1)))];
  (* units.hpp:1015 *) [("_bar", pressure (scale (mk_ratio 100000 1)))];
  (* units.hpp:1016 *) [("_kbar", pressure (scale (mk_ratio 100000000 1)))];
  (* units.hpp:1017 *) [("_mmHg", pressure (scale (mk_ratio 101325 760)))];
  (* units.hpp:1018 *) [("_torr", pressure (scale (mk_ratio 101325 760)))];
  (* units.hpp:1019 *) [("_psi", pressure (scale (mk_ratio 689476 100)))];
  (* units.hpp:1020 *) [("_atm", pressure (scale (mk_ratio 101325 1)))];
  (* units.hpp:1028 *) prefixes_alias frequency "hertz";
  (* units.hpp:1032 *) [("_aHz", frequency (scale std_atto))];
  (* units.hpp:1033 *) [("_fHz", frequency (scale std_femto))];
  (* units.hpp:1034 *) [("_pHz", frequency (scale std_pico))];
  (* units.hpp:1035 *) [("_nHz", frequency (scale std_nano))];
  (* units.hpp:1036 *) [("_uHz", frequency (scale std_micro))];
  (* units.hpp:1037 *) [("_mHz", frequency (scale std_milli))];
  (* units.hpp:1038 *) [("_Hz", frequency (scale (mk_ratio 1 1)))];
  (* units.hpp:1039 *) [("_kHz", frequency (scale std_kilo))];
  (* units.hpp:1040 *) [("_MHz", frequency (scale std_mega))];
  (* units.hpp:1041 *) [("_GHz", frequency (scale std_giga))];
  (* units.hpp:1042 *) [("_THz", frequency (scale std_tera))];
  (* units.hpp:1043 *) [("_PHz", frequency (scale std_peta))];
  (* units.hpp:1044 *) [("_EHz", frequency (scale std_exa))];
  (* units.hpp:1053 *) [("bit_per_second", data_rate one_rr)];
  (* units.hpp:1056 *) [("kilobit_per_second", data_rate (scale std_kilo))];
  (* units.hpp:1059 *) [("megabit_per_second", data_rate (scale std_mega))];
  (* units.hpp:1062 *) [("gigabit_per_second", data_rate (scale std_giga))];
  (* units.hpp:1065 *) [("terabit_per_second", data_rate (scale std_tera))];
  (* units.hpp:1068 *) [("petabit_per_second", data_rate (scale std_peta))];
  (* units.hpp:1071 *) [("exabit_per_second", data_rate (scale std_exa))];
  (* units.hpp:1075 *) [("_bps", data_rate (scale (mk_ratio 1 1)))];
  (* units.hpp:1076 *) [("_kbps", data_rate (scale std_kilo))];
  (* units.hpp:1077 *) [("_Mbps", data_rate (scale std_mega))];
  (* units.hpp:1078 *) [("_Gbps", data_rate (scale std_giga))];
  (* units.hpp:1079 *) [("_Tbps", data_rate (scale std_tera))];
  (* units.hpp:1080 *) [("_Pbps", data_rate (scale std_peta))];
  (* units.hpp:1081 *) [("_Ebps", data_rate (scale std_exa))];
  (* chemical.hpp:34 *) prefixes_alias catalytic_activity "katal";
  (* chemical.hpp:37-38 *) [("enzyme_unit", catalytic_activity (scale (mk_ratio 1667 100000000000)))];
  (* chemical.hpp:42 *) [("_akat", catalytic_activity (scale std_atto))];
  (* chemical.hpp:43 *) [("_fkat", catalytic_activity (scale std_femto))];
  (* chemical.hpp:44 *) [("_pkat", catalytic_activity (scale std_pico))];
  (* chemical.hpp:45 *) [("_nkat", catalytic_activity (scale std_nano))];
  (* chemical.hpp:46 *) [("_ukat", catalytic_activity (scale std_micro))];
  (* chemical.hpp:47 *) [("_mkat", catalytic_activity (scale std_milli))];
  (* chemical.hpp:48 *) [("_kat", catalytic_activity (scale (mk_ratio 1 1)))];
  (* chemical.hpp:49 *) [("_kkat", catalytic_activity (scale std_kilo))];
  (* chemical.hpp:50 *) [("_Mkat", catalytic_activity (scale std_mega))];
  (* chemical.hpp:51 *) [("_Gkat", catalytic_activity (scale std_giga))];
  (* chemical.hpp:52 *) [("_Tkat", catalytic_activity (scale std_tera))];
  (* chemical.hpp:53 *) [("_Pkat", catalytic_activity (scale std_peta))];
  (* chemical.hpp:54 *) [("_Ekat", catalytic_activity (scale std_exa))];
  (* electromagnetism.hpp:84 *) prefixes_alias electric_potential "volt";
  (* electromagnetism.hpp:88 *) [("_aV", electric_potential (scale std_atto))];
  (* electromagnetism.hpp:89 *) [("_fV", electric_potential (scale std_femto))];
  (* electromagnetism.hpp:90 *) [("_pV", electric_potential (scale std_pico))];
  (* electromagnetism.hpp:91 *) [("_nV", electric_potential (scale std_nano))];
  (* electromagnetism.hpp:92 *) [("_uV", electric_potential (scale std_micro))];
  (* electromagnetism.hpp:93 *) [("_mV", electric_potential (scale std_milli))];
  (* electromagnetism.hpp:94 *) [("_V", electric_potential (scale (mk_ratio 1 1)))];
  (* electromagnetism.hpp:95 *) [("_kV", electric_potential (scale std_kilo))];
  (* electromagnetism.hpp:96 *) [("_MV", electric_potential (scale std_mega))];
  (* electromagnetism.hpp:97 *) [("_GV", electric_potential (scale std_giga))];
  (* electromagnetism.hpp:98 *) [("_TV", electric_potential (scale std_tera))];
  (* electromagnetism.hpp:99 *) [("_PV", electric_potential (scale std_peta))];
  (* electromagnetism.hpp:100 *) [("_EV", electric_potential (scale std_exa))];
  (* electromagnetism.hpp:108 *) prefixes_alias electric_charge "coulomb";
  (* electromagnetism.hpp:112 *) [("_aC", electric_charge (scale std_atto))];
  (* electromagnetism.hpp:113 *) [("_fC", electric_charge (scale std_femto))];
  (* electromagnetism.hpp:114 *) [("_pC", electric_charge (scale std_pico))];
  (* electromagnetism.hpp:115 *) [("_nC", electric_charge (scale std_nano))];
  (* electromagnetism.hpp:116 *) [("_uC", electric_charge (scale std_micro))];
  (* electromagnetism.hpp:117 *) [("_mC", electric_charge (scale std_milli))];
  (* electromagnetism.hpp:118 *) [("_C", electric_charge (scale (mk_ratio 1 1)))];
  (* electromagnetism.hpp:119 *) [("_kC", electric_charge (scale std_kilo))];
  (* electromagnetism.hpp:120 *) [("_MC", electric_charge (scale std_mega))];
  (* electromagnetism.hpp:121 *) [("_GC", electric_charge (scale std_giga))];
  (* electromagnetism.hpp:122 *) [("_TC", electric_charge (scale std_tera))];
  (* electromagnetism.hpp:123 *) [("_PC", electric_charge (scale std_peta))];
  (* electromagnetism.hpp:124 *) [("_EC", electric_charge (scale std_exa))];
  (* electromagnetism.hpp:132 *) prefixes_alias electrical_resistance "ohm";
  (* electromagnetism.hpp:136 *) [("_aOhm", electrical_resistance (scale std_atto))];
  (* electromagnetism.hpp:137 *) [("_fOhm", electrical_resistance (scale std_femto))];
  (* electromagnetism.hpp:138 *) [("_pOhm", electrical_resistance (scale std_pico))];
  (* electromagnetism.hpp:139 *) [("_nOhm", electrical_resistance (scale std_nano))];
  (* electromagnetism.hpp:140 *) [("_uOhm", electrical_resistance (scale std_micro))];
  (* electromagnetism.hpp:141 *) [("_mOhm", electrical_resistance (scale std_milli))];
  (* electromagnetism.hpp:142 *) [("_Ohm", electrical_resistance (scale (mk_ratio 1 1)))];
  (* electromagnetism.hpp:143 *) [("_kOhm", electrical_resistance (scale std_kilo))];
  (* electromagnetism.hpp:144 *) [("_MOhm", electrical_resistance (scale std_mega))];
  (* electromagnetism.hpp:145 *) [("_GOhm", electrical_resistance (scale std_giga))];
  (* electromagnetism.hpp:146 *) [("_TOhm", electrical_resistance (scale std_tera))];
  (* electromagnetism.hpp:147 *) [("_POhm", electrical_resistance (scale std_peta))];
  (* electromagnetism.hpp:148 *) [("_EOhm", electrical_resistance (scale std_exa))];
  (* electromagnetism.hpp:156 *) prefixes_alias electrical_conductivity "siemens";
  (* electromagnetism.hpp:160 *) [("_aS", electrical_conductivity (scale std_atto))];
  (* electromagnetism.hpp:161 *) [("_fS", electrical_conductivity (scale std_femto))];
  (* electromagnetism.hpp:162 *) [("_pS", electrical_conductivity (scale std_pico))];
  (* electromagnetism.hpp:163 *) [("_nS", electrical_conductivity (scale std_nano))];
  (* electromagnetism.hpp:164 *) [("_uS", electrical_conductivity (scale std_micro))];
  (* electromagnetism.hpp:165 *) [("_mS", electrical_conductivity (scale std_milli))];
  (* electromagnetism.hpp:166 *) [("_S", electrical_conductivity (scale (mk_ratio 1 1)))];
  (* electromagnetism.hpp:167 *) [("_kS", electrical_conductivity (scale std_kilo))];
  (* electromagnetism.hpp:168 *) [("_MS", electrical_conductivity (scale std_mega))];
  (* electromagnetism.hpp:169 *) [("_GS", electrical_conductivity (scale std_giga))];
  (* electromagnetism.hpp:170 *) [("_TS", electrical_conductivity (scale std_tera))];
  (* electromagnetism.hpp:171 *) [("_PS", electrical_conductivity (scale std_peta))];
  (* electromagnetism.hpp:172 *) [("_ES", electrical_conductivity (scale std_exa))];
  (* electromagnetism.hpp:180 *) prefixes_alias capacitance "farad";
  (* electromagnetism.hpp:184 *) [("_aF", capacitance (scale std_atto))];
  (* electromagnetism.hpp:185 *) [("_fF", capacitance (scale std_femto))];
  (* electromagnetism.hpp:186 *) [("_pF", capacitance (scale std_pico))];
  (* electromagnetism.hpp:187 *) [("_nF", capacitance (scale std_nano))];
  (* electromagnetism.hpp:188 *) [("_uF", capacitance (scale std_micro))];
  (* electromagnetism.hpp:189 *) [("_mF", capacitance (scale std_milli))];
  (* electromagnetism.hpp:190 *) [("_F", capacitance (scale (mk_ratio 1 1)))];
  (* electromagnetism.hpp:191 *) [("_kF", capacitance (scale std_kilo))];
  (* electromagnetism.hpp:192 *) [("_MF", capacitance (scale std_mega))];
  (* electromagnetism.hpp:193 *) [("_GF", capacitance (scale std_giga))];
  (* electromagnetism.hpp:194 *) [("_TF", capacitance (scale std_tera))];
  (* electromagnetism.hpp:195 *) [("_PF", capacitance (scale std_peta))];
  (* electromagnetism.hpp:196 *) [("_EF", capacitance (scale std_exa))];
  (* electromagnetism.hpp:204 *) prefixes_alias inductance "henry";
  (* electromagnetism.hpp:208 *) [("_aH", inductance (scale std_atto))];
  (* electromagnetism.hpp:209 *) [("_fH", inductance (scale std_femto))];
  (* electromagnetism.hpp:210 *) [("_pH", inductance (scale std_pico))];
  (* electromagnetism.hpp:211 *) [("_nH", inductance (scale std_nano))];
  (* electromagnetism.hpp:212 *) [("_uH", inductance (scale std_micro))];
  (* electromagnetism.hpp:213 *) [("_mH", inductance (scale std_milli))];
  (* electromagnetism.hpp:214 *) [("_H", inductance (scale (mk_ratio 1 1)))];
  (* electromagnetism.hpp:215 *) [("_kH", inductance (scale std_kilo))];
  (* electromagnetism.hpp:216 *) [("_MH", inductance (scale std_mega))];
  (* electromagnetism.hpp:217 *) [("_GH", inductance (scale std_giga))];
  (* electromagnetism.hpp:218 *) [("_TH", inductance (scale std_tera))];
  (* electromagnetism.hpp:219 *) [("_PH", inductance (scale std_peta))];
  (* electromagnetism.hpp:220 *) [("_EH", inductance (scale std_exa))];
  (* electromagnetism.hpp:228 *) prefixes_alias magnetic_flux_density "tesla";
  (* electromagnetism.hpp:231 *) [("gauss", magnetic_flux_density (scale (mk_ratio 1 10000)))];
  (* electromagnetism.hpp:235 *) [("_aT", magnetic_flux_density (scale std_atto))];
  (* electromagnetism.hpp:236 *) [("_fT", magnetic_flux_density (scale std_femto))];
  (* electromagnetism.hpp:237 *) [("_pT", magnetic_flux_density (scale std_pico))];
  (* electromagnetism.hpp:238 *) [("_nT", magnetic_flux_density (scale std_nano))];
  (* electromagnetism.hpp:239 *) [("_uT", magnetic_flux_density (scale std_micro))];
  (* electromagnetism.hpp:240 *) [("_mT", magnetic_flux_density (scale std_milli))];
  (* electromagnetism.hpp:241 *) [("_T", magnetic_flux_density (scale (mk_ratio 1 1)))];
  (* electromagnetism.hpp:242 *) [("_kT", magnetic_flux_density (scale std_kilo))];
  (* electromagnetism.hpp:243 *) [("_MT", magnetic_flux_density (scale std_mega))];
  (* electromagnetism.hpp:244 *) [("_GT", magnetic_flux_density (scale std_giga))];
  (* electromagnetism.hpp:245 *) [("_TT", magnetic_flux_density (scale std_tera))];
  (* electromagnetism.hpp:246 *) [("_PT", magnetic_flux_density (scale std_peta))];
  (* electromagnetism.hpp:247 *) [("_ET", magnetic_flux_density (scale std_exa))];
  (* electromagnetism.hpp:249 *) [("_G", magnetic_flux_density (scale (mk_ratio 1 10000)))];
  (* electromagnetism.hpp:257 *) prefixes_alias magnetic_flux "weber";
  (* electromagnetism.hpp:261 *) [("_aWb", magnetic_flux (scale std_atto))];
  (* electromagnetism.hpp:262 *) [("_fWb", magnetic_flux (scale std_femto))];
  (* electromagnetism.hpp:263 *) [("_pWb", magnetic_flux (scale std_pico))];
  (* electromagnetism.hpp:264 *) [("_nWb", magnetic_flux (scale std_nano))];
  (* electromagnetism.hpp:265 *) [("_uWb", magnetic_flux (scale std_micro))];
  (* electromagnetism.hpp:266 *) [("_mWb", magnetic_flux (scale std_milli))];
  (* electromagnetism.hpp:267 *) [("_Wb", magnetic_flux (scale (mk_ratio 1 1)))];
  (* electromagnetism.hpp:268 *) [("_kWb", magnetic_flux (scale std_kilo))];
  (* electromagnetism.hpp:269 *) [("_MWb", magnetic_flux (scale std_mega))];
  (* electromagnetism.hpp:270 *) [("_GWb", magnetic_flux (scale std_giga))];
  (* electromagnetism.hpp:271 *) [("_TWb", magnetic_flux (scale std_tera))];
  (* electromagnetism.hpp:272 *) [("_PWb", magnetic_flux (scale std_peta))];
  (* electromagnetism.hpp:273 *) [("_EWb", magnetic_flux (scale std_exa))];
  (* electromagnetism.hpp:281-282 *) prefixes_alias current_noise_density "ampere_per_root_hertz";
  (* electromagnetism.hpp:286 *) [("_aA_per_rtHz", current_noise_density (scale std_atto))];
  (* electromagnetism.hpp:287 *) [("_fA_per_rtHz", current_noise_density (scale std_femto))];
  (* electromagnetism.hpp:288 *) [("_pA_per_rtHz", current_noise_density (scale std_pico))];
  (* electromagnetism.hpp:289 *) [("_nA_per_rtHz", current_noise_density (scale std_nano))];
  (* electromagnetism.hpp:290 *) [("_uA_per_rtHz", current_noise_density (scale std_micro))];
  (* electromagnetism.hpp:291 *) [("_mA_per_rtHz", current_noise_density (scale std_milli))];
  (* electromagnetism.hpp:292 *) [("_A_per_rtHz", current_noise_density (scale (mk_ratio 1 1)))];
  (* electromagnetism.hpp:293 *) [("_kA_per_rtHz", current_noise_density (scale std_kilo))];
  (* electromagnetism.hpp:294 *) [("_MA_per_rtHz", current_noise_density (scale std_mega))];
  (* electromagnetism.hpp:295 *) [("_GA_per_rtHz", current_noise_density (scale std_giga))];
  (* electromagnetism.hpp:296 *) [("_TA_per_rtHz", current_noise_density (scale std_tera))];
  (* electromagnetism.hpp:297 *) [("_PA_per_rtHz", current_noise_density (scale std_peta))];
  (* electromagnetism.hpp:298 *) [("_EA_per_rtHz", current_noise_density (scale std_exa))];
  (* electromagnetism.hpp:306-307 *) prefixes_alias voltage_noise_density "volt_per_root_hertz";
  (* electromagnetism.hpp:311 *) [("_aV_per_rtHz", voltage_noise_density (scale std_atto))];
  (* electromagnetism.hpp:312 *) [("_fV_per_rtHz", voltage_noise_density (scale std_femto))];
  (* electromagnetism.hpp:313 *) [("_pV_per_rtHz", voltage_noise_density (scale std_pico))];
  (* electromagnetism.hpp:314 *) [("_nV_per_rtHz", voltage_noise_density (scale std_nano))];
  (* electromagnetism.hpp:315 *) [("_uV_per_rtHz", voltage_noise_density (scale std_micro))];
  (* electromagnetism.hpp:316 *) [("_mV_per_rtHz", voltage_noise_density (scale std_milli))];
  (* electromagnetism.hpp:317 *) [("_V_per_rtHz", voltage_noise_density (scale (mk_ratio 1 1)))];
  (* electromagnetism.hpp:318 *) [("_kV_per_rtHz", voltage_noise_density (scale std_kilo))];
  (* electromagnetism.hpp:319 *) [("_MV_per_rtHz", voltage_noise_density (scale std_mega))];
  (* electromagnetism.hpp:320 *) [("_GV_per_rtHz", voltage_noise_density (scale std_giga))];
  (* electromagnetism.hpp:321 *) [("_TV_per_rtHz", voltage_noise_density (scale std_tera))];
  (* electromagnetism.hpp:322 *) [("_PV_per_rtHz", voltage_noise_density (scale std_peta))];
  (* electromagnetism.hpp:323 *) [("_EV_per_rtHz", voltage_noise_density (scale std_exa))];
  (* photometry.hpp:54 *) prefixes_alias luminous_flux "lumen";
  (* photometry.hpp:58 *) [("_alm", luminous_flux (scale std_atto))];
  (* photometry.hpp:59 *) [("_flm", luminous_flux (scale std_pico))];
  (* photometry.hpp:60 *) [("_nlm", luminous_flux (scale std_nano))];
  (* photometry.hpp:61 *) [("_ulm", luminous_flux (scale std_micro))];
  (* photometry.hpp:62 *) [("_mlm", luminous_flux (scale std_milli))];
  (* photometry.hpp:63 *) [("_lm", luminous_flux (scale (mk_ratio 1 1)))];
  (* photometry.hpp:64 *) [("_klm", luminous_flux (scale std_kilo))];
  (* photometry.hpp:65 *) [("_Mlm", luminous_flux (scale std_mega))];
  (* photometry.hpp:66 *) [("_Glm", luminous_flux (scale std_giga))];
  (* photometry.hpp:67 *) [("_Tlm", luminous_flux (scale std_tera))];
  (* photometry.hpp:68 *) [("_Plm", luminous_flux (scale std_peta))];
  (* photometry.hpp:69 *) [("_Elm", luminous_flux (scale std_exa))];
  (* photometry.hpp:77 *) prefixes_alias illuminance "lux";
  (* photometry.hpp:81 *) [("_alx", illuminance (scale std_atto))];
  (* photometry.hpp:82 *) [("_flx", illuminance (scale std_pico))];
  (* photometry.hpp:83 *) [("_nlx", illuminance (scale std_nano))];
  (* photometry.hpp:84 *) [("_ulx", illuminance (scale std_micro))];
  (* photometry.hpp:85 *) [("_mlx", illuminance (scale std_milli))];
  (* photometry.hpp:86 *) [("_lx", illuminance (scale (mk_ratio 1 1)))];
  (* photometry.hpp:87 *) [("_klx", illuminance (scale std_kilo))];
  (* photometry.hpp:88 *) [("_Mlx", illuminance (scale std_mega))];
  (* photometry.hpp:89 *) [("_Glx", illuminance (scale std_giga))];
  (* photometry.hpp:90 *) [("_Tlx", illuminance (scale std_tera))];
  (* photometry.hpp:91 *) [("_Plx", illuminance (scale std_peta))];
  (* photometry.hpp:92 *) [("_Elx", illuminance (scale std_exa))]
].
