(** Reference definitions of the named units, written from the SI brochure and the international definitions, independently of the
    library: exponents of the base dimensions and the factor (and offset) to the coherent SI unit.

    Exponents are listed in the order length, time, mass, electric current, temperature, amount of substance, luminous
    intensity, planar angle, solid angle, data; missing ones are 0. *)
From Coq Require Import ZArith QArith List String.
Import ListNotations.
Open Scope string_scope.
Open Scope Z_scope.

Record unit_ref := Ref { ref_name : string; ref_expo : list Q; ref_factor : Q; ref_offset : Q }.

(** SI prefixes with their symbols ("u" stands for micro). *)
Definition si_prefixes : list (string * string * Q) :=
  [("atto", "a", 1 / inject_Z (10 ^ 18)); ("femto", "f", 1 / inject_Z (10 ^ 15)); ("pico", "p", 1 / inject_Z (10 ^ 12));
   ("nano", "n", 1 / inject_Z (10 ^ 9)); ("micro", "u", 1 / inject_Z (10 ^ 6)); ("milli", "m", 1 / inject_Z (10 ^ 3));
   ("centi", "c", 1 / inject_Z (10 ^ 2)); ("deci", "d", 1 / inject_Z 10); ("", "", 1);
   ("deca", "da", inject_Z 10); ("hecto", "h", inject_Z (10 ^ 2)); ("kilo", "k", inject_Z (10 ^ 3)); ("mega", "M", inject_Z (10 ^ 6));
   ("giga", "G", inject_Z (10 ^ 9)); ("tera", "T", inject_Z (10 ^ 12)); ("peta", "P", inject_Z (10 ^ 15)); ("exa", "E", inject_Z (10 ^ 18))]%Q.

(** A unit with its name and its symbol (the literal is the symbol after an underscore). *)
Definition u1 (name symbol : string) (e : list Q) (k : Q) : list unit_ref :=
  [Ref name e k 0; Ref ("_" ++ symbol) e k 0]%Q.
(** The same with all SI prefixes. *)
Definition si (name symbol : string) (e : list Q) (k : Q) : list unit_ref :=
  List.flat_map (fun '(p, s, f) => [Ref (p ++ name) e (f * k) 0; Ref ("_" ++ s ++ symbol) e (f * k) 0])%Q si_prefixes.

Section Exponents.
  Local Open Scope Q_scope.
  Definition e_length := [1].
  Definition e_time := [0; 1].
  Definition e_mass := [0; 0; 1].
  Definition e_current := [0; 0; 0; 1].
  Definition e_temperature := [0; 0; 0; 0; 1].
  Definition e_amount := [0; 0; 0; 0; 0; 1].
  Definition e_luminous := [0; 0; 0; 0; 0; 0; 1].
  Definition e_angle := [0; 0; 0; 0; 0; 0; 0; 1].
  Definition e_solid := [0; 0; 0; 0; 0; 0; 0; 0; 1].
  Definition e_data := [0; 0; 0; 0; 0; 0; 0; 0; 0; 1].
  Definition e_speed := [1; -(1)].
  Definition e_accel := [1; -(2)].
  Definition e_area := [2].
  Definition e_volume := [3].
  Definition e_force := [1; -(2); 1].
  Definition e_power := [2; -(3); 1].
  Definition e_energy := [2; -(2); 1].
  Definition e_pressure := [-(1); -(2); 1].
  Definition e_frequency := [0; -(1)].
  Definition e_bitrate := [0; -(1); 0; 0; 0; 0; 0; 0; 0; 1].
  Definition e_catalytic := [0; -(1); 0; 0; 0; 1].
  Definition e_volt := [2; -(3); 1; -(1)].
  Definition e_coulomb := [0; 1; 0; 1].
  Definition e_ohm := [2; -(3); 1; -(2)].
  Definition e_siemens := [-(2); 3; -(1); 2].
  Definition e_farad := [-(2); 4; -(1); 2].
  Definition e_henry := [2; -(2); 1; -(2)].
  Definition e_tesla := [0; -(2); 1; -(1)].
  Definition e_weber := [2; -(2); 1; -(1)].
  Definition e_amp_noise := [0; 1 / 2; 0; 1].
  Definition e_volt_noise := [2; -(5 / 2); 1; -(1)].
  Definition e_lumen := [0; 0; 0; 0; 0; 0; 1; 0; 1].
  Definition e_lux := [-(2); 0; 0; 0; 0; 0; 1; 0; 1].

  Definition inch := 254 / 10000.           (* 25.4 mm *)
  Definition foot := 12 * inch.
  Definition yard := 3 * foot.
  Definition mile := 1760 * yard.
  Definition pound := 45359237 / 100000000. (* kg *)
  Definition gravity := 980665 / 100000.    (* standard gravity, m/s^2 *)
  Definition nautical_mile := 1852.
  Definition astronomical_unit := 149597870700.
  Definition speed_of_light := 299792458.
  Definition hour := 3600.
  Definition day := 24 * hour.
  Definition atmosphere := 101325.

  Definition units_ref : list unit_ref := List.concat [
    (* length *)
    si "meter" "m" e_length 1; u1 "angstrom" "angstrom" e_length (1 / inject_Z (10 ^ 10));
    u1 "inch" "in" e_length inch; u1 "foot" "ft" e_length foot; u1 "yard" "yd" e_length yard; u1 "mile" "mi" e_length mile;
    u1 "nautical_mile" "nmi" e_length nautical_mile; u1 "astronomical_unit" "au" e_length astronomical_unit;
    u1 "light_year" "ly" e_length (speed_of_light * (36525 / 100) * day);
    (* time *)
    si "second" "s" e_time 1; u1 "minute" "min" e_time 60; u1 "hour" "h" e_time hour; u1 "day" "day" e_time day;
    u1 "week" "week" e_time (7 * day);
    (* mass *)
    si "gram" "g" e_mass (1 / 1000); u1 "tonne" "t" e_mass 1000; u1 "kilotonne" "kt" e_mass (inject_Z (10 ^ 6));
    u1 "megatonne" "Mt" e_mass (inject_Z (10 ^ 9)); u1 "gigatonne" "Gt" e_mass (inject_Z (10 ^ 12)); u1 "teratonne" "Tt" e_mass (inject_Z (10 ^ 15));
    si "ampere" "A" e_current 1; si "kelvin" "K" e_temperature 1;
    (* 0 degrees Celsius = 273.15 K; 32 degrees Fahrenheit = 0 degrees Celsius, 9 degrees F per 5 K *)
    [Ref "celsius" e_temperature 1 (27315 / 100); Ref "_degC" e_temperature 1 (27315 / 100);
     Ref "fahrhenheit" e_temperature (5 / 9) (27315 / 100 - 32 * (5 / 9)); Ref "_degF" e_temperature (5 / 9) (27315 / 100 - 32 * (5 / 9))];
    si "mole" "mol" e_amount 1; si "candela" "Cd" e_luminous 1; si "radian" "rad" e_angle 1; si "steradian" "sr" e_solid 1;
    (* data *)
    u1 "bit" "b" e_data 1; u1 "shannon" "Sh" e_data 1; [Ref "nibble" e_data 4 0]; u1 "byte" "B" e_data 8;
    u1 "kibibyte" "kiB" e_data (8 * inject_Z (2 ^ 10)); u1 "mebibyte" "MiB" e_data (8 * inject_Z (2 ^ 20)); u1 "gibibyte" "GiB" e_data (8 * inject_Z (2 ^ 30));
    u1 "tebibyte" "TiB" e_data (8 * inject_Z (2 ^ 40)); u1 "pebibyte" "PiB" e_data (8 * inject_Z (2 ^ 50));
    (* speed, acceleration *)
    si "meter_per_second" "m_per_s" e_speed 1;
    [Ref "kilometer_per_hour" e_speed (1000 / hour) 0; Ref "_km_per_h" e_speed (1000 / hour) 0]; u1 "knot" "kn" e_speed (nautical_mile / hour);
    u1 "mile_per_hour" "mph" e_speed (mile / hour);
    si "meter_per_second_squared" "m_per_s2" e_accel 1; si "galileo" "Gal" e_accel (1 / 100);
    (* area, volume *)
    u1 "square_micrometer" "um2" e_area (1 / inject_Z (10 ^ 12)); u1 "square_millimeter" "mm2" e_area (1 / inject_Z (10 ^ 6));
    u1 "square_centimeter" "cm2" e_area (1 / inject_Z (10 ^ 4)); u1 "square_meter" "m2" e_area 1; u1 "square_kilometer" "km2" e_area (inject_Z (10 ^ 6));
    u1 "square_megameter" "Mm2" e_area (inject_Z (10 ^ 12)); u1 "square_inch" "in2" e_area (inch * inch); u1 "square_foot" "ft2" e_area (foot * foot);
    u1 "square_yard" "yd2" e_area (yard * yard); u1 "square_mile" "mi2" e_area (mile * mile); u1 "are" "a" e_area 100; u1 "hectare" "ha" e_area 10000;
    u1 "cubic_millimeter" "mm3" e_volume (1 / inject_Z (10 ^ 9)); u1 "cubic_centimeter" "cm3" e_volume (1 / inject_Z (10 ^ 6)); u1 "cubic_meter" "m3" e_volume 1;
    u1 "cubic_kilometer" "km3" e_volume (inject_Z (10 ^ 9)); si "liter" "L" e_volume (1 / 1000);
    u1 "cubic_inch" "in3" e_volume (inch * inch * inch); u1 "cubic_foot" "ft3" e_volume (foot * foot * foot);
    u1 "cubic_yard" "yd3" e_volume (yard * yard * yard); u1 "cubic_mile" "mi3" e_volume (mile * mile * mile);
    (* force, power, energy, pressure *)
    si "newton" "N" e_force 1; u1 "pound_force" "lbf" e_force (pound * gravity); u1 "poundal" "pdl" e_force (pound * foot);
    u1 "kilogram_force" "kgf" e_force gravity; u1 "dyne" "dyn" e_force (1 / inject_Z (10 ^ 5));
    si "watt" "W" e_power 1; si "joule" "J" e_energy 1; si "watt_hour" "Wh" e_energy hour; si "calorie" "cal" e_energy (4184 / 1000);
    si "pascal" "Pa" e_pressure 1; si "bar" "bar" e_pressure (inject_Z (10 ^ 5)); u1 "torr" "torr" e_pressure (atmosphere / 760);
    u1 "mmHg" "mmHg" e_pressure (135951 / 10000 * gravity) (* mercury: 13595.1 kg/m^3 *); u1 "atm" "atm" e_pressure atmosphere;
    u1 "psi" "psi" e_pressure (pound * gravity / (inch * inch));
    si "hertz" "Hz" e_frequency 1; si "bit_per_second" "bps" e_bitrate 1;
    (* chemistry, electromagnetism, photometry *)
    si "katal" "kat" e_catalytic 1; [Ref "enzyme_unit" e_catalytic (1 / inject_Z (10 ^ 6) / 60) 0] (* 1 micromole per minute *);
    si "volt" "V" e_volt 1; si "coulomb" "C" e_coulomb 1; si "ohm" "Ohm" e_ohm 1; si "siemens" "S" e_siemens 1; si "farad" "F" e_farad 1;
    si "henry" "H" e_henry 1; si "tesla" "T" e_tesla 1; u1 "gauss" "G" e_tesla (1 / 10000); si "weber" "Wb" e_weber 1;
    si "ampere_per_root_hertz" "A_per_rtHz" e_amp_noise 1; si "volt_per_root_hertz" "V_per_rtHz" e_volt_noise 1;
    si "lumen" "lm" e_lumen 1; si "lux" "lx" e_lux 1].
End Exponents.
