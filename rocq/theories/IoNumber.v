(** Models of the text/number conversions used by scicpp/core/io.hpp: std::atoi, std::atof, std::sscanf("%lf+%lfj"), std::to_string(double) and
    operator<<(int).  Floating-point numbers are exact rationals (the rounding of a decimal text to the nearest double is not modelled);
    hexadecimal floats, infinities and NaN texts are not modelled. *)
From Coq Require Import ZArith QArith Qabs Ascii.
From Verif Require Import Base Io.
Open Scope Z_scope.
Set Implicit Arguments.

Definition code (c : ascii) : Z := Z.of_nat (nat_of_ascii c).
Definition is_digit (c : ascii) : bool := (48 <=? code c) && (code c <=? 57).
(** isspace in the "C" locale: space, \t, \n, \v, \f, \r *)
Definition is_space (c : ascii) : bool := (code c =? 32) || ((9 <=? code c) && (code c <=? 13)).
Fixpoint skip_space (s : text) : text := match s with c :: r => if is_space c then skip_space r else s | [] => [] end.
Fixpoint take_digits (s : text) : list Z * text :=
  match s with c :: r => if is_digit c then let '(ds, t) := take_digits r in (code c - 48 :: ds, t) else ([], s) | [] => ([], []) end.
Definition digits_value (ds : list Z) : Z := fold_left (fun a d => 10 * a + d) ds 0.
(** optional sign: (negative, rest) *)
Definition take_sign (s : text) : bool * text :=
  match s with c :: r => if Ascii.eqb c "-" then (true, r) else if Ascii.eqb c "+" then (false, r) else (false, s) | [] => (false, []) end.
Definition signed (neg : bool) (v : Z) : Z := if neg then - v else v.

(** C 7.22.1.2 std::atoi: undefined behaviour if the value is not an int (32 bits) *)
Definition atoi (s : text) : outcome Z :=
  let '(neg, t) := take_sign (skip_space (cstr s)) in
  let v := signed neg (digits_value (fst (take_digits t))) in
  if (- 2 ^ 31 <=? v) && (v <? 2 ^ 31) then Ok v else UB.
(** conversion to an integer type of [bits] bits *)
Definition cast_int (sgn : bool) (bits : Z) (v : Z) : Z :=
  if sgn then (v + 2 ^ (bits - 1)) mod 2 ^ bits - 2 ^ (bits - 1) else v mod 2 ^ bits.
(** io.hpp:60-61  to_number<T> for an integral type: static_cast<T>(std::atoi(str)) *)
Definition to_number_int (sgn : bool) (bits : Z) (str : text) : outcome Z := do v <- atoi str; Ok (cast_int sgn bits v).

Definition pow10 (e : Z) : Q := (10 # 1) ^ e.
(** [digits] [. [digits]] [(e|E) [sign] digits] from the mantissa on: (mantissa digits, exponent of ten, rest, complete).  As in strtod the
    exponent part is only taken when it has a digit; [complete] tells whether a scanf directive, which has by then consumed an exponent mark
    without digits, would match. *)
Definition take_frac (s : text) : list Z * text := match s with c :: r => if Ascii.eqb c "." then take_digits r else ([], s) | [] => ([], []) end.
Definition take_exp (s : text) : Z * text * bool :=
  match s with
  | c :: r => if Ascii.eqb c "e" || Ascii.eqb c "E" then
                let '(neg, t) := take_sign r in
                let '(ds, u) := take_digits t in
                match ds with [] => (0, s, false) | _ => (signed neg (digits_value ds), u, true) end
              else (0, s, true)
  | [] => (0, s, true)
  end.
Definition scan_decimal (s : text) : option (Q * text * bool) :=
  let '(neg, s) := take_sign (skip_space s) in
  let '(ip, s) := take_digits s in
  let '(fp, s) := take_frac s in
  match ip ++ fp with
  | [] => None
  | ds => let '(e, s, complete) := take_exp s in
          Some (inject_Z (signed neg (digits_value ds)) * pow10 (e - Z.of_nat (length fp)), s, complete)%Q
  end.
(** C 7.22.1.1 std::atof: 0 if there is no number *)
Definition atof (s : text) : Q := match scan_decimal (cstr s) with Some (v, _, _) => v | None => 0%Q end.
(** io.hpp:58-59  to_number<T> for a floating-point type *)
Definition to_number_double (str : text) : outcome Q := Ok (atof str).

(** io.hpp:62-74  to_number<std::complex<T>>: sscanf(str, "%lf+%lfj", &x, &y) > 0.  [Ok None] is complex(nan, nan).  If only x is converted, y is
    read uninitialised; if T is not double, %lf stores a double in a T object: undefined behaviour. *)
Definition scanf_double (s : text) : option (Q * text) :=
  match scan_decimal s with Some (v, r, true) => Some (v, r) | _ => None end.
Definition to_number_complex (is_double : bool) (str : text) : outcome (option (Q * Q)) :=
  match scanf_double (cstr str) with
  | None => Ok None
  | Some (x, r) =>
    if is_double then
      match r with
      | c :: r => if Ascii.eqb c "+" then match scanf_double r with Some (y, _) => Ok (Some (x, y)) | None => UB end else UB
      | [] => UB
      end
    else UB
  end.
(** io.hpp:75-76  to_number<std::string>: T{str} *)
Definition to_number_string (str : text) : outcome text := Ok (cstr str).

(** ** Output *)
Definition digit_char (d : Z) : ascii := ascii_of_nat (Z.to_nat (d + 48)).
Fixpoint digits_rev (fuel : nat) (n : Z) : list Z :=
  match fuel with O => [] | S f => if n <? 10 then [n] else n mod 10 :: digits_rev f (n / 10) end.
(** decimal digits of a natural number (n has at most log2 n + 1 of them) *)
Definition decimal_digits (n : Z) : list Z := rev (digits_rev (S (Z.to_nat (Z.log2 n))) n).
(** operator<<(std::ostream &, int) *)
Definition print_int (n : Z) : text := (if n <? 0 then ["-"%char] else []) ++ map digit_char (decimal_digits (Z.abs n)).

(** the integer nearest to q, ties to even *)
Definition round_half_even (q : Q) : Z :=
  let f := Qnum q / Zpos (Qden q) in
  let r := 2 * (Qnum q - f * Zpos (Qden q)) in
  if r <? Zpos (Qden q) then f else if r =? Zpos (Qden q) then (if Z.even f then f else f + 1) else f + 1.
(** std::to_string(double) is "%f": six decimals *)
Definition print_f6 (x : Q) : text :=
  let n := round_half_even (Qabs.Qabs x * inject_Z 1000000) in
  (if Qlt_le_dec x 0 then ["-"%char] else []) ++
  map digit_char (decimal_digits (n / 1000000)) ++ ["."%char] ++
  map digit_char (rev (map (fun k => (n / 10 ^ Z.of_nat k) mod 10) (seq 0 6))).
(** io.hpp:546-553  detail::format of a complex number *)
Definition format_complex (z : Q * Q) : text := print_f6 (fst z) ++ ["+"%char] ++ print_f6 (snd z) ++ ["j"%char].

(** io.hpp:290-296  fromstring<DataType>(const std::string &, ...): forwards to fromstring<double>; a converter whose std::any does not hold a double
    makes any_cast<double> throw ([converters] return a non-double [V]). *)
Definition fromstring_string {V : Type} (to_number : text -> outcome V) (str : text) (sep : ascii) (converters : list (Z * (text -> outcome V)))
  : outcome (list Q) :=
  fromstring to_number_double str sep (map (fun '(k, f) => (k, fun t => do _ <- f t; Throw)) converters).
