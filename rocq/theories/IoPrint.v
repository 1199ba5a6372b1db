(** Model of operator<<(std::ostream &, double) as used by savetxt (scicpp/core/io.hpp:531-541 and 569-583): the default format of an output stream,
    printf's "%g" with precision 6 ([facet.num.put.virtuals], C 7.21.6.1): no fixed or scientific flag, six significant digits, trailing zeros
    removed.  Doubles are exact rationals; infinities, NaN and the sign of a zero are not modelled.
    Also TxtSaver (scicpp/core/io.hpp:587-611). *)
From Coq Require Import ZArith QArith Qabs Ascii.
From Verif Require Import Base Io IoNumber.
Open Scope Z_scope.
Set Implicit Arguments.

(** the exponent e of q = d.ddd * 10^e, for q > 0 *)
Definition log10_floor (q : Q) : Z :=
  let n := Qnum q in let d := Zpos (Qden q) in
  if d <=? n then Z.of_nat (length (decimal_digits (n / d))) - 1 else - Z.of_nat (length (decimal_digits ((d - 1) / n))).
Fixpoint drop_zeros (ds : list Z) : list Z := match ds with d :: r => if d =? 0 then drop_zeros r else ds | [] => [] end.
Definition strip_zeros (ds : list Z) : list Z := rev (drop_zeros (rev ds)).
Definition digits_text (ds : list Z) : text := map digit_char ds.
Definition frac_text (ds : list Z) : text := match ds with [] => [] | _ => "."%char :: digits_text ds end.
(** the k last decimal digits of n *)
Definition last_digits (k : nat) (n : Z) : list Z := rev (map (fun i => (n / 10 ^ Z.of_nat i) mod 10) (seq 0 k)).
(** six significant digits: q is printed as m * 10^(e - 5), 10^5 <= m < 10^6 *)
Definition six_digits (q : Q) : Z * Z :=
  let e := log10_floor q in
  let m := round_half_even (q * pow10 (5 - e)) in
  if m =? 10 ^ 6 then (10 ^ 5, e + 1) else (m, e).
Definition exp_text (e : Z) : text :=
  ["e"%char; if e <? 0 then "-"%char else "+"%char] ++ digits_text (if Z.abs e <? 10 then [0; Z.abs e] else decimal_digits (Z.abs e)).
Definition print_double (x : Q) : text :=
  if Qeq_bool x 0 then ["0"%char]
  else
    let '(m, e) := six_digits (Qabs x) in
    let ds := last_digits 6 m in
    (if Qlt_le_dec x 0 then ["-"%char] else []) ++
    (if (-4 <=? e) && (e <? 6) then
       if 0 <=? e then let k := Z.to_nat (e + 1) in digits_text (firstn k ds) ++ frac_text (strip_zeros (skipn k ds))
       else ["0"%char] ++ frac_text (strip_zeros (repeat 0 (Z.to_nat (- e - 1)) ++ ds))
     else digits_text (firstn 1 ds) ++ frac_text (strip_zeros (skipn 1 ds)) ++ exp_text e).

(** io.hpp:587-611  TxtSaver: setters change the object and return a copy *)
Record saver := Saver { s_delimiter : ascii; s_newline : ascii }.
Definition default_saver : saver := Saver " "%char newline.
Definition set_delimiter (c : ascii) (o : saver) : saver := Saver c (s_newline o).
Definition set_newline (c : ascii) (o : saver) : saver := Saver (s_delimiter o) c.
(** io.hpp:602-604 *)
Definition save {V} (puts : list (V -> text)) (o : saver) (X : list (list V)) : outcome text := savetxt_tuple puts X (s_delimiter o) (s_newline o).
