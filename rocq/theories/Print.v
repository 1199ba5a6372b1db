(** Model of scicpp/core/print.hpp: print and array2string.
    Text is a list of characters.  Doubles are idealised floating-point numbers (exact rationals, infinities, NaN; the sign of a zero is not
    modelled).  The conversions of std::ostream are printf's "%.*f" (std::fixed) and "%.*e" (std::scientific), correctly rounded, ties to even;
    std::setw pads on the left with spaces and only affects the next insertion.  [precision] is a natural number, [int] positions do not overflow. *)
From Coq Require Import ZArith QArith Qabs Ascii String.
From Verif Require Import Base BaseFl Functional Stats Io IoNumber IoPrint.
Open Scope Z_scope.
Set Implicit Arguments.

Definition tx (s : string) : text := list_ascii_of_string s.

(** print.hpp:27-43 *)
Record print_options := PrintOptions {
  separator : text; precision : nat; threshold : nat; linewidth : Z; edgeitems : nat; suppress : bool; nanstr : text; infstr : text }.
Definition default_options : print_options :=
  {| separator := tx " "; precision := 8; threshold := 1000; linewidth := 75; edgeitems := 3; suppress := false; nanstr := tx "nan"; infstr := tx "inf" |}.

(** ** Number formats of std::ostream *)
Definition sign_of (x : Q) : text := if Qlt_le_dec x 0 then ["-"%char] else [].
(** the point is only written when there are decimals *)
Definition point_text (ds : list Z) : text := match ds with [] => [] | _ => "."%char :: digits_text ds end.
(** std::fixed << setprecision(p): "%.pf" *)
Definition put_fixed (p : nat) (x : Q) : text :=
  let n := round_half_even (Qabs x * pow10 (Z.of_nat p)) in
  sign_of x ++ digits_text (decimal_digits (n / 10 ^ Z.of_nat p)) ++ point_text (last_digits p n).
(** p + 1 significant digits: q is printed as m * 10^(e - p), 10^p <= m < 10^(p+1) *)
Definition sig_digits (p : nat) (q : Q) : Z * Z :=
  let e := log10_floor q in
  let m := round_half_even (q * pow10 (Z.of_nat p - e)) in
  if m =? 10 ^ (Z.of_nat p + 1) then (10 ^ Z.of_nat p, e + 1) else (m, e).
(** std::scientific << setprecision(p): "%.pe" *)
Definition put_scientific (p : nat) (x : Q) : text :=
  if Qeq_bool x 0 then ["0"%char] ++ point_text (repeat 0 p) ++ exp_text 0
  else
    let '(m, e) := sig_digits p (Qabs x) in
    let ds := last_digits (S p) m in
    sign_of x ++ digits_text (firstn 1 ds) ++ point_text (skipn 1 ds) ++ exp_text e.
(** std::setw(w), default alignment (right), fill ' ' *)
Definition pad (w : Z) (s : text) : text := repeat " "%char (Z.to_nat (w - Z.of_nat (List.length s))) ++ s.

(** ** detail::ElementFormater (print.hpp:47-147) *)
(** print.hpp:103-116; [w] is the width pending in the stream: only the first insertion uses it *)
Definition put_real (o : print_options) (fixed : bool) (w : Z) (v : fl) : text :=
  match v with
  | NaN => pad w (nanstr o)
  | NInf => pad w ["-"%char] ++ infstr o
  | PInf => pad w (infstr o)
  | Fin q => pad w (if fixed then put_fixed (precision o) (this q) else put_scientific (precision o) (this q))
  end.
(** the same for an int *)
Definition put_int (w : Z) (n : Z) : text := pad w (print_int n).
(** print.hpp:80-86 (negative zero not modelled) *)
Definition is_negative (v : fl) : bool := flt v f0.
(** print.hpp:88-101 *)
Definition put_complex (o : print_options) (fixed : bool) (w : Z) (z : fl * fl) : text :=
  put_real o fixed w (fst z) ++
  (if is_negative (snd z) then ["-"%char] ++ put_real o fixed 0 (fneg (snd z)) else ["+"%char] ++ put_real o fixed 0 (snd z)) ++ ["j"%char].
(** elements of a tuple: int or double *)
Inductive item := IInt (n : Z) | IReal (v : fl).
Definition put_item (o : print_options) (fixed : bool) (i : item) : text :=
  match i with IInt n => put_int 0 n | IReal v => put_real o fixed 0 v end.
(** print.hpp:68-78; no width for a std::tuple (get_width returns -1, reset() skips setw) *)
Fixpoint put_items (o : print_options) (fixed : bool) (t : list item) : text :=
  match t with
  | [] => []
  | [i] => put_item o fixed i
  | i :: r => put_item o fixed i ++ tx ", " ++ put_items o fixed r
  end.
Definition put_tuple (o : print_options) (fixed : bool) (t : list item) : text := tx "(" ++ put_items o fixed t ++ tx ")".
(** print.hpp:132-137: the zeros at the end of the text become spaces; find_last_not_of returns npos (+ 1 = 0) if there is nothing else *)
Fixpoint blank_zeros_rev (s : text) : text :=
  match s with c :: r => if Ascii.eqb c "0" then " "%char :: blank_zeros_rev r else s | [] => [] end.
Definition remove_trailling_zeros (s : text) : text := if list_eq_dec ascii_dec s ["0"%char] then s else rev (blank_zeros_rev (rev s)).
(** print.hpp:118-130, 139-147: print_element then str() *)
Definition element_str (fixed : bool) (put : text) : text := if fixed then remove_trailling_zeros put else put.

(** ** use_scientific_notation (print.hpp:177-208) and get_width (156-174) per element type *)
(** the double nearest to 1e-4 *)
Definition c1em4 : Qc := Q2Qc (7378697629483821 # (2 ^ 66)).
(** print.hpp:191-206, max/min computed without rounding *)
Definition sci_real (a : list fl) : bool :=
  let f := filter_scicpp (map fabs_fl a) (fun x => negb (feq x f0) && negb (match x with PInf | NInf => true | _ => false end)) in
  match f with
  | [] => false
  | _ => let mn := amin NaN flt f in let mx := amax NaN flt f in flt mn (Fin c1em4) || flt (Fin (qz 1000)) (fdiv mx mn)
  end.
(** an element type: its notation test, width and conversion *)
Record printable (T : Type) := Printable {
  scientific : list T -> bool; width : bool -> Z; put : print_options -> bool -> Z -> T -> text }.
Definition print_ints : printable Z := Printable (fun _ => false) (fun _ => 12) (fun _ _ w n => put_int w n).
Definition print_reals : printable fl := Printable sci_real (fun _ => 12) put_real.
Definition print_complexes : printable (fl * fl) :=
  Printable (fun a => sci_real (map fst a) || sci_real (map snd a)) (fun fixed => if fixed then 12 else 15) put_complex.
Definition print_tuples : printable (list item) := Printable (fun _ => true) (fun _ => -1) (fun o fixed _ t => put_tuple o fixed t).
(** a std::pair gets the width 12 (print.hpp:156-174 tests only for std::tuple), used up by the opening parenthesis *)
Definition print_pairs : printable (item * item) :=
  Printable (fun _ => true) (fun _ => 12) (fun o fixed w t => pad w (tx "(") ++ put_items o fixed [fst t; snd t] ++ tx ")").

Section Print.
Context {T : Type} (K : printable T).

(** print.hpp:216-244: the texts of the elements are [strs], the first one follows [sep0] (empty); result: output and final position *)
Fixpoint print_elements (sep0 : text) (o : print_options) (strs : list text) (pos : Z) : text * Z :=
  match strs with
  | [] => ([], pos)
  | s :: r =>
    let pos := pos + Z.of_nat (List.length sep0) + Z.of_nat (List.length s) in
    let '(out, pos) := if linewidth o <=? pos then (newline :: " "%char :: s, 1 + Z.of_nat (List.length s)) else (s, pos) in
    let '(t, p) := print_elements (separator o) o r pos in
    (cstr sep0 ++ out ++ t, p)
  end.
Definition print_array_elements (o : print_options) (fixed : bool) (a : list T) (pos : Z) : text * Z :=
  print_elements [] o (map (fun x => element_str fixed (put K o fixed (width K fixed) x)) a) pos.

(** print.hpp:248-286, 310-316: the text written by print, returned by array2string *)
Definition array2string (o : print_options) (a : list T) : outcome text :=
  match a with
  | [] => Ok (tx "[]" ++ [newline])
  | _ =>
    if (List.length a <=? threshold o)%nat then
      let fixed := suppress o || negb (scientific K a) in
      Ok (tx "[" ++ fst (print_array_elements o fixed a 1) ++ tx "]" ++ [newline])
    else
      require (2 * edgeitems o <? List.length a)%nat
        (let e0 := firstn (edgeitems o) a in
         let e1 := skipn (List.length a - edgeitems o) a in
         let sci := scientific K e0 || scientific K e1 in
         let fixed := suppress o || negb sci in
         let '(t0, pos) := print_array_elements o fixed e0 1 in
         let pos := pos + 3 + 2 * Z.of_nat (List.length (separator o)) in
         let t1 := fst (print_array_elements o fixed e1 pos) in
         Ok (tx "[" ++ t0 ++ separator o ++ tx "..." ++ separator o ++ t1 ++ tx "]" ++ [newline]))
  end.
End Print.

(** print.hpp:288-297, scalar branch.  The formatter keeps a reference to the temporary PrintOptions{}, destroyed at the end of that statement;
    printing a finite number does not use it, NaN and infinities read nanstr/infstr of the destroyed object: undefined behaviour. *)
Definition print_scalar (v : fl) : outcome text :=
  match v with
  | Fin _ => Ok (put_real default_options false 12 v ++ [newline])
  | _ => UB
  end.
