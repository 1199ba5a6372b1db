(** Model of scicpp/signal/windows.hpp, over an arbitrary element type and arbitrary arithmetic. *)
From Coq Require Import ZArith.
From Verif Require Import Base Functional Numeric.
Open Scope nat_scope.
Set Implicit Arguments.

(** The operations of the element type T that the header uses ([w_of] is the conversion T(n) of an integer,
    [w_trunc] the conversion of a T to signed_size_t, [w_num n d] the literal n/d). *)
Record wops (T : Type) := {
  w_of : Z -> T; w_num : Z -> Z -> T;
  w_add : T -> T -> T; w_sub : T -> T -> T; w_mul : T -> T -> T; w_div : T -> T -> T; w_opp : T -> T; w_abs : T -> T;
  w_fma : T -> T -> T -> T;
  w_cos : T -> T; w_sin : T -> T; w_exp : T -> T; w_sqrt : T -> T; w_pow : T -> T -> T; w_bessel_i0 : T -> T; w_pi : T;
  w_le : T -> T -> bool; w_iszero : T -> bool; w_trunc : T -> Z }.

Inductive symmetry := Symmetric | Periodic.

Section Filler.
Context {T : Type}.
(** std::reverse_copy(w + half, w + last, w + d): *d++ = *--last, [cnt] elements.  (For an odd size source and destination
    share the middle element, which the standard does not allow; the loop below is what implementations run.) *)
Fixpoint reverse_copy_loop (w : list T) (last d cnt : nat) : outcome (list T) :=
  match cnt with
  | O => Ok w
  | S k => do x <- at_ub w (last - 1); do w' <- set_ub w d x; reverse_copy_loop w' (last - 1) (S d) k
  end.
(** windows.hpp:31-37.  The indices stored by std::iota are taken as exact integers. *)
Definition symmetric_filler (w : list T) (f : nat -> T) : outcome (list T) :=
  let half_len := length w / 2 in
  let w1 := firstn half_len w ++ transform1 f (seq half_len (length w - half_len)) in
  reverse_copy_loop w1 (length w) 0 (length w - half_len).
(** windows.hpp:39-64: array (the first M elements of the M+1 array, by reinterpret_cast) and vector (resize) versions *)
Definition build_window (zero : T) (sym : symmetry) (M : nat) (f : list T -> outcome (list T)) : outcome (list T) :=
  match sym with
  | Symmetric => f (repeat zero M)
  | Periodic => do w <- f (repeat zero (S M)); Ok (firstn M w)
  end.
End Filler.

Section Windows.
Context {T : Type} (o : wops T).
Notation "x [+] y" := (w_add o x y) (at level 50, left associativity).
Notation "x [-] y" := (w_sub o x y) (at level 50, left associativity).
Notation "x [*] y" := (w_mul o x y) (at level 40, left associativity).
Notation "x [/] y" := (w_div o x y) (at level 40, left associativity).
Notation cst := (w_of o).
Notation tn n := (w_of o (Z.of_nat n)).

(** windows.hpp:71-79 *)
Definition boxcar (M : nat) : outcome (list T) := Ok (repeat (cst 1) M).
(** windows.hpp:84-89.  w.size() - 1 is written length w - 1 (for an empty window it is not used). *)
Definition bartlett_filler (w : list T) : outcome (list T) :=
  let scaling := w_opp o (cst 2) [/] tn (length w - 1) in
  symmetric_filler w (fun i => w_fma o scaling (tn i) (cst 2)).
(** windows.hpp:111-119 *)
Definition cosine_filler (w : list T) : outcome (list T) :=
  if length w =? 0 then Ok w else
  let scaling := w_pi o [/] tn (length w) in
  symmetric_filler w (fun i => w_sin o (scaling [*] (tn i [+] w_num o 1 2))).
(** windows.hpp:137-148 *)
Definition bohman_filler (w : list T) : outcome (list T) :=
  if length w =? 0 then Ok w else
  let step := cst 2 [/] tn (length w - 1) in
  symmetric_filler w (fun i =>
    let x := tn i [*] step [-] cst 1 in
    (cst 1 [-] x) [*] w_cos o (w_pi o [*] x) [+] w_sin o (w_pi o [*] x) [/] w_pi o).
(** windows.hpp:170-189: the loop over the weights *)
Fixpoint cosine_terms (scaling : T) (i j : nat) (a : list T) (sign tmp : T) : T :=
  match a with
  | [] => tmp
  | c :: r => let sign' := sign [*] w_opp o (cst 1) in
              cosine_terms scaling i (S j) r sign' (tmp [+] sign' [*] c [*] w_cos o (scaling [*] tn (i * j)))
  end.
Definition general_cosine_filler (a : list T) (w : list T) : outcome (list T) :=
  let scaling := cst 2 [*] w_pi o [/] tn (length w - 1) in
  symmetric_filler w (fun i => cosine_terms scaling i 0 a (w_opp o (cst 1)) (cst 0)).
(** windows.hpp:292-302 *)
Definition center (n : nat) : T :=
  let shift := if (n mod 2 =? 0) then w_num o 1 2 else cst 0 in tn (n / 2) [-] shift.
Definition gaussian_filler (sigma : T) (w : list T) : outcome (list T) :=
  let i0 := center (length w) in
  let scaling := w_opp o (cst 1) [/] (cst 2 [*] sigma [*] sigma) in
  symmetric_filler w (fun i => let n := tn i [-] i0 in w_exp o (scaling [*] n [*] n)).
(** windows.hpp:324-333 *)
Definition general_gaussian_filler (p sigma : T) (w : list T) : outcome (list T) :=
  let i0 := center (length w) in
  symmetric_filler w (fun i => let n := tn i [-] i0 in
    w_exp o (w_opp o (w_num o 1 2) [*] w_pow o (n [/] sigma) (cst 2 [*] p))).
(** windows.hpp:355-367 *)
Definition kaiser_filler (beta : T) (w : list T) : outcome (list T) :=
  require (w_le o (cst 0) beta)
    (let alpha := w_num o 1 2 [*] tn (length w - 1) in
     let i0_beta := w_bessel_i0 o beta in
     symmetric_filler w (fun i => let r := (tn i [-] alpha) [/] alpha in
       w_bessel_i0 o (beta [*] w_sqrt o (cst 1 [-] r [*] r)) [/] i0_beta)).
(** windows.hpp:388-408 *)
Definition parzen_filler (w : list T) : outcome (list T) :=
  let N := Z.of_nat (length w) in
  symmetric_filler w (fun i =>
    let n := (Z.of_nat i - Z.quot (N - 1) 2)%Z in
    let nabs := if (0 <=? n)%Z then n else (- n)%Z in
    let i0 := center (length w) in
    let A := cst 2 [*] w_abs o (tn i [-] i0) [/] tn (length w) in
    let B := cst 1 [-] A in
    if (nabs <=? Z.quot N 4)%Z then cst 1 [-] cst 6 [*] A [*] A [*] B else cst 2 [*] B [*] B [*] B).
(** core/units/maths.hpp:222-232 *)
Definition sinc (x : T) : T := if w_iszero o x then cst 1 else w_sin o (w_pi o [*] x) [/] (w_pi o [*] x).
(** windows.hpp:429-434 *)
Definition lanczos_filler (w : list T) : outcome (list T) :=
  symmetric_filler w (fun i => sinc (cst 1 [-] tn (2 * i) [/] tn (length w - 1))).
(** windows.hpp:456-475 *)
Definition tukey_filler (alpha : T) (w : list T) : outcome (list T) :=
  let N := Z.of_nat (length w) in
  let width0 := w_trunc o ((cst 1 [-] alpha) [*] cst (Z.quot N 2)) in
  let width := if ((Z.rem N 2 =? 0) && (width0 =? 0))%Z then 1%Z else width0 in
  symmetric_filler w (fun i =>
    let n := (Z.of_nat i - Z.quot (N - 1) 2)%Z in
    if (n <=? width)%Z then cst 1
    else let A := cst 2 [/] alpha in
         w_num o 1 2 [*] (cst 1 [+] w_cos o (w_pi o [*] (cst 1 [-] A [+] A [*] tn i [/] cst (N - 1))))).

(** The window families of the header. *)
Inductive family :=
| Boxcar | Bartlett | Cosine | Bohman | GeneralCosine (a : list T) | GeneralHamming (alpha : T) | Hann | Hamming | Blackman | Nuttall
| BlackmanHarris | Flattop | Gaussian (sigma : T) | GeneralGaussian (p sigma : T) | Kaiser (beta : T) | Parzen | Lanczos | Tukey (alpha : T).

(** windows.hpp:193-285: the cosine-sum windows *)
Definition general_cosine (sym : symmetry) (M : nat) (a : list T) := build_window (cst 0) sym M (general_cosine_filler a).
Definition general_hamming (sym : symmetry) (M : nat) (alpha : T) := general_cosine sym M [alpha; cst 1 [-] alpha].
Definition hann (sym : symmetry) (M : nat) := general_hamming sym M (w_num o 1 2).
(** windows.hpp:91-507: every constructor (vector and array versions build the same values).
    The tukey functions call boxcar(M) and hann(M) without the symmetry argument. *)
Definition window (fam : family) (sym : symmetry) (M : nat) : outcome (list T) :=
  match fam with
  | Boxcar => boxcar M
  | Bartlett => build_window (cst 0) sym M bartlett_filler
  | Cosine => build_window (cst 0) sym M cosine_filler
  | Bohman => build_window (cst 0) sym M bohman_filler
  | GeneralCosine a => general_cosine sym M a
  | GeneralHamming alpha => general_hamming sym M alpha
  | Hann => hann sym M
  | Hamming => general_hamming sym M (w_num o 54 100)
  | Blackman => general_cosine sym M [w_num o 42 100; w_num o 50 100; w_num o 8 100]
  | Nuttall => general_cosine sym M [w_num o 3635819 10000000; w_num o 4891775 10000000; w_num o 1365995 10000000; w_num o 106411 10000000]
  | BlackmanHarris => general_cosine sym M [w_num o 35875 100000; w_num o 48829 100000; w_num o 14128 100000; w_num o 1168 100000]
  | Flattop => general_cosine sym M [w_num o 21557895 100000000; w_num o 41663158 100000000; w_num o 277263158 1000000000;
                                     w_num o 83578947 1000000000; w_num o 6947368 1000000000]
  | Gaussian sigma => build_window (cst 0) sym M (gaussian_filler sigma)
  | GeneralGaussian p sigma => build_window (cst 0) sym M (general_gaussian_filler p sigma)
  | Kaiser beta => build_window (cst 0) sym M (kaiser_filler (w_abs o beta))
  | Parzen => build_window (cst 0) sym M parzen_filler
  | Lanczos => build_window (cst 0) sym M lanczos_filler
  | Tukey alpha => if w_le o alpha (cst 0) then boxcar M
                   else if w_le o (cst 1) alpha then hann Symmetric M
                   else build_window (cst 0) sym M (tukey_filler alpha)
  end.

(** windows.hpp:512-591 get_window: the enumerators in declaration order; any other value is unreachable *)
Definition get_window (win : nat) (N : nat) : outcome (list T) :=
  match nth_error [Boxcar; Bartlett; Cosine; Hann; Hamming; Blackman; Nuttall; BlackmanHarris; Flattop; Bohman; Parzen; Lanczos] win with
  | Some fam => window fam Symmetric N
  | None => RequireFail
  end.
End Windows.
Arguments Boxcar {T}. Arguments Bartlett {T}. Arguments Cosine {T}. Arguments Bohman {T}. Arguments Hann {T}. Arguments Hamming {T}.
Arguments Blackman {T}. Arguments Nuttall {T}. Arguments BlackmanHarris {T}. Arguments Flattop {T}. Arguments Parzen {T}. Arguments Lanczos {T}.

Section Utilities.
Context {T : Type}.
Variables (zero : T) (add mul div : T -> T -> T).
(** std::norm of a real number *)
Definition norm (x : T) : T := mul x x.
(** windows.hpp:595-599 *)
Definition s1 (w : list T) : T := norm (sum zero add false w).
(** windows.hpp:601-607 *)
Definition s2 (w : list T) : T := fst (reduce w (fun r v => add r (norm v)) zero).
(** windows.hpp:610-613 *)
Definition enbw (w : list T) (fs : T) : T := div (mul fs (s2 w)) (s1 w).
End Utilities.
