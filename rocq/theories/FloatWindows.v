(** signal/windows.hpp computed in one floating-point type: the operations of Windows.v rounded. *)
From Coq Require Import List ZArith Reals.
From Verif Require Import Base Windows WindowsReal.
Open Scope R_scope.

Section Ops.
Variables (rnd : R -> R) (sinl cosl expl I0l : R -> R) (powl : R -> R -> R).
(** The operations signal/windows.hpp:82-507 uses on T, for a T whose arithmetic rounds by [rnd]: conversions T(n) of integers and literals are rounded,
    pi<T> (core/constants.hpp:16-17) is the rounded constant, std::fma (windows.hpp:88) rounds once, negation and std::fabs are exact, std::sqrt is correctly
    rounded; [sinl], [cosl], [expl], [powl], [I0l] are the functions of the mathematical library.  Not modelled: the float instances of cosine (windows.hpp:117) and
    general_gaussian (windows.hpp:331), whose literals 0.5 are doubles, so that part of the computation runs in double. *)
Definition fl_wops : wops R := {|
  w_of := (fun z => rnd (IZR z)); w_num := (fun n d => rnd (IZR n / IZR d));
  w_add := (fun a b => rnd (a + b)); w_sub := (fun a b => rnd (a - b)); w_mul := (fun a b => rnd (a * b)); w_div := (fun a b => rnd (a / b));
  w_opp := Ropp; w_abs := Rabs; w_fma := (fun a b c => rnd (a * b + c));
  w_cos := cosl; w_sin := sinl; w_exp := expl; w_sqrt := (fun x => rnd (sqrt x)); w_pow := powl; w_bessel_i0 := I0l; w_pi := rnd PI;
  w_le := (fun a b => if Rle_dec a b then true else false); w_iszero := (fun x => if Req_EM_T x 0 then true else false); w_trunc := rtrunc |}.
End Ops.
