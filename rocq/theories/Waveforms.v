(** Model of scicpp/signal/waveforms.hpp.  Element type: the real numbers (rounding is not modelled, pi<T> is PI); only the returned array of
    [sawtooth] and [sweep_poly] is modelled (what map does to an lvalue argument is in Functional.v). *)
From Coq Require Import ZArith Reals.
From Verif Require Import Base Functional Polynomial PolyReal.
Open Scope nat_scope.
Set Implicit Arguments.

Section Impulse.
Context {T : Type}.
Variables (zero one : T).
(** waveforms.hpp:26-35  unit_impulse<T, N>(idx): a value-initialised std::array, res[idx] = T(1) if idx < N *)
Definition unit_impulse_array (N idx : nat) : outcome (list T) :=
  let res := repeat zero N in if idx <? N then set_ub res idx one else Ok res.
(** waveforms.hpp:37-46  unit_impulse<T>(len, idx) *)
Definition unit_impulse (len idx : nat) : outcome (list T) :=
  let res := repeat zero len in if idx <? len then set_ub res idx one else Ok res.
End Impulse.

(** C 7.12.10.1 (std::fmod): x - n * y for the integer n obtained by truncating x / y towards zero. *)
Definition Rtrunc (x : R) : Z := if Rle_dec 0 x then Int_part x else Z.opp (Int_part (- x)).
Definition fmod (x y : R) : R := (x - IZR (Rtrunc (x / y)) * y)%R.

Definition rltb (x y : R) : bool := if Rlt_dec x y then true else false.
Definition rleb (x y : R) : bool := if Rle_dec x y then true else false.

(** waveforms.hpp:58-68  the lambda of sawtooth *)
Definition sawtooth_at (width t_ : R) : outcome R :=
  let tmod := fmod t_ (2 * PI) in
  if rltb tmod (width * 2 * PI) then require (rltb 0 width) (Ok (tmod / (width * PI) - 1)%R)
  else require (rltb width 1) (Ok ((width + 1 - tmod / PI) / (1 - width))%R).
(** map with a lambda that may abort: the first failing element decides *)
Fixpoint map_out {A B} (f : A -> outcome B) (a : list A) : outcome (list B) :=
  match a with [] => Ok [] | x :: r => do y <- f x; do ys <- map_out f r; Ok (y :: ys) end.
(** waveforms.hpp:52-70  sawtooth(t, width) *)
Definition sawtooth (t : list R) (width : R) : outcome (list R) :=
  require (rleb 0 width && rleb width 1) (map_out (sawtooth_at width) t).

(** waveforms.hpp:79-91  sweep_poly(t, poly, phi) for a std::vector polynomial: cos(2 pi * polyval(t, polyint(poly)) + phi), angles in
    radians (units::radian has scale 1, so the quantity arithmetic is the arithmetic of the values). *)
Definition sweep_poly (t poly : list R) (phi : R) : outcome (list R) :=
  do ip <- rpolyint poly 1; Ok (transform1 (fun a => cos a) (transform1 (fun y => (2 * PI * y + phi)%R) (transform1 (fun v => rpolyval v ip) t))).
