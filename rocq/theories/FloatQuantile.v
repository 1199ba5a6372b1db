(** Quantiles and medians computed in floating point: stats.hpp:97-139, 150-289 (exact model: Stats.v) with every operation rounded. Finite data. *)
From Coq Require Import List Arith ZArith Reals Bool.
From Flocq Require Import Core.
From Verif Require Import Base Functional Equal EqualFacts Stats FloatArith.
Import ListNotations.
Open Scope nat_scope.
Set Implicit Arguments.

Section Rounded.
Variable rnd : R -> R.
(** equal.hpp: almost_equal of two numbers of the format; nothing but [near x x = true] is used *)
Variable near : R -> R -> bool.
(** the value returned for an empty range (NaN) *)
Variable nan : R.
(** std::nth_element *)
Variable nth_element : nat -> list R -> list R.

(** stats.hpp:97-116 *)
Definition r_median (v : list R) : outcome R := median nan Rlt_bool (fl_add rnd) (fl_quot rnd) 2%R nth_element v.

(** stats.hpp:154-169 *)
Definition r_index (m : QuantileInterp) (h : R) : R :=
  match m with
  | LOWER => IZR (Zfloor h)
  | HIGHER => IZR (Zceil h)
  | NEAREST => IZR (ZnearestE h)
  | MIDPOINT => fl_mul rnd (/ 2)%R (fl_add rnd (IZR (Zfloor h)) (IZR (Zceil h)))
  | LINEAR => h
  end.
(** signed_size_t(h), h >= 0 *)
Definition r_trunc (h : R) : nat := Z.to_nat (Ztrunc h).
(** stats.hpp:172-203 *)
Definition r_quantile (m : QuantileInterp) (v : list R) (q : R) : outcome R :=
  require (Rle_bool 0 q && Rle_bool q 1)
    (let size := length v in
     if size =? 0 then Ok nan
     else if size =? 1 then at_ub v 0
     else
       let h0 := r_index m (fl_mul rnd q (fl_nat rnd (size - 1))) in
       if near (IZR (ZnearestE h0)) h0
       then let n0 := Nat.min (r_trunc h0) size in at_ub (nth_element n0 v) n0
       else let h_low := r_trunc h0 in
            let n_high := Nat.min (h_low + 1) size in
            let v' := nth_element n_high v in
            match firstn n_high v' with
            | [] => UB
            | x :: r => do x_high <- at_ub v' n_high;
                        Ok (lerp_rounded rnd (max_element Rlt_bool x r) x_high (fl_sub rnd h0 (INR h_low)))
            end).
(** stats.hpp:245-275: percentile: p / 100. *)
Definition r_percentile (m : QuantileInterp) (v : list R) (p : R) : outcome R := r_quantile m v (fl_quot rnd p 100%R).
(** stats.hpp:284-289: iqr(const Array &): the two percentiles of copies of f *)
Definition r_iqr (m : QuantileInterp) (v : list R) (rng0 rng1 : R) : outcome R :=
  do pct0 <- r_percentile m v rng0; do pct1 <- r_percentile m v rng1; Ok (fl_sub rnd pct1 pct0).
End Rounded.
