(** Specification of the spectral estimates (Welch's method): averaged modified periodograms of the detrended, windowed segments. *)
From Coq Require Import ZArith Reals.
From Verif Require Import Base Spec CplxR Spectral.
Open Scope nat_scope.

(** ** specification: bins of the detrended, windowed segment *)
(** mean of the samples s 0 .. s (N-1) *)
Definition smean (s : nat -> cx) (N : nat) : cx := xscale (/ INR N)%R (xsum s N).
(** bin m of the DFT of w[k] (s k - mean), k = 0 .. N-1 *)
Definition bin (w : list R) (s : nat -> cx) (m : nat) : cx :=
  xsum (fun k => xmul (xscale (nth k w 0%R) (xsub (s k) (smean s (length w)))) (root (length w) (Z.of_nat k * Z.of_nat m))) (length w).

(** the detrended windowed samples of a segment *)
Definition windowed (w : list R) (s : nat -> cx) (k : nat) : cx := xscale (nth k w 0%R) (xsub (s k) (smean s (length w))).
(** the object is usable: what the setters guarantee, plus an overlap smaller than the segment *)
Record valid (c : config) : Prop := {
  v_nperseg : c_nperseg c = Z.of_nat (length (c_window c));
  v_window : c_window c <> [];
  v_overlap : (c_noverlap c < c_nperseg c)%Z;
  v_s1 : c_s1 c = (bigop Rplus 0 (c_window c) * bigop Rplus 0 (c_window c))%R;
  v_s2 : c_s2 c = bigop Rplus 0%R (map (fun x => x * x)%R (c_window c)) }.
Definition step_of (c : config) : nat := Z.to_nat (c_nperseg c - c_noverlap c).
(** number of segments of a signal of n samples *)
Definition nsegs (c : config) (n : nat) : nat := 1 + (n - length (c_window c)) / step_of c.
Section Gen.
Context {E : Type}.
Variables (zeroE : E) (emb : E -> cx).
(** sample k of segment i *)
Definition sample (c : config) (x : list E) (i k : nat) : cx := emb (nth (i * step_of c + k) x zeroE).
(** average over the segments *)
Definition psd_avg (c : config) (x : list E) (m : nat) : R :=
  (rsum (fun i => xnorm2 (bin (c_window c) (sample c x i) m)) (nsegs c (length x)) / INR (nsegs c (length x)))%R.
Definition csd_avg (c : config) (x y : list E) (m : nat) : cx :=
  xscale (/ INR (nsegs c (length x)))%R (xsum (fun i => xmul (xconj (bin (c_window c) (sample c x i) m)) (bin (c_window c) (sample c y i) m)) (nsegs c (length x))).
(** the signals, the shorter one extended with zeros to the length of the longer one *)
Definition padded (x : list E) (n : nat) : list E := x ++ repeat zeroE (n - length x).
End Gen.
(** factor of bin m of a one-sided spectrum over N points: 2 except for DC and the Nyquist bin of an even N *)
Definition onesided (N m : nat) : R := if (m =? 0) || ((N mod 2 =? 0) && (m =? N / 2)) then 1%R else 2%R.
Definition factor (c : config) (sc : scaling) : R := match sc with DENSITY => (/ (c_fs c * c_s2 c))%R | SPECTRUM => (/ c_s1 c)%R | NONE => 1%R end.
(** frequency of bin m: one-sided, two-sided *)
Definition freq_r (c : config) (m : nat) : R := (INR m * c_fs c / INR (length (c_window c)))%R.
Definition freq_c (c : config) (m : nat) : R :=
  let N := length (c_window c) in (IZR (if m <? (N + 1) / 2 then Z.of_nat m else Z.of_nat m - Z.of_nat N) * c_fs c / INR N)%R.
Notation rsample := (sample 0%R xre).
Notation csample := (sample x0 (fun z => z)).
Notation rpsd := (psd_avg 0%R xre).
Notation cpsd := (psd_avg x0 (fun z => z)).
Notation rcsd := (csd_avg 0%R xre).
Notation ccsd := (csd_avg x0 (fun z => z)).

(** ** objects a program can build: a default constructed Spectrum and any sequence of successful setter calls (periodogram also
    changes the object, by calling the noverlap setter) *)
Inductive configured (I0 : R -> R) : config -> Prop :=
| cf_default c : default_config I0 = Ok c -> configured I0 c
| cf_fs c fs c' : configured I0 c -> set_fs fs c = Ok c' -> configured I0 c'
| cf_noverlap c n c' : configured I0 c -> set_noverlap n c = Ok c' -> configured I0 c'
| cf_nthreads c n c' : configured I0 c -> set_nthreads n c = Ok c' -> configured I0 c'
| cf_window c w c' : configured I0 c -> set_window w c = Ok c' -> configured I0 c'
| cf_get_window c win N c' : configured I0 c -> set_get_window I0 win N c = Ok c' -> configured I0 c'
| cf_periodogram c sc x c' r : configured I0 c -> periodogram_r c sc x (Ok (c', r)) -> configured I0 c'.
(** the same object with another number of threads *)
Definition with_threads (n : nat) (c : config) : config :=
  {| c_fs := c_fs c; c_window := c_window c; c_s1 := c_s1 c; c_s2 := c_s2 c; c_nperseg := c_nperseg c; c_dflt := c_dflt c; c_noverlap := c_noverlap c; c_nthreads := n |}.
