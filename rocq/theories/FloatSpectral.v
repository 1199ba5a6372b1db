(** Model of welch, csd, coherence and tfestimate of class Spectrum (scicpp/signal/spectral.hpp) in floating-point arithmetic: every operation after the
    Fourier transform of a segment is the exact one followed by a rounding [rnd] (no overflow).  The detrended, windowed and transformed segment
    (fftfunc(detrend(value(seg)) * m_window)) is an arbitrary function [spec] of the window and of the segment: whatever FFT code runs, it is deterministic.
    The two signals of csd may have different element types (a real and a complex one), with their own [spec1], [spec2].
    std::complex operations are those of GCC: operator* without the recovery of infinities, operator/ and operator* by a real number by component.
    Not modelled here: frequencies (return_freqs = false; see C78), units. *)
From Coq Require Import ZArith Reals.
From Verif Require Import Base Functional Numeric CplxR Polynomial Fft FftConv SpectralConc Spectral.
Open Scope nat_scope.
Set Implicit Arguments.

Section Fl.
Variable rnd : R -> R.
Definition fs_add (a b : R) : R := rnd (a + b).
Definition fs_mul (a b : R) : R := rnd (a * b).
Definition fs_div (a b : R) : R := rnd (a / b).
(** numeric.hpp norm: std::norm(z) = re * re + im * im *)
Definition fs_norm (z : cx) : R := rnd (rnd (fst z * fst z) + rnd (snd z * snd z)).
Definition fs_cadd (a b : cx) : cx := (rnd (fst a + fst b), rnd (snd a + snd b)).
Definition fs_cmul (a b : cx) : cx := (rnd (rnd (fst a * fst b) - rnd (snd a * snd b)), rnd (rnd (fst a * snd b) + rnd (snd a * fst b))).
Definition fs_cscale (k : R) (z : cx) : cx := (rnd (k * fst z), rnd (k * snd z)).
Definition fs_cdiv (z : cx) (k : R) : cx := (rnd (fst z / k), rnd (snd z / k)).

(** spectral.hpp:421-443 normalize; [scale k v] is k * v, [quot v k] is v / k *)
Definition fl_normalize {V} (scale : R -> V -> V) (quot : V -> R -> V) (c : config) (sc : scaling) (sd : sides) (v : list V) : outcome (list V) :=
  do u <- match sd with
          | ONESIDED => do a <- half_front scale (transform1 (scale 2%R) v); if (Z.rem (c_nperseg c) 2 =? 0)%Z then half_back scale a else Ok a
          | TWOSIDED => Ok v
          end;
  Ok (match sc with
      | DENSITY => transform1 (fun x => quot x (fs_mul (c_fs c) (c_s2 c))) u
      | SPECTRUM => transform1 (fun x => quot x (c_s1 c)) u
      | NONE => u
      end).
(** spectral.hpp:160-166, 227-236: the number of bins *)
Definition nbins (sd : sides) (c : config) : nat := match sd with ONESIDED => Z.to_nat (c_nperseg c) / 2 + 1 | TWOSIDED => Z.to_nat (c_nperseg c) end.

Section Welch.
Context {E : Type}.
Variable spec : list R -> list E -> outcome (list cx).
(** spectral.hpp:377-392; compute_spectrum divides by T(nseg) *)
Definition fl_psd_segment (c : config) (a : list E) (i : nat) : outcome (list R) :=
  do seg <- segment c a i; do f <- spec (c_window c) seg; Ok (transform1 fs_norm f).
Inductive fl_welch_impl (c : config) (nfft : nat) (a : list E) : outcome (list R) -> Prop :=
| fwi_run n r : nseg c (length a) = Ok n -> compute_spectrum 0%R fs_add (fun v n => fs_div v (rnd (IZR n))) (c_nthreads c) nfft n (fl_psd_segment c a) r ->
    fl_welch_impl c nfft a r
| fwi_ub : nseg c (length a) = UB -> fl_welch_impl c nfft a UB.
(** spectral.hpp:125-177 *)
Inductive fl_welch (sd : sides) (c : config) (sc : scaling) (x : list E) : outcome (list R) -> Prop :=
| fw_empty : x = [] -> fl_welch sd c sc x (Ok [])
| fw_run p : x <> [] -> fl_welch_impl c (nbins sd c) x p -> fl_welch sd c sc x (do v <- p; fl_normalize fs_mul fs_div c sc sd v).
End Welch.

Section Csd.
Context {E1 E2 : Type}.
Variables (zero1 : E1) (zero2 : E2) (spec1 : list R -> list E1 -> outcome (list cx)) (spec2 : list R -> list E2 -> outcome (list cx)).
(** spectral.hpp:394-419 *)
Definition fl_csd_segment (c : config) (x : list E1) (y : list E2) (i : nat) : outcome (list cx) :=
  do sx <- segment c x i; do sy <- segment c y i;
  do fx <- spec1 (c_window c) sx; do fy <- spec2 (c_window c) sy; map2 fs_cmul (transform1 xconj fx) fy.
Inductive fl_welch2_impl (c : config) (nfft : nat) (x : list E1) (y : list E2) : outcome (list cx) -> Prop :=
| fw2_require : length x <> length y -> fl_welch2_impl c nfft x y RequireFail
| fw2_run n r : length x = length y -> nseg c (length x) = Ok n ->
    compute_spectrum x0 fs_cadd (fun v n => fs_cdiv v (rnd (IZR n))) (c_nthreads c) nfft n (fl_csd_segment c x y) r -> fl_welch2_impl c nfft x y r
| fw2_ub : length x = length y -> nseg c (length x) = UB -> fl_welch2_impl c nfft x y UB.
Inductive fl_csd_same (sd : sides) (c : config) (sc : scaling) (x : list E1) (y : list E2) : outcome (list cx) -> Prop :=
| fcs_run p : fl_welch2_impl c (nbins sd c) x y p -> fl_csd_same sd c sc x y (do v <- p; fl_normalize fs_cscale fs_cdiv c sc sd v).
(** spectral.hpp:183-256: the shorter signal is zero padded *)
Inductive fl_csd (sd : sides) (c : config) (sc : scaling) (x : list E1) (y : list E2) : outcome (list cx) -> Prop :=
| fc_empty : x = [] \/ y = [] -> fl_csd sd c sc x y (Ok [])
| fc_same r : x <> [] -> y <> [] -> length x = length y -> fl_csd_same sd c sc x y r -> fl_csd sd c sc x y r
| fc_pad_y y' r : x <> [] -> y <> [] -> length y < length x -> zero_padding_const zero2 y (length x) = Ok y' -> fl_csd_same sd c sc x y' r -> fl_csd sd c sc x y r
| fc_pad_x x' r : x <> [] -> y <> [] -> length x < length y -> zero_padding_const zero1 x (length y) = Ok x' -> fl_csd_same sd c sc x' y r -> fl_csd sd c sc x y r.
End Csd.

Section Ratios.
Context {E : Type}.
Variables (zero : E) (spec : list R -> list E -> outcome (list cx)) (sd : sides).
(** spectral.hpp:258-275; the three spectra are computed by three runs, each with its own schedule *)
Inductive fl_coherence (c : config) (x y : list E) : outcome (list R) -> Prop :=
| fco_require : length x <> length y -> fl_coherence c x y RequireFail
| fco_run pxy pxx pyy : length x = length y -> fl_csd zero zero spec spec sd c NONE x y pxy -> fl_welch spec sd c NONE x pxx -> fl_welch spec sd c NONE y pyy ->
    fl_coherence c x y (do a <- pxy; do b <- pxx; do d <- pyy;
      require (length a =? length b) (require (length a =? length d) (do q <- map2 fs_div (transform1 fs_norm a) b; map2 fs_div q d))).
(** spectral.hpp:277-286 *)
Inductive fl_tfestimate (c : config) (x y : list E) : outcome (list cx) -> Prop :=
| fte_require : length x <> length y -> fl_tfestimate c x y RequireFail
| fte_run pyx pxx : length x = length y -> fl_csd zero zero spec spec sd c NONE y x pyx -> fl_welch spec sd c NONE x pxx ->
    fl_tfestimate c x y (do a <- pyx; do b <- pxx; map2 fs_cdiv a b).
End Ratios.
End Fl.
