(** Model of the instances of Spectrum::csd, coherence and tfestimate (scicpp/signal/spectral.hpp) for one real and one complex signal. *)
From Coq Require Import ZArith Reals.
From Verif Require Import Base Functional Numeric Stats CplxR Polynomial Fft FftConv Windows SpectralConc Spectral.
Open Scope nat_scope.

(** the real signal is detrended and windowed in real arithmetic, but fftfunc is fft_func (spectral.hpp:229-233, 287): the complex FFT of a real array *)
Definition spec_rc (w seg : list R) : outcome (list cx) := do m <- map2 Rmult (detrend_r seg) w; fft_r m.

Section Impl2.
Context {E1 E2 : Type}.
Variables (spec1 : list R -> list E1 -> outcome (list cx)) (spec2 : list R -> list E2 -> outcome (list cx)).
(** spectral.hpp:393-416, the element types of x and y being different *)
Definition csd_segment2 (c : config) (x : list E1) (y : list E2) (i : nat) : outcome (list cx) :=
  do sx <- segment c x i; do sy <- segment c y i;
  do fx <- spec1 (c_window c) sx; do fy <- spec2 (c_window c) sy; map2 xmul (transform1 xconj fx) fy.
Inductive welch2_impl2 (c : config) (nfft : nat) (x : list E1) (y : list E2) : outcome (list cx) -> Prop :=
| w22_require : length x <> length y -> welch2_impl2 c nfft x y RequireFail
| w22_run n r : length x = length y -> nseg c (length x) = Ok n ->
    compute_spectrum x0 xadd (fun v n => xscale (/ IZR n)%R v) (c_nthreads c) nfft n (csd_segment2 c x y) r -> welch2_impl2 c nfft x y r
| w22_ub : length x = length y -> nseg c (length x) = UB -> welch2_impl2 c nfft x y UB.
Variables (zero1 : E1) (zero2 : E2).
(** spectral.hpp:226-247: one of the element types is complex, so the spectrum is two-sided *)
Inductive csd_same2 (c : config) (sc : scaling) (x : list E1) (y : list E2) : outcome (list R * list cx) -> Prop :=
| c2_run p : welch2_impl2 c (Z.to_nat (c_nperseg c)) x y p ->
    csd_same2 c sc x y (do v <- p; do n <- normalize xscale c sc TWOSIDED v; do f <- freqs_c c; Ok (f, n)).
(** spectral.hpp:218-256 *)
Inductive csd2 (c : config) (sc : scaling) (x : list E1) (y : list E2) : outcome (list R * list cx) -> Prop :=
| cs2_empty : x = [] \/ y = [] -> csd2 c sc x y (Ok ([], []))
| cs2_same r : x <> [] -> y <> [] -> length x = length y -> csd_same2 c sc x y r -> csd2 c sc x y r
| cs2_pad_y y' r : x <> [] -> y <> [] -> length y < length x -> zero_padding_const zero2 y (length x) = Ok y' -> csd_same2 c sc x y' r -> csd2 c sc x y r
| cs2_pad_x x' r : x <> [] -> y <> [] -> length x < length y -> zero_padding_const zero1 x (length y) = Ok x' -> csd_same2 c sc x' y r -> csd2 c sc x y r.
End Impl2.
(** csd(real, complex) and csd(complex, real) *)
Definition csd_rc := csd2 spec_rc spec_c 0%R x0.
Definition csd_cr := csd2 spec_c spec_rc x0 0%R.

Section Transfer2.
Context {E1 E2 : Type}.
Variables (csd12 : config -> scaling -> list E1 -> list E2 -> outcome (list R * list cx) -> Prop)
          (csd21 : config -> scaling -> list E2 -> list E1 -> outcome (list R * list cx) -> Prop)
          (welch1 : config -> scaling -> list E1 -> outcome (list R * list R) -> Prop)
          (welch2 : config -> scaling -> list E2 -> outcome (list R * list R) -> Prop).
(** spectral.hpp:258-272 *)
Inductive coherence2 (c : config) (x : list E1) (y : list E2) : outcome (list R * list R) -> Prop :=
| co2_require : length x <> length y -> coherence2 c x y RequireFail
| co2_run rxy rxx ryy : length x = length y -> csd12 c NONE x y rxy -> welch1 c NONE x rxx -> welch2 c NONE y ryy ->
    coherence2 c x y
      (do fp <- rxy; do px <- rxx; do py <- ryy;
       require (length (snd fp) =? length (snd px)) (require (length (snd fp) =? length (snd py))
         (do a <- map2 Rdiv (transform1 xnorm2 (snd fp)) (snd px); do b <- map2 Rdiv a (snd py); Ok (fst fp, b)))).
(** spectral.hpp:274-282 *)
Inductive tfestimate2 (c : config) (x : list E1) (y : list E2) : outcome (list R * list cx) -> Prop :=
| tf2_require : length x <> length y -> tfestimate2 c x y RequireFail
| tf2_run ryx rxx : length x = length y -> csd21 c NONE y x ryx -> welch1 c NONE x rxx ->
    tfestimate2 c x y (do fp <- ryx; do px <- rxx; do h <- map2 (fun z r => xscale (/ r)%R z) (snd fp) (snd px); Ok (fst fp, h)).
End Transfer2.
Definition coherence_rc := coherence2 csd_rc welch_r welch_c.
Definition coherence_cr := coherence2 csd_cr welch_c welch_r.
Definition tfestimate_rc := tfestimate2 csd_cr welch_r.
Definition tfestimate_cr := tfestimate2 csd_rc welch_c.
