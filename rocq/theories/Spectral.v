(** Model of the class Spectrum of scicpp/signal/spectral.hpp, over exact real and complex numbers.
    Not modelled: units attached to the samples (detail::value / to_quantity only strip and re-attach the unit).  Calls with one real
    and one complex signal are in SpectralMixed.v. *)
From Coq Require Import ZArith Reals.
From Verif Require Import Base Functional Numeric Stats CplxR Polynomial Fft FftConv Windows WindowsReal SpectralConc.
Open Scope nat_scope.

(** core/utils.hpp:42-56.  The iterator range [offset, offset + length) must lie in the array. *)
Definition subvector {E} (v : list E) (len offset : Z) : outcome (list E) :=
  let length_ := Z.min len (Z.of_nat (length v)) in
  if ((0 <=? offset) && (0 <=? length_) && (offset + length_ <=? Z.of_nat (length v)))%Z
  then Ok (firstn (Z.to_nat length_) (skipn (Z.to_nat offset) v)) else UB.

(** spectral.hpp:295-302: the data members, in the order of declaration *)
Record config := { c_fs : R; c_window : list R; c_s1 : R; c_s2 : R; c_nperseg : Z; c_dflt : bool; c_noverlap : Z; c_nthreads : nat }.
Inductive scaling := NONE | DENSITY | SPECTRUM.
Inductive sides := ONESIDED | TWOSIDED.

Section Config.
Variable I0 : R -> R.
(** spectral.hpp:306-316 *)
Definition set_parameters (c : config) : outcome config :=
  let nperseg := Z.of_nat (length (c_window c)) in
  let c' := {| c_fs := c_fs c; c_window := c_window c; c_s1 := s1 0%R Rplus Rmult (c_window c); c_s2 := s2 0%R Rplus Rmult (c_window c);
               c_nperseg := nperseg; c_dflt := c_dflt c; c_noverlap := if c_dflt c then Z.quot nperseg 2 else c_noverlap c; c_nthreads := c_nthreads c |} in
  require (c_noverlap c' <=? c_nperseg c')%Z (Ok c').
(** spectral.hpp:70-80.  Every setter updates the object and returns a copy of it (return type auto): the outcome is both. *)
Definition set_fs (fs : R) (c : config) : outcome config :=
  Ok {| c_fs := fs; c_window := c_window c; c_s1 := c_s1 c; c_s2 := c_s2 c; c_nperseg := c_nperseg c; c_dflt := c_dflt c; c_noverlap := c_noverlap c; c_nthreads := c_nthreads c |}.
(** spectral.hpp:82-87 *)
Definition set_noverlap (n : Z) (c : config) : outcome config :=
  require (n <=? c_nperseg c)%Z
    (Ok {| c_fs := c_fs c; c_window := c_window c; c_s1 := c_s1 c; c_s2 := c_s2 c; c_nperseg := c_nperseg c; c_dflt := false; c_noverlap := n; c_nthreads := c_nthreads c |}).
(** spectral.hpp:89-92 *)
Definition set_nthreads (n : nat) (c : config) : outcome config :=
  Ok {| c_fs := c_fs c; c_window := c_window c; c_s1 := c_s1 c; c_s2 := c_s2 c; c_nperseg := c_nperseg c; c_dflt := c_dflt c; c_noverlap := c_noverlap c; c_nthreads := n |}.
(** spectral.hpp:94-104 *)
Definition set_window (w : list R) (c : config) : outcome config :=
  set_parameters {| c_fs := c_fs c; c_window := w; c_s1 := c_s1 c; c_s2 := c_s2 c; c_nperseg := c_nperseg c; c_dflt := c_dflt c; c_noverlap := c_noverlap c; c_nthreads := c_nthreads c |}.
(** spectral.hpp:106-110 *)
Definition set_get_window (win N : nat) (c : config) : outcome config := do w <- get_window (rops I0) win N; set_window w c.
(** spectral.hpp:285, 295-302: default member initialisers *)
Definition default_config : outcome config :=
  do w <- window (rops I0) Hann Symmetric 256;
  let nperseg := Z.of_nat (length w) in
  Ok {| c_fs := 1%R; c_window := w; c_s1 := s1 0%R Rplus Rmult w; c_s2 := s2 0%R Rplus Rmult w; c_nperseg := nperseg; c_dflt := true;
        c_noverlap := Z.quot nperseg 2; c_nthreads := 0 |}.
(** obj.a(..).b(..).c(..): the first setter works on obj, the next ones on the returned copies.  Result: (obj afterwards, value of the expression). *)
Fixpoint apply_all (l : list (config -> outcome config)) (c : config) : outcome config :=
  match l with [] => Ok c | f :: r => do c' <- f c; apply_all r c' end.
Definition chain (l : list (config -> outcome config)) (obj : config) : outcome (config * config) :=
  match l with [] => Ok (obj, obj) | f :: r => do obj' <- f obj; do v <- apply_all r obj'; Ok (obj', v) end.
End Config.

(** spectral.hpp:289-293 detrend, with stats::mean; the value of the mean of no samples is irrelevant *)
Definition rmean (x : list R) : R := mean 0%R 0%R Rplus Rdiv INR false x.
Definition xdiv_re (a b : cx) : cx := xmul a (xre (/ fst b)).
(** the divisor is std::complex(cnt, 0): complex division by a number with zero imaginary part *)
Definition xmean (x : list cx) : cx := mean x0 x0 xadd xdiv_re (fun n => xre (INR n)) false x.
Definition detrend_r (x : list R) : list R := let m := rmean x in transform1 (fun v => (v - m)%R) x.
Definition detrend_c (x : list cx) : list cx := let m := xmean x in transform1 (fun v => xsub v m) x.
Definition xscale (r : R) (z : cx) : cx := (r * fst z, r * snd z)%R.

(** fftfunc(detrend(value(seg)) * m_window) for the real (rfft) and the complex (fft) case *)
Definition spec_r (w seg : list R) : outcome (list cx) := do m <- map2 Rmult (detrend_r seg) w; rfft m.
Definition spec_c (w : list R) (seg : list cx) : outcome (list cx) := do m <- map2 (fun z r => xscale r z) (detrend_c seg) w; fft_c m.

Section Impl.
Context {E : Type}.
Variable spec : list R -> list E -> outcome (list cx).
(** nstep and nseg, spectral.hpp:379-381 and 401-403: nseg divides by nstep *)
Definition nstep (c : config) : Z := (c_nperseg c - c_noverlap c)%Z.
Definition nseg (c : config) (asize : nat) : outcome Z :=
  if (nstep c =? 0)%Z then UB else Ok (1 + Z.quot (Z.of_nat asize - c_nperseg c) (nstep c))%Z.
(** the segment i, spectral.hpp:386-387 *)
Definition segment (c : config) (a : list E) (i : nat) : outcome (list E) :=
  do seg <- subvector a (c_nperseg c) (Z.of_nat i * nstep c);
  require (length seg =? length (c_window c)) (Ok seg).
(** spectral.hpp:377-391 *)
Definition psd_segment (c : config) (a : list E) (i : nat) : outcome (list R) :=
  do seg <- segment c a i; do f <- spec (c_window c) seg; Ok (transform1 xnorm2 f).
Inductive welch_impl (c : config) (nfft : nat) (a : list E) : outcome (list R) -> Prop :=
| wi_run n r : nseg c (length a) = Ok n -> compute_spectrum 0%R Rplus (fun v n => (v / IZR n)%R) (c_nthreads c) nfft n (psd_segment c a) r -> welch_impl c nfft a r
| wi_ub : nseg c (length a) = UB -> welch_impl c nfft a UB.
(** spectral.hpp:393-416 *)
Definition csd_segment (c : config) (x y : list E) (i : nat) : outcome (list cx) :=
  do sx <- segment c x i; do sy <- segment c y i;
  do fx <- spec (c_window c) sx; do fy <- spec (c_window c) sy; map2 xmul (transform1 xconj fx) fy.
Inductive welch2_impl (c : config) (nfft : nat) (x y : list E) : outcome (list cx) -> Prop :=
| w2_require : length x <> length y -> welch2_impl c nfft x y RequireFail
| w2_run n r : length x = length y -> nseg c (length x) = Ok n ->
    compute_spectrum x0 xadd (fun v n => xscale (/ IZR n)%R v) (c_nthreads c) nfft n (csd_segment c x y) r -> welch2_impl c nfft x y r
| w2_ub : length x = length y -> nseg c (length x) = UB -> welch2_impl c nfft x y UB.
End Impl.

Section Normalize.
Context {V : Type}.
Variable scale : R -> V -> V.
(** v.front() *= 0.5, v.back() *= 0.5 *)
Definition half_front (v : list V) : outcome (list V) := match v with [] => UB | x :: r => Ok (scale (1 / 2)%R x :: r) end.
Definition half_back (v : list V) : outcome (list V) := match v with [] => UB | x :: r => Ok (removelast (x :: r) ++ [scale (1 / 2)%R (last (x :: r) x)]) end.
(** spectral.hpp:418-440 *)
Definition normalize (c : config) (sc : scaling) (sd : sides) (v : list V) : outcome (list V) :=
  do u <- match sd with
          | ONESIDED => do a <- half_front (transform1 (scale 2%R) v); if (Z.rem (c_nperseg c) 2 =? 0)%Z then half_back a else Ok a
          | TWOSIDED => Ok v
          end;
  Ok (match sc with
      | DENSITY => transform1 (scale (/ (c_fs c * c_s2 c))%R) u
      | SPECTRUM => transform1 (scale (/ c_s1 c)%R) u
      | NONE => u
      end).
End Normalize.

(** spectral.hpp:318-325: T{1} / m_fs is the sample spacing *)
Definition Rgtb (a b : R) : bool := if Rlt_dec b a then true else false.
Definition freqs_r (c : config) : outcome (list R) := rfftfreq 0%R Rmult Rdiv Rgtb IZR (fun x => (x + 1)%R) (Z.to_nat (c_nperseg c)) (1 / c_fs c)%R.
Definition freqs_c (c : config) : outcome (list R) := fftfreq 0%R Rmult Rdiv Rgtb IZR (fun x => (x + 1)%R) (Z.to_nat (c_nperseg c)) (1 / c_fs c)%R.

(** spectral.hpp:125-177: real and complex signals.  The relations are between the arguments and the possible results
    (frequencies, spectrum); the object is not modified. *)
Inductive welch_r (c : config) (sc : scaling) (x : list R) : outcome (list R * list R) -> Prop :=
| wr_empty : x = [] -> welch_r c sc x (Ok ([], []))
| wr_run p : x <> [] -> welch_impl spec_r c (Z.to_nat (c_nperseg c) / 2 + 1) x p ->
    welch_r c sc x (do v <- p; do n <- normalize Rmult c sc ONESIDED v; do f <- freqs_r c; Ok (f, n)).
Inductive welch_c (c : config) (sc : scaling) (x : list cx) : outcome (list R * list R) -> Prop :=
| wc_empty : x = [] -> welch_c c sc x (Ok ([], []))
| wc_run p : x <> [] -> welch_impl spec_c c (Z.to_nat (c_nperseg c)) x p ->
    welch_c c sc x (do v <- p; do n <- normalize Rmult c sc TWOSIDED v; do f <- freqs_c c; Ok (f, n)).
(** spectral.hpp:116-123: periodogram calls noverlap(0) on the object.  Result: (object afterwards, spectrum). *)
Inductive periodogram_r (c : config) (sc : scaling) (x : list R) : outcome (config * (list R * list R)) -> Prop :=
| pr_require : length x <> length (c_window c) -> periodogram_r c sc x RequireFail
| pr_noverlap : length x = length (c_window c) -> set_noverlap 0 c = RequireFail -> periodogram_r c sc x RequireFail
| pr_run c' r : length x = length (c_window c) -> set_noverlap 0 c = Ok c' -> welch_r c' sc x r -> periodogram_r c sc x (do v <- r; Ok (c', v)).
(** spectral.hpp:179-256: the shorter signal is zero padded *)
Inductive csd_same_r (c : config) (sc : scaling) (x y : list R) : outcome (list R * list cx) -> Prop :=
| cr_run p : welch2_impl spec_r c (Z.to_nat (c_nperseg c) / 2 + 1) x y p ->
    csd_same_r c sc x y (do v <- p; do n <- normalize xscale c sc ONESIDED v; do f <- freqs_r c; Ok (f, n)).
Inductive csd_same_c (c : config) (sc : scaling) (x y : list cx) : outcome (list R * list cx) -> Prop :=
| cc_run p : welch2_impl spec_c c (Z.to_nat (c_nperseg c)) x y p ->
    csd_same_c c sc x y (do v <- p; do n <- normalize xscale c sc TWOSIDED v; do f <- freqs_c c; Ok (f, n)).
Section Csd.
Context {E : Type}.
Variables (zero : E) (same : config -> scaling -> list E -> list E -> outcome (list R * list cx) -> Prop).
Inductive csd (c : config) (sc : scaling) (x y : list E) : outcome (list R * list cx) -> Prop :=
| cs_empty : x = [] \/ y = [] -> csd c sc x y (Ok ([], []))
| cs_same r : x <> [] -> y <> [] -> length x = length y -> same c sc x y r -> csd c sc x y r
| cs_pad_y y' r : x <> [] -> y <> [] -> length y < length x -> zero_padding_const zero y (length x) = Ok y' -> same c sc x y' r -> csd c sc x y r
| cs_pad_x x' r : x <> [] -> y <> [] -> length x < length y -> zero_padding_const zero x (length y) = Ok x' -> same c sc x' y r -> csd c sc x y r.
End Csd.
Definition csd_r := csd 0%R csd_same_r.
Definition csd_c := csd x0 csd_same_c.

Section Transfer.
Context {E : Type}.
Variables (csdf : config -> scaling -> list E -> list E -> outcome (list R * list cx) -> Prop)
          (welchf : config -> scaling -> list E -> outcome (list R * list R) -> Prop).
(** spectral.hpp:258-272 *)
Inductive coherence (c : config) (x y : list E) : outcome (list R * list R) -> Prop :=
| co_require : length x <> length y -> coherence c x y RequireFail
| co_run rxy rxx ryy : length x = length y -> csdf c NONE x y rxy -> welchf c NONE x rxx -> welchf c NONE y ryy ->
    coherence c x y
      (do fp <- rxy; do px <- rxx; do py <- ryy;
       require (length (snd fp) =? length (snd px)) (require (length (snd fp) =? length (snd py))
         (do a <- map2 Rdiv (transform1 xnorm2 (snd fp)) (snd px); do b <- map2 Rdiv a (snd py); Ok (fst fp, b)))).
(** spectral.hpp:274-282: csd is called with y first *)
Inductive tfestimate (c : config) (x y : list E) : outcome (list R * list cx) -> Prop :=
| tf_require : length x <> length y -> tfestimate c x y RequireFail
| tf_run ryx rxx : length x = length y -> csdf c NONE y x ryx -> welchf c NONE x rxx ->
    tfestimate c x y (do fp <- ryx; do px <- rxx; do h <- map2 (fun z r => xscale (/ r)%R z) (snd fp) (snd px); Ok (fst fp, h)).
End Transfer.
