(** Model of scicpp/plots/spectrum.hpp, winvis.hpp and hist.hpp: the numbers and settings passed to sciplot. *)
From Coq Require Import ZArith Reals String.
From Verif Require Import Base Functional Spec SumLib CplxR Numeric RangeManips Fft FftConv Spectral.
Open Scope nat_scope.
Set Implicit Arguments.
Notation length := List.length.

(** Doubles without rounding: a real number, an infinity or NaN *)
Inductive ext : Type := ER (r : R) | EPinf | ENinf | ENan.
(** IEEE division of two finite numbers; the sign of a zero divisor is not modelled: it is taken positive *)
Definition ediv (a b : R) : ext :=
  if Req_EM_T b 0 then (if Req_EM_T a 0 then ENan else if Rlt_dec 0 a then EPinf else ENinf) else ER (a / b)%R.
(** std::log10 (maths.hpp:86) *)
Definition elog10 (e : ext) : ext :=
  match e with
  | ER r => if Rlt_dec 0 r then ER (ln r / ln 10)%R else if Req_EM_T r 0 then ENinf else ENan
  | EPinf => EPinf
  | ENinf | ENan => ENan
  end.
(** scalar * v (numeric.hpp:426-432) with the scalar 10, and scalar + v (numeric.hpp:436-442) with the scalar 3 *)
Definition emul10 (e : ext) : ext := match e with ER r => ER (10 * r)%R | _ => e end.
Definition eadd3 (e : ext) : ext := match e with ER r => ER (3 + r)%R | _ => e end.
(** u < v on doubles, and filters::positive (functional.hpp:184, v >= 0) *)
Definition eltb (a b : ext) : bool :=
  match a, b with
  | ER u, ER v => if Rlt_dec u v then true else false
  | ER _, EPinf | ENinf, ER _ | ENinf, EPinf => true
  | _, _ => false
  end.
Definition epositive (e : ext) : bool :=
  match e with ER r => if Rle_dec 0 r then true else false | EPinf => true | _ => false end.

(** spectrum.hpp:78 *)
Inductive plot_scale : Type := LINEAR | DECIBEL.
(** spectrum.hpp:85-95: norm is |z|^2 (maths.hpp:102, std::norm); the division by PxyTp(1) only removes the unit *)
Definition csd_scaled (s : plot_scale) (p : list cx) : list ext :=
  match s with
  | LINEAR => transform1 (fun z => ER (xnorm2 z)) p
  | DECIBEL => transform1 emul10 (transform1 elog10 (transform1 (fun z => ER (xnorm2 z)) p))
  end.
(** spectrum.hpp:101-115 *)
Definition psd_scaled (s : plot_scale) (p : list R) : list ext :=
  match s with
  | LINEAR => transform1 ER p
  | DECIBEL => transform1 emul10 (transform1 elog10 (transform1 ER p))
  end.

(** spectrum.hpp:21-76 the csdplot object, and what redraw draws: one curve, its colour, and whether the grid is shown *)
Record csdplot : Type := mk_csdplot { cp_color : string; cp_grid : bool; cp_freqs : list R; cp_power : list ext }.
Definition csdplot_drawing : Type := (list R * list ext * string * bool)%type.
Definition csd_redraw (o : csdplot) : csdplot_drawing := (cp_freqs o, cp_power o, cp_color o, cp_grid o).
Definition csdplot_new (f : list R) (p : list ext) : csdplot * csdplot_drawing :=
  let o := mk_csdplot "blue" true f p in (o, csd_redraw o).
(** spectrum.hpp:37-47 *)
Inductive csd_setter : Type := CsdColor (c : string) | CsdGrid (g : bool).
Definition csd_set (s : csd_setter) (o : csdplot) : csdplot * csdplot_drawing :=
  let o' := match s with
            | CsdColor c => mk_csdplot c (cp_grid o) (cp_freqs o) (cp_power o)
            | CsdGrid g => mk_csdplot (cp_color o) g (cp_freqs o) (cp_power o)
            end in (o', csd_redraw o').
Definition csd_calls (h : list csd_setter) (o : csdplot * csdplot_drawing) : csdplot * csdplot_drawing :=
  fold_left (fun od s => csd_set s (fst od)) h o.

Section SpectrumPlots.
Context {E : Type}.
Variables (csdf : config -> scaling -> list E -> list E -> outcome (list R * list cx) -> Prop)
          (welchf : config -> scaling -> list E -> outcome (list R * list R) -> Prop)
          (cohf : config -> list E -> list E -> outcome (list R * list R) -> Prop).
(** spectrum.hpp:80-96 *)
Inductive plot_csd (c : config) (sc : scaling) (s : plot_scale) (x y : list E) : outcome (csdplot * csdplot_drawing) -> Prop :=
| pc_run r : csdf c sc x y r -> plot_csd c sc s x y (do fp <- r; Ok (csdplot_new (fst fp) (csd_scaled s (snd fp)))).
(** spectrum.hpp:98-115 *)
Inductive plot_psd (c : config) (sc : scaling) (s : plot_scale) (x : list E) : outcome (csdplot * csdplot_drawing) -> Prop :=
| pp_run r : welchf c sc x r -> plot_psd c sc s x (do fp <- r; Ok (csdplot_new (fst fp) (psd_scaled s (snd fp)))).
(** spectrum.hpp:117-122 *)
Inductive plot_cohere (c : config) (x y : list E) : outcome (csdplot * csdplot_drawing) -> Prop :=
| ph_run r : cohf c x y r -> plot_cohere c x y (do fp <- r; Ok (csdplot_new (fst fp) (transform1 ER (snd fp)))).
End SpectrumPlots.

(** winvis.hpp:29-39: padding | window | padding, rfft, norm, division by the first element, 10 log10 *)
Definition window_spectrum_db (window : list R) : outcome (list ext) :=
  let padding := repeat 0%R (5 * length window) in
  do y <- rfft (concatenate_rv1 true false true 0%R (fun v => v) (concatenate_cc (fun v => v) padding window) padding);
  let spec := transform1 xnorm2 y in
  do s0 <- at_ub spec 0;
  Ok (transform1 emul10 (transform1 elog10 (transform1 (fun v => ediv v s0) spec))).
(** winvis.hpp:42-50 *)
Definition mainlobe_width (f : list R) (winfft : list ext) : outcome R :=
  do idx <- argcmp (transform1 eadd3 winfft) epositive eltb;
  do v <- at_ub f idx; Ok (4 * v)%R.
(** winvis.hpp:54-110: what is drawn and shown in the title: the abscissas and windows, the frequencies and levels, and the widths *)
Record winvis_fig : Type := mk_winvis { wv_x : list R; wv_windows : list (list R); wv_f : list R; wv_ffts : list (list ext); wv_widths : list R }.
Fixpoint omap {A B} (g : A -> outcome B) (l : list A) : outcome (list B) :=
  match l with [] => Ok [] | a :: r => do b <- g a; do bs <- omap g r; Ok (b :: bs) end.
Definition winvis (w0 : list R) (ws : list (list R)) : outcome winvis_fig :=
  let winsize := length w0 in
  require (forallb (fun w => length w =? winsize) (w0 :: ws))
    (let x := linspace Rplus Rminus Rmult Rdiv INR 0%R (INR winsize) winsize in
     do f <- rfftfreq 0%R Rmult Rdiv Rgtb IZR (fun v => (v + 1)%R) (11 * winsize) 1%R;
     do ffts <- omap window_spectrum_db (w0 :: ws);
     do widths <- omap (mainlobe_width f) ffts;
     do f0 <- at_ub f 0;
     Ok (mk_winvis x (w0 :: ws) f ffts widths)).

(** hist.hpp:18 *)
Inductive hist_type : Type := BAR | BARSTACKED | STEP | STEPFILLED.
(** hist.hpp:22-125 the histplot object *)
Record histplot (H V : Type) : Type := mk_histplot
  { hp_color : string; hp_hist : list H; hp_bins : list V; hp_log : bool; hp_type : hist_type; hp_rwidth : R }.
(** what is on the plot: the marks drawn by the last redraw and the logarithmic scale of the y axis.  [m_width] is the argument of
    boxWidthRelative. *)
Inductive hist_mark (H V : Type) : Type :=
| Boxes (x : list V) (y : list H) (color : string) (m_width : R)
| StepsFilled (x : list V) (y : list H) (color : string).
Arguments Boxes {H V}.
Arguments StepsFilled {H V}.
Record hist_view (H V : Type) : Type := mk_view { v_xrange : V * V; v_marks : list (hist_mark H V); v_log : bool }.
(** hist.hpp:83-124.  [keeps]: whether sciplot's clear(), which is outside /repo, keeps the tics settings: the theorems hold for both values. *)
Definition hist_redraw {H V} (keeps : bool) (o : histplot H V) (v : hist_view H V) : hist_view H V :=
  let l0 := if keeps then v_log v else false in
  let marks := match hp_type o with
               | BAR => [Boxes (hp_bins o) (hp_hist o) (hp_color o) (hp_rwidth o)]
               | STEPFILLED => [StepsFilled (hp_bins o) (hp_hist o) (hp_color o)]
               | BARSTACKED | STEP => []
               end in
  mk_view (v_xrange v) marks (if hp_log o then true else l0).
(** hist.hpp:25-34: the constructor, m_bins[0] and m_bins[m_bins.size() - 1] *)
Definition histplot_new {H V} (keeps : bool) (h : list H) (bins : list V) : outcome (histplot H V * hist_view H V) :=
  do b0 <- at_ub bins 0;
  do b1 <- at_ub bins (length bins - 1);
  let o := mk_histplot "blue" h bins false BAR 1%R in
  Ok (o, hist_redraw keeps o (mk_view (b0, b1) [] false)).
(** hist.hpp:36-62 *)
Inductive hist_setter : Type := HColor (c : string) | HLog (b : bool) | HType (t : hist_type) | HRwidth (w : R).
Definition hist_set {H V} (keeps : bool) (s : hist_setter) (ov : histplot H V * hist_view H V) : histplot H V * hist_view H V :=
  let '(o, v) := ov in
  match s with
  | HColor c => let o' := mk_histplot c (hp_hist o) (hp_bins o) (hp_log o) (hp_type o) (hp_rwidth o) in (o', hist_redraw keeps o' v)
  | HLog b => let o' := mk_histplot (hp_color o) (hp_hist o) (hp_bins o) b (hp_type o) (hp_rwidth o) in
              (o', if b then mk_view (v_xrange v) (v_marks v) true else v)
  | HType t => let o' := mk_histplot (hp_color o) (hp_hist o) (hp_bins o) (hp_log o) t (hp_rwidth o) in (o', hist_redraw keeps o' v)
  | HRwidth w => let o' := mk_histplot (hp_color o) (hp_hist o) (hp_bins o) (hp_log o) (hp_type o) w in (o', hist_redraw keeps o' v)
  end.
Definition hist_calls {H V} (keeps : bool) (h : list hist_setter) (ov : histplot H V * hist_view H V) : histplot H V * hist_view H V :=
  fold_left (fun a s => hist_set keeps s a) h ov.
(** hist.hpp:129-137: [hg] is stats::histogram (Histogram.v) *)
Definition plots_hist {A H V} (keeps : bool) (hg : list A -> list V -> outcome (list H)) (x : list A) (bins : list V) : outcome (histplot H V * hist_view H V) :=
  do h <- hg x bins; histplot_new keeps h bins.
