(** C103-C105: plots::psd, csd, cohere, winvis and hist. *)
From Coq Require Import ZArith Reals String QArith Qcanon.
From Verif Require Import Base BaseFl Functional FunctionalProofs FunctionalFacts Spec SumLib CplxR Numeric RangeManips Fft FftConv FftConvFacts Spectral SpectralSpec SpectralFacts5 PropSpectral Histogram Plots2 Plots2Facts.
From Coq Require Import Lra.
Open Scope nat_scope.
Set Implicit Arguments.
Notation length := List.length.

(** C103.  [shows y s p]: y is the number p on the scale s: p itself, or l with p = 10 ^ (l / 10), or -infinity for p = 0.
    psd draws the power spectrum of welch, at its frequencies; real and complex signals. *)
Theorem C103_psd : forall c sc s,
  (forall (x : list R) o d, plot_psd welch_r c sc s x (Ok (o, d)) -> exists f p ys, welch_r c sc x (Ok (f, p)) /\ d = (f, ys, "blue"%string, true) /\
     length ys = length p /\ (forall k y v, nth_error ys k = Some y -> nth_error p k = Some v -> (0 <= v)%R -> shows y s v)) /\
  (forall (x : list cx) o d, plot_psd welch_c c sc s x (Ok (o, d)) -> exists f p ys, welch_c c sc x (Ok (f, p)) /\ d = (f, ys, "blue"%string, true) /\
     length ys = length p /\ (forall k y v, nth_error ys k = Some y -> nth_error p k = Some v -> (0 <= v)%R -> shows y s v)).
Proof.
  assert (A : forall s p, length (psd_scaled s p) = length p /\ forall k y v, nth_error (psd_scaled s p) k = Some y -> nth_error p k = Some v -> (0 <= v)%R -> shows y s v).
  { intros s p. destruct s; cbn [psd_scaled]; rewrite !transform1_map, ?map_map, map_length; (split; [reflexivity|]); intros k y v Hy Hv Hp; rewrite nth_error_map, Hv in Hy; injection Hy as <-; [reflexivity|now apply decibel_shows]. }
  intros c sc s. split; intros x o d H; inversion H as [r Hr Er]; destruct r as [[f p]| | |]; try discriminate; injection Er as _ Ed; exists f, p, (psd_scaled s p); (split; [exact Hr|]); (split; [now symmetry|]); apply A.
Qed.
Print Assumptions C103_psd.
(** FINDING: csd does not draw |Pxy| but |Pxy|^2: the spectrum of a signal with itself is not drawn like its psd, but as the square of it (and
    with twice its decibels) *)
Theorem C103_csd_refuted : forall I0 c sc s (x : list R) o d o2 f2 ys2, configured I0 c -> c_window c <> [] -> (c_noverlap c < c_nperseg c)%Z -> (0 < c_fs c)%R -> length (c_window c) <= length x ->
  plot_csd csd_r c sc s x x (Ok (o, d)) -> plot_psd welch_r c sc s x (Ok (o2, (f2, ys2, "blue"%string, true))) ->
  exists ys, d = (f2, ys, "blue"%string, true) /\ length ys = length ys2 /\
    forall k y l, nth_error ys k = Some y -> nth_error ys2 k = Some (ER l) -> match s with LINEAR => y = ER (l * l) | DECIBEL => y = ER (2 * l) end.
Proof.
  intros I0 c sc s x o d o2 f2 ys2 Cf Hw Ho Hfs Hx H1 H2. inversion H1 as [r Hr Er]. inversion H2 as [r2 Hr2 Er2]. destruct r as [[f p]| | |]; try discriminate. destruct r2 as [[g q]| | |]; try discriminate.
  injection Er as Eo Ed. injection Er2 as Eo2 Ef2 Ey2. cbn [fst snd] in *. destruct (C77_csd_self I0 c sc Cf Hw Ho Hfs) as [CS _]. destruct (CS x f p g q Hx Hr Hr2) as [-> ->]. subst g.
  exists (csd_scaled s (map xre q)). split; [now symmetry|]. subst ys2.
  destruct s; cbn [csd_scaled psd_scaled]; rewrite !transform1_map, ?map_map, !map_length; (split; [reflexivity|]); intros k y l Hy Hl; rewrite nth_error_map in Hy, Hl;
    destruct (nth_error q k) as [v|]; try discriminate; cbn [option_map] in Hy, Hl; injection Hy as <-; injection Hl as Hl.
  - subst v. unfold xnorm2, xre. cbn [fst snd]. f_equal. ring.
  - unfold xnorm2, xre. cbn [fst snd]. replace (v * v + 0 * 0)%R with (v * v)%R by ring. cbn [elog10 emul10] in Hl |- *. destruct (Rlt_dec 0 v) as [P|P]; [|destruct (Req_EM_T v 0); discriminate Hl].
    injection Hl as <-. destruct (Rlt_dec 0 (v * v)) as [_|C]; [|exfalso; apply C, Rmult_lt_0_compat; assumption]. cbn [emul10]. f_equal. rewrite ln_mult by assumption. unfold Rdiv. ring.
Qed.
Print Assumptions C103_csd_refuted.
(** what csd draws: |Pxy|^2 on the scale *)
Theorem C103_csd_partial : forall c sc s,
  (forall (x y : list R) o d, plot_csd csd_r c sc s x y (Ok (o, d)) -> exists f p ys, csd_r c sc x y (Ok (f, p)) /\ d = (f, ys, "blue"%string, true) /\
     Forall2 (fun v z => shows v s (fst z * fst z + snd z * snd z)) ys p) /\
  (forall (x y : list cx) o d, plot_csd csd_c c sc s x y (Ok (o, d)) -> exists f p ys, csd_c c sc x y (Ok (f, p)) /\ d = (f, ys, "blue"%string, true) /\
     Forall2 (fun v z => shows v s (fst z * fst z + snd z * snd z)) ys p).
Proof.
  intros c sc s. split; intros x y o d H; inversion H as [r Hr Er]; destruct r as [[f p]| | |]; try discriminate; injection Er as _ Ed; exists f, p, (csd_scaled s p); (split; [exact Hr|]); (split; [now symmetry|]); apply csd_scaled_shows.
Qed.
Print Assumptions C103_csd_partial.
(** cohere draws the coherence itself *)
Theorem C103_cohere : forall c (x y : list R) o d, plot_cohere (coherence csd_r welch_r) c x y (Ok (o, d)) ->
  exists f p, coherence csd_r welch_r c x y (Ok (f, p)) /\ d = (f, map ER p, "blue"%string, true).
Proof.
  intros c x y o d H. inversion H as [r Hr Er]. destruct r as [[f p]| | |]; try discriminate. injection Er as _ Ed. exists f, p. split; [exact Hr|]. rewrite <- Ed. cbn [fst snd]. rewrite transform1_map. reflexivity.
Qed.
Print Assumptions C103_cohere.
(** colour and grid: the last call wins, the curve is never changed *)
Theorem C103_settings : forall f p (h : list csd_setter), exists o, csd_calls h (csdplot_new f p) =
  (o, (f, p, last_set csd_color_of "blue"%string h, last_set csd_grid_of true h)).
Proof. intros f p h. rewrite csd_history. eexists. reflexivity. Qed.
Print Assumptions C103_settings.
Example C103_nonvacuous : configured (fun _ => 1%R) box2 /\ exists o d o2 d2, plot_psd welch_r box2 NONE LINEAR [1; 2]%R (Ok (o, d)) /\ plot_csd csd_r box2 NONE LINEAR [1; 2]%R [1; 2]%R (Ok (o2, d2)).
Proof.
  split; [apply box2_configured|].
  destruct (C78_welch_real (fun _ => 1%R) box2 NONE [1; 2]%R) as (f & p & W & _); [apply box2_configured|discriminate|reflexivity|cbn; lra|cbn; lia|].
  destruct (C78_csd_real (fun _ => 1%R) box2 NONE [1; 2]%R [1; 2]%R) as (g & q & X & _); [apply box2_configured|discriminate|reflexivity|cbn; lra|discriminate|discriminate|cbn; lia|].
  do 4 eexists. split; [exact (pp_run welch_r box2 NONE LINEAR _ (Ok (f, p)) W)|exact (pc_run csd_r box2 NONE LINEAR _ _ (Ok (g, q)) X)].
Qed.

(** C104.  winvis of one or more windows of the same size n > 0, none with the sum 0.  The levels of each window are
    10 log10 (|W(k)|^2 / (sum w)^2) at the frequencies k / 11n, k <= 11n / 2, W the discrete time Fourier transform of the window (wpower =
    |W|^2); -infinity where W is 0; the first level is 0 dB.  The width is 4 times the frequency of the lowest level that is at least
    -3 dB, the first one if there are several. *)
Theorem C104_winvis_partial : forall (w0 : list R) (ws : list (list R)), w0 <> [] -> (forall w, In w ws -> length w = length w0) ->
  (forall w, In w (w0 :: ws) -> total w <> 0%R) ->
  exists fig, winvis w0 ws = Ok fig /\ wv_windows fig = w0 :: ws /\
    let N := 11 * length w0 in
    wv_f fig = map (fun k => (INR k / INR N)%R) (seq 0 (N / 2 + 1)) /\
    length (wv_ffts fig) = S (length ws) /\ length (wv_widths fig) = S (length ws) /\
    forall i w, nth_error (w0 :: ws) i = Some w ->
      (exists levels, nth_error (wv_ffts fig) i = Some levels /\ length levels = N / 2 + 1 /\ nth_error levels 0 = Some (ER 0%R) /\
         forall k, k <= N / 2 -> nth_error levels k =
           Some (if Req_EM_T (wpower w N k) 0 then ENinf else ER (10 * (ln (wpower w N k / (total w * total w)) / ln 10))%R)) /\
      (exists k d, k <= N / 2 /\ nth_error (wv_widths fig) i = Some (4 * (INR k / INR N))%R /\
         rel_level w N k = ER d /\ (-3 <= d)%R /\
         forall j e, j <= N / 2 -> rel_level w N j = ER e -> (-3 <= e)%R -> (d <= e)%R /\ (j < k -> (d < e)%R)).
Proof.
  intros w0 ws Hne Hlen Ht. unfold winvis. assert (HL : forall w, In w (w0 :: ws) -> length w = length w0) by (intros w [ <- | H]; [reflexivity|now apply Hlen]).
  assert (Hn : 1 <= length w0) by (destruct w0; [congruence|cbn; lia]).
  replace (forallb (fun w => length w =? length w0) (w0 :: ws)) with true by (symmetry; apply forallb_forall; intros w H; now apply Nat.eqb_eq, HL).
  cbn [require]. rewrite rfftfreq_r_ok by lia. cbn [bind]. set (N := 11 * length w0). set (f := map (fun k => (INR k / INR N)%R) (seq 0 (N / 2 + 1))).
  rewrite (@omap_ok _ _ _ (fun w => map (rel_level w N) (seq 0 (N / 2 + 1)))).
  2:{ intros w H. assert (E : length w = length w0) by (now apply HL). rewrite window_spectrum_ok; [now rewrite E| |now apply Ht]. intros C. rewrite C in E. cbn in E. lia. }
  cbn [bind].
  assert (MW : forall w, In w (w0 :: ws) -> exists k d, k <= N / 2 /\ mainlobe_width f (map (rel_level w N) (seq 0 (N / 2 + 1))) = Ok (4 * (INR k / INR N))%R /\
    rel_level w N k = ER d /\ (-3 <= d)%R /\ (forall j e, j <= N / 2 -> rel_level w N j = ER e -> (-3 <= e)%R -> (d <= e)%R /\ (j < k -> (d < e)%R))).
  { intros w H. assert (E : length w = length w0) by (now apply HL). assert (Hw : w <> []) by (intros C; rewrite C in E; cbn in E; lia).
    pose proof (@mainlobe_ok w f Hw (Ht w H)) as M. rewrite E in M. fold N in M. apply M. reflexivity. }
  assert (OM : exists vs, omap (mainlobe_width f) (map (fun w => map (rel_level w N) (seq 0 (N / 2 + 1))) (w0 :: ws)) = Ok vs /\ length vs = S (length ws) /\
    forall i w, nth_error (w0 :: ws) i = Some w -> exists v, nth_error vs i = Some v /\ mainlobe_width f (map (rel_level w N) (seq 0 (N / 2 + 1))) = Ok v).
  { change (S (length ws)) with (length (w0 :: ws)). generalize (w0 :: ws) as l, MW. clear. induction l as [|w l IH]; intros MW; cbn [omap map].
    - exists []. split; [reflexivity|]. split; [reflexivity|]. intros [|i] w; discriminate.
    - destruct (MW w (or_introl eq_refl)) as (k & d & _ & E & _). rewrite E. cbn [bind]. destruct (IH (fun w' H => MW w' (or_intror H))) as (vs & -> & L & A). cbn [bind].
      eexists. split; [reflexivity|]. split; [cbn; now rewrite L|]. intros [|i] w'; cbn [nth_error]; intros Hw.
      + injection Hw as <-. eexists. split; [reflexivity|exact E].
      + now apply A. }
  destruct OM as (vs & -> & Lv & Av). cbn [bind]. assert (F0 : exists v, at_ub f 0 = Ok v) by (unfold f; rewrite Nat.add_1_r; eexists; reflexivity). destruct F0 as [v0 ->]. cbn [bind].
  eexists. split; [reflexivity|]. cbn [wv_windows wv_f wv_ffts wv_widths]. split; [reflexivity|]. cbv zeta. split; [reflexivity|]. split; [cbn; now rewrite map_length|]. split; [exact Lv|].
  intros i w Hi. assert (Hw : In w (w0 :: ws)) by (eapply nth_error_In; eassumption). split.
  - exists (map (rel_level w N) (seq 0 (N / 2 + 1))). split; [change (map (rel_level w0 N) (seq 0 (N / 2 + 1)) :: map (fun w1 => map (rel_level w1 N) (seq 0 (N / 2 + 1))) ws) with (map (fun w1 => map (rel_level w1 N) (seq 0 (N / 2 + 1))) (w0 :: ws)); rewrite nth_error_map, Hi; reflexivity|].
    split; [now rewrite map_length, seq_length|]. assert (A : forall k, k <= N / 2 -> nth_error (map (rel_level w N) (seq 0 (N / 2 + 1))) k = Some (rel_level w N k)).
    { intros k Hk. rewrite nth_error_map, (nth_error_nth' _ 0) by (rewrite seq_length; lia). rewrite seq_nth by lia. reflexivity. }
    split; [rewrite A by lia; rewrite rel_level_0 by (now apply Ht); reflexivity|]. intros k Hk. rewrite A by exact Hk. unfold rel_level, decibel. reflexivity.
  - destruct (MW w Hw) as (k & d & Hk & E & R). exists k, d. split; [exact Hk|]. split; [|exact R]. destruct (Av i w Hi) as (v & Hv & Ev). rewrite Hv. rewrite E in Ev. now injection Ev as <-.
Qed.
Print Assumptions C104_winvis_partial.
(** non-negative windows: no level is above 0 dB *)
Theorem C104_peak : forall (w : list R) (N k : nat), (forall v, In v w -> (0 <= v)%R) -> (wpower w N k <= wpower w N 0)%R /\ wpower w N 0 = (total w * total w)%R.
Proof. intros w N k H. rewrite wpower_0. split; [now apply wpower_max|reflexivity]. Qed.
Print Assumptions C104_peak.
Theorem C104_sizes : forall (w0 : list R) (ws : list (list R)), (exists w, In w ws /\ length w <> length w0) \/ w0 = [] -> winvis w0 ws = RequireFail.
Proof.
  intros w0 ws H. unfold winvis. destruct (forallb (fun w => length w =? length w0) (w0 :: ws)) eqn:F; [|reflexivity]. cbn [require]. destruct H as [(w & Hw & Hl) | ->].
  - exfalso. apply Hl. rewrite forallb_forall in F. now apply Nat.eqb_eq, F, or_intror.
  - reflexivity.
Qed.
Print Assumptions C104_sizes.
(** FINDING: the levels of a window whose samples add up to 0 are not relative to the highest one: each is +infinity, or not a number (as the first) where the transform is 0 *)
Theorem C104_zero_sum_refuted : forall (w : list R), w <> [] -> total w = 0%R -> let N := 11 * length w in
  exists levels, window_spectrum_db w = Ok levels /\ length levels = N / 2 + 1 /\ nth_error levels 0%nat = Some ENan /\
    forall k, k <= N / 2 -> nth_error levels k = Some (if Req_EM_T (wpower w N k) 0 then ENan else EPinf).
Proof.
  intros w Hne Ht N. rewrite (window_spectrum_zero Hne Ht). fold N. eexists. split; [reflexivity|]. split; [now rewrite map_length, seq_length|].
  assert (A : forall k, k <= N / 2 -> nth_error (map (fun k => if Req_EM_T (wpower w N k) 0 then ENan else EPinf) (seq 0 (N / 2 + 1))) k = Some (if Req_EM_T (wpower w N k) 0 then ENan else EPinf)).
  { intros k Hk. rewrite nth_error_map, (nth_error_nth' _ 0%nat) by (rewrite seq_length; lia). rewrite seq_nth by lia. reflexivity. }
  split; [|exact A]. rewrite (A 0%nat) by lia. rewrite wpower_0, Ht. destruct (Req_EM_T (0 * 0) 0) as [_|C]; [reflexivity|exfalso; apply C; ring].
Qed.
Print Assumptions C104_zero_sum_refuted.
(** FINDING: sample k of a window is not drawn at abscissa k but at k * n / (n - 1) *)
Theorem C104_abscissa_refuted : forall (w0 : list R) (ws : list (list R)) fig k, winvis w0 ws = Ok fig -> 2 <= length w0 -> k < length w0 ->
  nth_error (wv_x fig) k = Some (INR k * (INR (length w0) / INR (length w0 - 1)))%R.
Proof.
  intros w0 ws fig k H Hn Hk. unfold winvis in H. set (x := linspace _ _ _ _ _ _ _ _) in H. destruct (forallb _ _); [|discriminate H]. cbn [require] in H. destruct (rfftfreq _ _ _ _ _ _ _ _) as [f| | |]; try discriminate H. cbn [bind] in H.
  destruct (omap window_spectrum_db _) as [ff| | |]; try discriminate H. cbn [bind] in H. destruct (omap _ ff) as [vs| | |]; try discriminate H. cbn [bind] in H. destruct (at_ub f 0) as [f0| | |]; try discriminate H. cbn [bind] in H.
  injection H as <-. cbn [wv_x]. subst x. unfold linspace. destruct (length w0) as [|[|n]] eqn:E; [lia|lia|]. cbv zeta. rewrite !transform1_map. unfold RangeManips.iota. rewrite !map_map, nth_error_map.
  rewrite (nth_error_nth' _ 0) by (rewrite seq_length; lia). rewrite seq_nth by lia. cbn [option_map Nat.add]. f_equal. unfold Rdiv. ring.
Qed.
Print Assumptions C104_abscissa_refuted.
Example C104_nonvacuous : total [1; 2; 1]%R <> 0%R /\ (forall v, In v [1; 2; 1]%R -> (0 <= v)%R) /\ wpower [1; 1]%R 2 1 = 0%R.
Proof.
  split; [unfold total; cbn; lra|]. split; [cbn; intros v [ <- | [ <- | [ <- | []]]]; lra|].
  unfold wpower, wcos, wsin. cbn [length nsum nth INR]. replace (2 * PI * (0 * 1) / (1 + 1))%R with 0%R by field. replace (2 * PI * (1 * 1) / (1 + 1))%R with PI by field. rewrite cos_0, sin_0, cos_PI, sin_PI. ring.
Qed.

(** C105.  hist and any history of calls of color, log, histtype and rwidth, when the last type is BAR or STEPFILLED ([hist_marks] gives no
    mark for the others): the counts of stats::histogram over the bins, with the last settings; the scale is logarithmic if the last call
    of log was log(true), linear if there was none.  [keeps]: see Plots2.v. *)
Theorem C105_history_partial : forall (keeps : bool) (uniform : bool) (x bins : list fl) (counts : list nat) (h : list hist_setter), fhist uniform x bins = Ok counts -> bins <> [] ->
  exists ov, plots_hist keeps (fhist uniform) x bins = Ok ov /\ let v := snd (hist_calls keeps h ov) in
    v_xrange v = (hd NaN bins, last bins NaN) /\
    v_marks v = hist_marks (last_set h_type_of BAR h) counts bins (last_set h_color_of "blue"%string h) (last_set h_rwidth_of 1%R h) /\
    (last_set h_log_of false h = true -> v_log v = true) /\ (~ In (HLog true) h -> v_log v = false).
Proof.
  intros keeps uniform x bins counts h Hh Hb. unfold plots_hist. rewrite Hh. cbn [bind]. destruct (@hist_history nat fl keeps counts bins NaN h Hb) as (o & v & -> & o' & v' & E & Hr & Hm & _ & Hl & Hn).
  exists (o, v). split; [reflexivity|]. cbv zeta. rewrite E. cbn [snd]. split; [exact Hr|]. split; [exact Hm|]. split; [exact Hl|]. intros N. now apply Hn.
Qed.
Print Assumptions C105_history_partial.
(** FINDING: log(false) does not undo log(true) *)
Theorem C105_log_refuted : forall (H V : Type) (keeps : bool) (ov : histplot H V * hist_view H V), v_log (snd (hist_calls keeps [HLog true; HLog false] ov)) = true.
Proof. intros H V keeps [o v]. reflexivity. Qed.
Print Assumptions C105_log_refuted.
(** FINDING: the types STEP and BARSTACKED draw nothing *)
Theorem C105_types_refuted : forall (H V : Type) (keeps : bool) (ov : histplot H V * hist_view H V),
  v_marks (snd (hist_calls keeps [HType STEP] ov)) = [] /\ v_marks (snd (hist_calls keeps [HType BARSTACKED] ov)) = [].
Proof. intros H V keeps [o v]. split; reflexivity. Qed.
Print Assumptions C105_types_refuted.
(** FINDING: without bins the plot reads outside of the list *)
Theorem C105_nobins_refuted : forall (keeps uniform : bool) (x : list fl), plots_hist keeps (fhist uniform) x [] = UB.
Proof. reflexivity. Qed.
Print Assumptions C105_nobins_refuted.
Example C105_nonvacuous : fhist false [Fin (qn 1); Fin (qn 3)] [Fin (qn 0); Fin (qn 2); Fin (qn 4)] = Ok [1; 1] /\
  last_set h_type_of BAR [HType STEP; HLog true; HType STEPFILLED] = STEPFILLED /\ last_set h_log_of false [HType STEP; HLog true; HType STEPFILLED] = true.
Proof. split; [vm_compute; reflexivity|]. split; reflexivity. Qed.
