(** Facts about Plots.v *)
From Coq Require Import Ascii String ZArith Sorting.Permutation.
From Verif Require Import Base Functional BaseFl Numeric RangeManips Stats StatsVar Misc MiscFacts Plots.
Open Scope nat_scope.
Set Implicit Arguments.
Notation length := List.length.
Notation num := BaseFl.fl.

(** ** plot *)
(** the settings after a history of calls, the last one wins: colour and legend of curve k, grid *)
(** sciplot's first eight default colours as listed in plots/plot.hpp *)
Definition palette : list string := ["blue"; "green"; "red"; "cyan"; "magenta"; "yellow"; "black"; "white"]%string.
Definition color_after (h : list plot_setter) (k : nat) : string :=
  fold_left (fun acc s => match s with Color c => c | _ => acc end) h (nth (k mod 8) palette "")%string.
Definition label_after (h : list plot_setter) (k : nat) : string :=
  fold_left (fun acc s => match s with Labels l => nth k l ""%string | Label l => l | _ => acc end) h ""%string.
Definition grid_after (h : list plot_setter) : bool := fold_left (fun acc s => match s with Grid b => b | _ => acc end) h true.
Section Plot.
Variable V : Type.
Definition expected_curve (x : list V) (y : list V) (color label : string) : curve V :=
  mk_curve x y color (if (label =? "")%string then None else Some label).
Lemma at_ub_nth (T : Type) (l : list T) i d : i < length l -> at_ub l i = Ok (nth i l d).
Proof. intros H. unfold at_ub. rewrite (nth_error_nth' l d H). reflexivity. Qed.
Lemma draw_curves_spec ys : forall (o : plot2d V), length (p_colors o) = 8 -> p_label_idx o = p_color_idx o -> length (p_labels o) = p_color_idx o + length ys ->
  exists o' cs, draw_curves o ys = Ok (o', cs) /\ p_colors o' = p_colors o /\ p_grid o' = p_grid o /\ p_x o' = p_x o /\ p_y o' = p_y o /\ p_labels o' = p_labels o /\
   length cs = length ys /\
   forall k y, nth_error ys k = Some y ->
     nth_error cs k = Some (expected_curve (p_x o) y (nth ((p_color_idx o + k) mod 8) (p_colors o) ""%string) (nth (p_color_idx o + k) (p_labels o) ""%string)).
Proof.
  induction ys as [|y ys IH]; intros o Hc Hi Hl.
  - exists o, []. repeat split. intros [|k] y' H; discriminate.
  - cbn [draw_curves]. unfold draw_curve. rewrite Hc, Hi.
    rewrite (at_ub_nth _ ""%string) by (rewrite Hc; now apply Nat.mod_upper_bound). cbn [bind].
    rewrite (at_ub_nth _ ""%string) by (rewrite Hl; cbn [length]; lia). cbn [bind fst snd].
    match goal with |- context [draw_curves ?o1 ys] => destruct (IH o1) as [o' [cs [E [E1 [E2 [E3 [E4 [E5 [L N]]]]]]]]] end;
      cbn [p_colors p_color_idx p_grid p_x p_y p_labels p_label_idx] in *; [exact Hc|reflexivity|rewrite Hl; cbn [length]; lia|].
    rewrite E. cbn [bind fst snd]. eexists. eexists. split; [reflexivity|]. repeat split; try assumption; [cbn [length]; now rewrite L|].
    intros [|k] y' Hk; cbn [nth_error] in *.
    + injection Hk as <-. rewrite Nat.add_0_r. reflexivity.
    + rewrite (N k y' Hk). now replace (S (p_color_idx o) + k) with (p_color_idx o + S k) by lia.
Qed.
(** the plot object and its drawing correspond to the settings *)
Definition plot_ok (x : list V) (ys : list (list V)) (col lab : nat -> string) (grid : bool) (p : plot2d V * (list (curve V) * bool)) : Prop :=
  length (p_colors (fst p)) = 8 /\ (forall k, nth (k mod 8) (p_colors (fst p)) ""%string = col k) /\
  length (p_labels (fst p)) = length ys /\ (forall k, k < length ys -> nth k (p_labels (fst p)) ""%string = lab k) /\
  p_grid (fst p) = grid /\ p_x (fst p) = x /\ p_y (fst p) = ys /\
  snd (snd p) = grid /\ length (fst (snd p)) = length ys /\
  forall k y, nth_error ys k = Some y -> nth_error (fst (snd p)) k = Some (expected_curve x y (col k) (lab k)).
Lemma redraw_plot_ok x ys col lab grid (o : plot2d V) : length (p_colors o) = 8 -> (forall k, nth (k mod 8) (p_colors o) ""%string = col k) ->
  length (p_labels o) = length ys -> (forall k, k < length ys -> nth k (p_labels o) ""%string = lab k) -> p_grid o = grid -> p_x o = x -> p_y o = ys ->
  exists p, redraw_plot o = Ok p /\ plot_ok x ys col lab grid p.
Proof.
  intros Hc Hcol Hl Hlab Hg Hx Hy. unfold redraw_plot.
  match goal with |- context [draw_curves ?o1 _] => destruct (@draw_curves_spec (p_y o) o1) as [o' [cs [E [E1 [E2 [E3 [E4 [E5 [L N]]]]]]]]] end;
    cbn [p_colors p_color_idx p_grid p_x p_y p_labels p_label_idx] in *; [exact Hc|reflexivity|now rewrite Hl, Hy|].
  rewrite E. cbn [bind]. eexists. split; [reflexivity|]. unfold plot_ok. cbn [fst snd]. rewrite E1, E2, E3, E4, E5.
  repeat split; try assumption; [now rewrite <- Hy|]. intros k y Hk. subst ys x. rewrite (N k y Hk). cbn [Nat.add]. rewrite Hcol.
  rewrite Hlab; [reflexivity|]. apply nth_error_Some. now rewrite Hk.
Qed.
Lemma nth_repeat_lt (T : Type) (x d : T) n k : k < n -> nth k (repeat x n) d = x.
Proof. revert k. induction n as [|n IH]; intros [|k] H; try lia; [reflexivity|]. cbn. apply IH. lia. Qed.
Lemma plot_calls_ok x ys h : (forall l, In (Labels l) h -> length l = length ys) ->
  forall col lab grid p, plot_ok x ys col lab grid p ->
  exists q, plot_calls h p = Ok q /\
    plot_ok x ys (fun k => fold_left (fun acc s => match s with Color c => c | _ => acc end) h (col k))
      (fun k => fold_left (fun acc s => match s with Labels l => nth k l ""%string | Label l => l | _ => acc end) h (lab k))
      (fold_left (fun acc s => match s with Grid b => b | _ => acc end) h grid) q.
Proof.
  induction h as [|s h IH]; intros HL col lab grid p P; [exists p; split; [reflexivity|exact P]|].
  assert (HL' : forall l, In (Labels l) h -> length l = length ys) by (intros l Hl; apply HL; now right).
  destruct P as [Hc [Hcol [Hl [Hlab [Hg [Hx [Hy _]]]]]]]. cbn [plot_calls fold_left].
  assert (S1 : exists q, plot_call s (fst p) = Ok q /\
    plot_ok x ys (fun k => match s with Color c => c | _ => col k end) (fun k => match s with Labels l => nth k l ""%string | Label l => l | _ => lab k end)
      (match s with Grid b => b | _ => grid end) q).
  { unfold plot_call. destruct p as [o d]. cbn [fst snd] in *. destruct o as [pc ci g px py pl li]. cbn [p_colors p_color_idx p_grid p_x p_y p_labels p_label_idx] in *.
    destruct s as [c|b|l|l]; cbn [plot_set]; apply redraw_plot_ok; cbn [p_colors p_color_idx p_grid p_x p_y p_labels p_label_idx]; try assumption; try reflexivity.
    - now rewrite repeat_length.
    - intros k. rewrite Hc. apply nth_repeat_lt. now apply Nat.mod_upper_bound.
    - apply HL. now left.
    - now rewrite repeat_length.
    - intros k Hk. apply nth_repeat_lt. now rewrite Hl. }
  destruct S1 as [q [-> Pq]]. cbn [bind]. destruct (IH HL' _ _ _ _ Pq) as [r [-> Pr]]. exists r. split; [reflexivity|]. exact Pr.
Qed.
Lemma plot_history x y0 ys h : length x = length y0 -> (forall l, In (Labels l) h -> length l = S (length ys)) ->
  exists o cs, bind (plot_new x y0 ys) (plot_calls h) = Ok (o, (cs, grid_after h)) /\ length cs = S (length ys) /\
    forall k y, nth_error (y0 :: ys) k = Some y -> nth_error cs k = Some (expected_curve x y (color_after h k) (label_after h k)).
Proof.
  intros Hx HL. unfold plot_new. rewrite Hx, Nat.eqb_refl. cbn [require].
  destruct (@redraw_plot_ok x (y0 :: ys) (fun k => nth (k mod 8) default_colors ""%string) (fun _ => ""%string) true
    (mk_plot default_colors 0 true x (y0 :: ys) (repeat ""%string (S (length ys))) 0)) as [p [-> P]]; try reflexivity.
  - cbn [p_labels length]. now rewrite repeat_length.
  - intros k Hk. apply nth_repeat_lt. exact Hk.
  - cbn [bind]. destruct (@plot_calls_ok x (y0 :: ys) h HL _ _ _ _ P) as [[o [cs g]] [-> Q]]. destruct Q as (_ & _ & _ & _ & _ & _ & _ & Hg & Lc & N).
    cbn [fst snd] in *. exists o, cs. split; [now rewrite Hg|]. split; [exact Lc|exact N].
Qed.
End Plot.

(** ** boxplot *)
From Verif Require Import FunctionalProofs FlFacts StatsOrder StatsQuantile.
(** the settings after a history of calls *)
Definition width_after (h : list setter) (i : nat) : num := fold_left (fun acc s => match s with Widths1 x => x | Widths l => nth i l NaN | _ => acc end) h (Fin (Q2Qc (1 # 10))).
Definition capwidth_after (h : list setter) (i : nat) : num := fold_left (fun acc s => match s with Capwidths1 x => x | Capwidths l => nth i l NaN | _ => acc end) h (Fin (Q2Qc (1 # 10))).
Definition whis_after (h : list setter) : num := fold_left (fun acc s => match s with Whis w => w | _ => acc end) h (Fin (Q2Qc (3 # 2))).
Definition showcaps_after (h : list setter) : bool := fold_left (fun acc s => match s with Showcaps b => b | _ => acc end) h true.
Definition showbox_after (h : list setter) : bool := fold_left (fun acc s => match s with Showbox b => b | _ => acc end) h true.
Definition showfliers_after (h : list setter) : bool := fold_left (fun acc s => match s with Showfliers b => b | _ => acc end) h true.
Definition showmeans_after (h : list setter) : bool := fold_left (fun acc s => match s with Showmeans b => b | _ => acc end) h false.
Definition boxcolor_after (h : list setter) : string := fold_left (fun acc s => match s with Boxcolor c => c | _ => acc end) h "blue"%string.
(** what is to be seen of one data set: a whisker line from lo to hi at the abscissa pos, its caps of half width c, the box from Q1 to Q3 of half
    width w with its border, the fliers, the median line, the mean *)
Definition expected_box (pos w c lo hi Q1 Q3 med mean : num) (fliers : list num) (sc sb sf sm : bool) (color : string) : list mark :=
  [Segment pos lo pos hi "black"] ++
  (if sc then [Segment (fsub pos c) lo (fadd pos c) lo "black"; Segment (fsub pos c) hi (fadd pos c) hi "black"] else []) ++
  (if sb then [Filled (fsub pos w) (fadd pos w) Q1 Q3 color; Segment (fsub pos w) Q1 (fadd pos w) Q1 color; Segment (fsub pos w) Q3 (fadd pos w) Q3 color;
               Segment (fsub pos w) Q1 (fsub pos w) Q3 color; Segment (fadd pos w) Q1 (fadd pos w) Q3 color] else []) ++
  (if sf then [Dots (repeat pos (length fliers)) fliers 7 "blue"] else []) ++
  [Segment (fsub pos w) med (fadd pos w) med "orange"] ++
  (if sm then [Dots [pos] [mean] 13 "red"] else []).
Section Boxplot.
Variable f : nat -> list num -> list num.
Definition expected_of (o : box) (i : nat) (s : box_stats) : list mark :=
  expected_box (Fin (qn (i + 1))) (nth i (m_widths o) NaN) (nth i (m_capwidths o) NaN) (fsub (st_median s) (fmul (m_whis o) (st_iqr s)))
    (fadd (st_median s) (fmul (m_whis o) (st_iqr s))) (st_Q1 s) (st_Q3 s) (st_median s) (st_mean s) (st_fliers s)
    (m_showcaps o) (m_showbox o) (m_showfliers o) (m_showmeans o) (m_boxcolor o).
Lemma draw_box_spec o i s : i < length (m_widths o) -> i < length (m_capwidths o) -> draw_box o i s = Ok (expected_of o i s).
Proof.
  intros H1 H2. unfold draw_box, expected_of, expected_box. rewrite (at_ub_nth _ NaN H1). cbn [bind]. rewrite (at_ub_nth _ NaN H2).
  destruct (m_showcaps o); cbn [bind]; reflexivity.
Qed.
Lemma draw_boxes_spec o l : forall i, i + length l <= length (m_widths o) -> i + length l <= length (m_capwidths o) ->
  exists parts, draw_boxes o i l = Ok (concat parts) /\ length parts = length l /\
    forall k s, nth_error l k = Some s -> nth_error parts k = Some (expected_of o (i + k) s).
Proof.
  induction l as [|s l IH]; intros i H1 H2.
  - exists []. repeat split. intros [|k] s H; discriminate.
  - cbn [length] in *. cbn [draw_boxes]. rewrite draw_box_spec by lia. cbn [bind]. destruct (IH (S i)) as [parts [-> [L N]]]; [lia|lia|]. cbn [bind].
    exists (expected_of o i s :: parts). split; [reflexivity|]. split; [cbn; now rewrite L|]. intros [|k] t Hk; cbn [nth_error] in *.
    + injection Hk as <-. now rewrite Nat.add_0_r.
    + rewrite (N k t Hk). now rewrite Nat.add_succ_r.
Qed.
(** an object agrees with settings *)
Definition box_ok (data : list (list num)) (wd cw : nat -> num) (wh : num) (sc sb sf sm : bool) (col : string) (o : box) : Prop :=
  m_data o = data /\ data_stats f data wh = Ok (m_stats o) /\ length (m_stats o) = length data /\
  length (m_widths o) = length data /\ (forall i, i < length data -> nth i (m_widths o) NaN = wd i) /\
  length (m_capwidths o) = length data /\ (forall i, i < length data -> nth i (m_capwidths o) NaN = cw i) /\
  m_whis o = wh /\ m_showcaps o = sc /\ m_showbox o = sb /\ m_showfliers o = sf /\ m_showmeans o = sm /\ m_boxcolor o = col.
Lemma redrawn_ok data wd cw wh sc sb sf sm col o : box_ok data wd cw wh sc sb sf sm col o -> exists parts, redrawn o = Ok (o, concat parts) /\ length parts = length data /\
  forall i s, nth_error (m_stats o) i = Some s -> nth_error parts i = Some (expected_of o i s).
Proof.
  intros (H1 & H2 & H3 & H4 & H5 & H6 & H7 & H8). unfold redrawn, redraw. destruct (@draw_boxes_spec o (m_stats o) 0) as [parts [-> [L N]]]; [lia|lia|].
  cbn [bind]. exists parts. split; [reflexivity|]. split; [congruence|exact N].
Qed.
Definition no_capwidths1 (h : list setter) : Prop := forall w, ~ In (Capwidths1 w) h.
Definition sizes_ok (n : nat) (h : list setter) : Prop := forall l, In (Widths l) h \/ In (Capwidths l) h -> length l = n.
Lemma calls_ok data : (forall w, exists st, data_stats f data w = Ok st /\ length st = length data) ->
  forall h, no_capwidths1 h -> sizes_ok (length data) h ->
  forall wd cw wh sc sb sf sm col o d, box_ok data wd cw wh sc sb sf sm col o -> redrawn o = Ok (o, d) ->
  exists q, calls f h (o, d) = Ok q /\ redrawn (fst q) = Ok q /\
    box_ok data (fun i => fold_left (fun acc s => match s with Widths1 x => x | Widths l => nth i l NaN | _ => acc end) h (wd i))
      (fun i => fold_left (fun acc s => match s with Capwidths1 x => x | Capwidths l => nth i l NaN | _ => acc end) h (cw i))
      (fold_left (fun acc s => match s with Whis w => w | _ => acc end) h wh)
      (fold_left (fun acc s => match s with Showcaps b => b | _ => acc end) h sc)
      (fold_left (fun acc s => match s with Showbox b => b | _ => acc end) h sb)
      (fold_left (fun acc s => match s with Showfliers b => b | _ => acc end) h sf)
      (fold_left (fun acc s => match s with Showmeans b => b | _ => acc end) h sm)
      (fold_left (fun acc s => match s with Boxcolor c => c | _ => acc end) h col) (fst q).
Proof.
  intros Hst. induction h as [|s h IH]; intros Hn Hz wd cw wh sc sb sf sm col o d P R; [exists (o, d); split; [reflexivity|]; split; [exact R|exact P]|].
  cbn [calls fold_left].
  assert (S1 : exists o', set f s o = Ok o' /\ box_ok data (fun i => match s with Widths1 x => x | Widths l => nth i l NaN | _ => wd i end)
     (fun i => match s with Capwidths1 x => x | Capwidths l => nth i l NaN | _ => cw i end) (match s with Whis w => w | _ => wh end)
     (match s with Showcaps b => b | _ => sc end) (match s with Showbox b => b | _ => sb end) (match s with Showfliers b => b | _ => sf end)
     (match s with Showmeans b => b | _ => sm end) (match s with Boxcolor c => c | _ => col end) o').
  { destruct P as (H1 & H2 & H3 & H4 & H5 & H6 & H7 & H8 & H9 & H10 & H11 & H12 & H13). destruct o as [od os ow oc owh osc osb osf osm ocol].
    cbn [m_data m_stats m_widths m_capwidths m_whis m_showcaps m_showbox m_showfliers m_showmeans m_boxcolor] in *. subst od owh osc osb osf osm ocol.
    destruct s as [b|b|b|b|w|l|w|l|c|w]; cbn [set]; try (eexists; split; [reflexivity|]; unfold box_ok; cbn [m_data m_stats m_widths m_capwidths m_whis m_showcaps m_showbox m_showfliers m_showmeans m_boxcolor]; repeat (split; [first [assumption|reflexivity]|]); first [assumption|reflexivity]).
    - exfalso. apply (Hn w). now left.
    - eexists; split; [reflexivity|]. unfold box_ok; cbn [m_data m_stats m_widths m_capwidths m_whis m_showcaps m_showbox m_showfliers m_showmeans m_boxcolor].
      repeat (split; [first [assumption|reflexivity]|]). split; [apply Hz; right; now left|]. repeat (split; [first [assumption|reflexivity|intros; reflexivity]|]); reflexivity.
    - eexists; split; [reflexivity|]. unfold box_ok; cbn [m_data m_stats m_widths m_capwidths m_whis m_showcaps m_showbox m_showfliers m_showmeans m_boxcolor].
      repeat (split; [first [assumption|reflexivity]|]). split; [now rewrite repeat_length|]. split; [intros i Hi; apply nth_repeat_lt; lia|].
      repeat (split; [first [assumption|reflexivity]|]). reflexivity.
    - eexists; split; [reflexivity|]. unfold box_ok; cbn [m_data m_stats m_widths m_capwidths m_whis m_showcaps m_showbox m_showfliers m_showmeans m_boxcolor].
      repeat (split; [first [assumption|reflexivity]|]). split; [apply Hz; left; now left|]. repeat (split; [first [assumption|reflexivity|intros; reflexivity]|]); reflexivity.
    - destruct (Hst w) as [st [E L]]. rewrite E. cbn [bind]. eexists; split; [reflexivity|]. unfold box_ok; cbn [m_data m_stats m_widths m_capwidths m_whis m_showcaps m_showbox m_showfliers m_showmeans m_boxcolor].
      repeat (split; [first [assumption|reflexivity]|]). reflexivity. }
  destruct S1 as [o' [E' P']]. unfold call at 1. cbn [fst]. rewrite E'. cbn [bind]. destruct (redrawn_ok P') as [parts [R' _]]. rewrite R'. cbn [bind].
  destruct (IH (fun w Hw => Hn w (or_intror Hw)) (fun l Hl => Hz l match Hl with or_introl a => or_introl (or_intror a) | or_intror a => or_intror (or_intror a) end) _ _ _ _ _ _ _ _ _ _ P' R') as [q [Eq [Rq Pq]]].
  exists q. split; [exact Eq|]. split; [exact Rq|]. exact Pq.
Qed.
(** finite, non-empty data have statistics *)
Definition finite_data (data : list (list num)) : Prop := forall d, In d data -> exists x, x <> [] /\ d = map Fin x.
Definition whisker_fliers (d : list num) (lo hi : num) : list num := List.filter (fun x => flt x lo || flt hi x) d.
Lemma data_stats1_spec d w : nth_element_contract f -> (exists x, x <> [] /\ d = map Fin x) -> exists Q1 Q3 med,
  percentile f LINEAR d (qz 25) = Ok Q1 /\ percentile f LINEAR d (qz 75) = Ok Q3 /\ median NaN flt fadd fdiv (Fin (qz 2)) f d = Ok med /\
  data_stats1 f w d = Ok (mk_stats med (fmean d) Q1 Q3 (fsub Q3 Q1)
    (whisker_fliers d (fsub med (fmul w (fsub Q3 Q1))) (fadd med (fmul w (fsub Q3 Q1))))).
Proof.
  intros Hf [x [Hx ->]].
  assert (Hnum : Forall is_num (map Fin x)) by (apply Forall_forall; intros y Hy; apply in_map_iff in Hy; destruct Hy as [q [<- _]]; discriminate).
  destruct (sorted_version_exists _ Hnum) as [s Hs].
  assert (exists sx, s = map Fin sx /\ sx <> []) as [sx [-> Hsx]].
  { destruct Hs as [P _]. destruct (Permutation_map_inv Fin _ (Permutation_sym P)) as [sx [E Pq]]. exists sx. split; [exact E|]. intros ->. apply Permutation_sym, Permutation_nil in Pq. contradiction. }
  destruct (@quantile_bounds f Hf _ sx Hs Hsx LINEAR (qz 25 / qz 100)%Qc) as [v1 [E1 _]]; [discriminate|discriminate|].
  destruct (@quantile_bounds f Hf _ sx Hs Hsx LINEAR (qz 75 / qz 100)%Qc) as [v3 [E3 _]]; [discriminate|discriminate|].
  assert (Hne : map Fin x <> []) by (destruct x; [contradiction|discriminate]).
  pose proof (median_spec f (map Fin x) (map Fin sx) Hf Hnum Hs Hne) as Em.
  eexists. eexists. eexists. split; [exact E1|]. split; [exact E3|]. split; [exact Em|]. unfold data_stats1. unfold percentile at 1 2. rewrite E1. cbn [bind]. rewrite E3. cbn [bind]. rewrite Em. cbn [bind].
  rewrite filter_scicpp_filter. reflexivity.
Qed.
Lemma map_outcome_spec (A B : Type) (g : A -> outcome B) l : (forall x, In x l -> exists y, g x = Ok y) -> exists r, map_outcome g l = Ok r /\ length r = length l /\
  forall i x, nth_error l i = Some x -> exists y, nth_error r i = Some y /\ g x = Ok y.
Proof.
  induction l as [|x l IH]; intros H; [exists []; repeat split; intros [|i] y Hy; discriminate|].
  destruct (H x (or_introl eq_refl)) as [y Ey]. destruct IH as [r [Er [L N]]]; [intros z Hz; apply H; now right|]. cbn [map_outcome]. rewrite Ey. cbn [bind]. rewrite Er. cbn [bind].
  exists (y :: r). split; [reflexivity|]. split; [cbn; now rewrite L|]. intros [|i] z Hz; cbn [nth_error] in *; [injection Hz as <-; now exists y|now apply N].
Qed.
Lemma data_stats_ok data w : nth_element_contract f -> finite_data data -> exists st, data_stats f data w = Ok st /\ length st = length data.
Proof.
  intros Hf Hd. destruct (@map_outcome_spec _ _ (data_stats1 f w) data) as [st [E [L _]]]; [|now exists st].
  intros d Hin. destruct (@data_stats1_spec d w Hf (Hd d Hin)) as [Q1 [Q3 [med [_ [_ [_ E]]]]]]. eexists; exact E.
Qed.
End Boxplot.
Lemma boxplot_history f data h : nth_element_contract f -> finite_data data -> no_capwidths1 h -> sizes_ok (length data) h ->
  exists o parts, bind (boxplot_new f true data) (calls f h) = Ok (o, concat parts) /\ length parts = length data /\
  forall i d, nth_error data i = Some d -> exists Q1 Q3 med,
    percentile f LINEAR d (qz 25) = Ok Q1 /\ percentile f LINEAR d (qz 75) = Ok Q3 /\ median NaN flt fadd fdiv (Fin (qz 2)) f d = Ok med /\
    let lo := fsub med (fmul (whis_after h) (fsub Q3 Q1)) in let hi := fadd med (fmul (whis_after h) (fsub Q3 Q1)) in
    nth_error parts i = Some (expected_box (Fin (qn (i + 1))) (width_after h i) (capwidth_after h i) lo hi Q1 Q3 med (fmean d) (whisker_fliers d lo hi)
      (showcaps_after h) (showbox_after h) (showfliers_after h) (showmeans_after h) (boxcolor_after h)).
Proof.
  intros Hf Hd Hn Hz. assert (Hst : forall w, exists st, data_stats f data w = Ok st /\ length st = length data) by (intros w; now apply data_stats_ok).
  unfold boxplot_new. destruct (Hst (Fin (Q2Qc (3 # 2)))) as [st [E L]]. rewrite E. cbn [bind].
  match goal with |- context [redrawn ?o0] => assert (P0 : box_ok f data (fun _ => tenth) (fun _ => tenth) (Fin (Q2Qc (3 # 2))) true true true false "blue" o0) end.
  { unfold box_ok. cbn [m_data m_stats m_widths m_capwidths m_whis m_showcaps m_showbox m_showfliers m_showmeans m_boxcolor]. rewrite !repeat_length.
    repeat split; try assumption; intros i Hi; now apply nth_repeat_lt. }
  destruct (redrawn_ok P0) as [parts0 [R0 _]]. rewrite R0. cbn [bind].
  destruct (@calls_ok f data Hst h Hn Hz _ _ _ _ _ _ _ _ _ _ P0 R0) as [[o marks] [Eq [Rq Pq]]]. cbn [fst] in *.
  destruct (redrawn_ok Pq) as [parts [R [Lp N]]]. rewrite R in Rq. injection Rq as <-. exists o, parts. split; [exact Eq|]. split; [exact Lp|].
  intros i d Hi. assert (Hin : In d data) by (eapply nth_error_In; exact Hi). assert (Hlt : i < length data) by (apply nth_error_Some; now rewrite Hi).
  destruct Pq as (_ & H2 & H3 & H4 & H5 & H6 & H7 & H8 & H9 & H10 & H11 & H12 & H13).
  destruct (@data_stats1_spec f d (whis_after h) Hf (Hd d Hin)) as [Q1 [Q3 [med [E1 [E3 [Em Es]]]]]]. exists Q1, Q3, med. repeat (split; [assumption|]). cbv zeta.
  destruct (@map_outcome_spec _ _ (data_stats1 f (whis_after h)) data) as [st' [E' [_ N']]].
  { intros d' Hd'. destruct (@data_stats1_spec f d' (whis_after h) Hf (Hd d' Hd')) as [? [? [? [_ [_ [_ Ex]]]]]]. eexists; exact Ex. }
  unfold data_stats in H2. unfold whis_after in E'. rewrite E' in H2. injection H2 as ->. destruct (N' i d Hi) as [s [Hs Es']]. rewrite Es in Es'. injection Es' as <-.
  rewrite (N i _ Hs). unfold expected_of. cbn [st_median st_mean st_Q1 st_Q3 st_iqr st_fliers].
  rewrite (H5 i Hlt), (H7 i Hlt), H8, H9, H10, H11, H12, H13. reflexivity.
Qed.
Lemma vector_ub f data : nth_element_contract f -> finite_data data -> data <> [] -> boxplot_new f false data = UB.
Proof.
  intros Hf Hd Hne. unfold boxplot_new. destruct (@data_stats_ok f data (Fin (Q2Qc (3 # 2))) Hf Hd) as [st [E L]]. rewrite E. cbn [bind].
  destruct st as [|s st]; [destruct data; [contradiction|discriminate L]|]. reflexivity.
Qed.
Lemma calls_app f h1 : forall h2 p, calls f (h1 ++ h2) p = do q <- calls f h1 p; calls f h2 q.
Proof. induction h1 as [|s h1 IH]; intros h2 p; [reflexivity|]. cbn [calls app]. destruct (call f s p) as [q| | |]; cbn [bind]; [apply IH|reflexivity..]. Qed.
Lemma boxplot_object f data h : nth_element_contract f -> finite_data data -> no_capwidths1 h -> sizes_ok (length data) h ->
  exists q, bind (boxplot_new f true data) (calls f h) = Ok q /\
    box_ok f data (width_after h) (capwidth_after h) (whis_after h) (showcaps_after h) (showbox_after h) (showfliers_after h) (showmeans_after h) (boxcolor_after h) (fst q).
Proof.
  intros Hf Hd Hn Hz. assert (Hst : forall w, exists st, data_stats f data w = Ok st /\ length st = length data) by (intros w; now apply data_stats_ok).
  unfold boxplot_new. destruct (Hst (Fin (Q2Qc (3 # 2)))) as [st [E L]]. rewrite E. cbn [bind].
  match goal with |- context [redrawn ?o0] => assert (P0 : box_ok f data (fun _ => tenth) (fun _ => tenth) (Fin (Q2Qc (3 # 2))) true true true false "blue" o0) end.
  { unfold box_ok. cbn [m_data m_stats m_widths m_capwidths m_whis m_showcaps m_showbox m_showfliers m_showmeans m_boxcolor]. rewrite !repeat_length.
    repeat split; try assumption; intros i Hi; now apply nth_repeat_lt. }
  destruct (redrawn_ok P0) as [parts0 [R0 _]]. rewrite R0. cbn [bind].
  destruct (@calls_ok f data Hst h Hn Hz _ _ _ _ _ _ _ _ _ _ P0 R0) as [q [Eq [_ Pq]]]. exists q. split; [exact Eq|exact Pq].
Qed.
Lemma short_widths_ub f data h : nth_element_contract f -> finite_data data -> no_capwidths1 h -> sizes_ok (length data) h -> data <> [] ->
  bind (boxplot_new f true data) (calls f (h ++ [Widths []])) = UB.
Proof.
  intros Hf Hd Hn Hz Hne. destruct (@boxplot_object f data h Hf Hd Hn Hz) as [q [E P]]. destruct (boxplot_new f true data) as [p| | |] eqn:En; try discriminate E.
  cbn [bind] in *. rewrite calls_app, E. cbn [bind calls]. destruct P as (_ & _ & L & _). destruct q as [o d]. cbn [fst] in *. destruct o as [od os ow oc owh osc osb osf osm ocol].
  unfold call. cbn [fst set bind]. unfold redrawn, redraw. cbn [m_stats] in *. destruct os as [|s os]; [destruct data; [contradiction|discriminate L]|]. reflexivity.
Qed.
(** the settings after two histories agree *)
Definition same_settings (n : nat) (h h' : list setter) : Prop :=
  (forall i, i < n -> width_after h i = width_after h' i) /\ (forall i, i < n -> capwidth_after h i = capwidth_after h' i) /\ whis_after h = whis_after h' /\
  showcaps_after h = showcaps_after h' /\ showbox_after h = showbox_after h' /\ showfliers_after h = showfliers_after h' /\
  showmeans_after h = showmeans_after h' /\ boxcolor_after h = boxcolor_after h'.
Lemma boxplot_last_wins f data h h' : nth_element_contract f -> finite_data data -> no_capwidths1 h -> sizes_ok (length data) h ->
  no_capwidths1 h' -> sizes_ok (length data) h' -> same_settings (length data) h h' ->
  exists o o' d, bind (boxplot_new f true data) (calls f h) = Ok (o, d) /\ bind (boxplot_new f true data) (calls f h') = Ok (o', d).
Proof.
  intros Hf Hd Hn Hz Hn' Hz' (S1 & S2 & S3 & S4 & S5 & S6 & S7 & S8).
  destruct (@boxplot_history f data h Hf Hd Hn Hz) as [o [parts [E [L N]]]]. destruct (@boxplot_history f data h' Hf Hd Hn' Hz') as [o' [parts' [E' [L' N']]]].
  exists o, o', (concat parts). split; [exact E|]. rewrite E'. do 3 f_equal. apply nth_error_ext'. intros i.
  destruct (nth_error data i) as [d|] eqn:Ei.
  - assert (Hlt : i < length data) by (apply nth_error_Some; now rewrite Ei).
    destruct (N i d Ei) as [Q1 [Q3 [med [E1 [E3 [Em P]]]]]]. destruct (N' i d Ei) as [Q1' [Q3' [med' [E1' [E3' [Em' P']]]]]]. cbv zeta in P, P'. rewrite P, P'.
    rewrite E1 in E1'. injection E1' as <-. rewrite E3 in E3'. injection E3' as <-. rewrite Em in Em'. injection Em' as <-.
    now rewrite S1, S2, S3, S4, S5, S6, S7, S8 by exact Hlt.
  - apply nth_error_None in Ei. transitivity (@None (list mark)); [|symmetry]; apply nth_error_None; lia.
Qed.
(** comparing finite numbers by their values *)
Definition fin_part (x : num) : option Q := match x with Fin q => Some (Qcanon.this q) | _ => None end.
Lemma fin_part_eq x q : fin_part x = Some (Qcanon.this q) -> x = Fin q.
Proof. destruct x; try discriminate. intros E. injection E as E. f_equal. apply Qc_is_canon. now rewrite E. Qed.
Lemma fin_parts_eq l : forall r, map fin_part l = map (fun q => Some (Qcanon.this q)) r -> l = map Fin r.
Proof. induction l as [|x l IH]; intros [|q r] E; try discriminate; [reflexivity|]. cbn [map] in *. injection E as E1 E2. f_equal; [now apply fin_part_eq|now apply IH]. Qed.
Lemma ok_fin_eq o q : match o with Ok x => fin_part x | _ => None end = Some (Qcanon.this q) -> o = Ok (Fin q).
Proof. destruct o; try discriminate. intros E. f_equal. now apply fin_part_eq. Qed.
