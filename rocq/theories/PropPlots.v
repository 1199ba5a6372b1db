(** C100-C102: what boxplot and plot draw. *)
From Coq Require Import Ascii String ZArith.
From Verif Require Import Base Functional BaseFl FlFacts Numeric RangeManips Stats StatsVar StatsOrder Misc Plots PlotsFacts.
Open Scope nat_scope.
Set Implicit Arguments.
Notation length := List.length.
Notation num := BaseFl.fl.

(** C100.  A std::array of data sets ([boxplot_new f true]) and any history of calls of the member functions: the drawing is, data set by data
    set, the [expected_box] with the whiskers at median -+ whis * (Q3 - Q1), and the fliers are exactly the elements outside the whiskers.
    [width_after h i] ... are the settings the history leaves, the last call wins.  Excluded: capwidths(double), and lists of widths with
    another size than the data. *)
Theorem C100_drawing_partial : forall (f : nat -> list num -> list num) (data : list (list num)) (h : list setter),
  nth_element_contract f -> finite_data data -> no_capwidths1 h -> sizes_ok (length data) h ->
  exists o parts, bind (boxplot_new f true data) (calls f h) = Ok (o, concat parts) /\ length parts = length data /\
  forall i d, nth_error data i = Some d -> exists Q1 Q3 med,
    percentile f LINEAR d (qz 25) = Ok Q1 /\ percentile f LINEAR d (qz 75) = Ok Q3 /\ median NaN flt fadd fdiv (Fin (qz 2)) f d = Ok med /\
    let lo := fsub med (fmul (whis_after h) (fsub Q3 Q1)) in let hi := fadd med (fmul (whis_after h) (fsub Q3 Q1)) in
    nth_error parts i = Some (expected_box (Fin (qn (i + 1))) (width_after h i) (capwidth_after h i) lo hi Q1 Q3 med (fmean d)
      (List.filter (fun x => flt x lo || flt hi x) d)
      (showcaps_after h) (showbox_after h) (showfliers_after h) (showmeans_after h) (boxcolor_after h)).
Proof. exact boxplot_history. Qed.
Print Assumptions C100_drawing_partial.
(** FINDING: the widths are allocated before the statistics: with a std::vector of data sets the constructor already reads outside them *)
Theorem C100_vector_refuted : forall (f : nat -> list num -> list num) (data : list (list num)),
  nth_element_contract f -> finite_data data -> data <> [] -> boxplot_new f false data = UB.
Proof. exact vector_ub. Qed.
Print Assumptions C100_vector_refuted.
(** FINDING: the fliers are not the elements further than whis * (Q3 - Q1) from the box: here Q1 = 0, Q3 = 10 and 16 < Q3 + 1.5 * 10 is
    drawn as a flier (the limits are taken from the median) *)
Theorem C100_fliers_refuted : let f := fun (_ : nat) v => isort v in let d := map (fun z => Fin (qz z)) [0; 0; 0; 10; 16]%Z in
  nth_element_contract f /\ percentile f LINEAR d (qz 25) = Ok (Fin (qz 0)) /\ percentile f LINEAR d (qz 75) = Ok (Fin (qz 10)) /\
  exists s, data_stats1 f (Fin (Q2Qc (3 # 2))) d = Ok s /\ st_fliers s = [Fin (qz 16)] /\
    flt (Fin (qz 16)) (fadd (Fin (qz 10)) (fmul (Fin (Q2Qc (3 # 2))) (Fin (qz 10)))) = true.
Proof.
  cbv zeta. split; [exact nth_element_contract_inhabited|]. split; [apply ok_fin_eq; vm_compute; reflexivity|]. split; [apply ok_fin_eq; vm_compute; reflexivity|].
  match goal with |- exists s, ?e = Ok s /\ _ => assert (F : match e with Ok s => map fin_part (st_fliers s) | _ => [] end = [Some (qz 16 : Q)]) by (vm_compute; reflexivity); destruct e as [s| | |] end; try discriminate F.
  exists s. split; [reflexivity|]. split; [apply fin_parts_eq with (r := [qz 16]); exact F|vm_compute; reflexivity].
Qed.
Print Assumptions C100_fliers_refuted.

(** C101.  FINDING: capwidths(double) changes the widths of the boxes and not those of the caps *)
Theorem C101_capwidths_refuted : forall (f : nat -> list num -> list num) (w : num) (o : box),
  set f (Capwidths1 w) o = set f (Widths1 w) o /\ (forall o', set f (Capwidths1 w) o = Ok o' -> m_capwidths o' = m_capwidths o).
Proof. intros f w [d st ws cw wh sc sb sf sm col]. split; [reflexivity|]. intros o' E. injection E as <-. reflexivity. Qed.
Print Assumptions C101_capwidths_refuted.
(** widths and capwidths with a list that is too short: read outside the list *)
Theorem C101_short_refuted : forall (f : nat -> list num -> list num) (data : list (list num)) (h : list setter),
  nth_element_contract f -> finite_data data -> no_capwidths1 h -> sizes_ok (length data) h -> data <> [] ->
  bind (boxplot_new f true data) (calls f (h ++ [Widths []])) = UB.
Proof. exact short_widths_ub. Qed.
Print Assumptions C101_short_refuted.
(** the drawing depends only on the last call for each setting: not on the order, nor on earlier calls *)
Theorem C101_last_wins_partial : forall (f : nat -> list num -> list num) (data : list (list num)) (h h' : list setter),
  nth_element_contract f -> finite_data data -> no_capwidths1 h -> sizes_ok (length data) h -> no_capwidths1 h' -> sizes_ok (length data) h' ->
  same_settings (length data) h h' ->
  exists o o' d, bind (boxplot_new f true data) (calls f h) = Ok (o, d) /\ bind (boxplot_new f true data) (calls f h') = Ok (o', d).
Proof. exact boxplot_last_wins. Qed.
Print Assumptions C101_last_wins_partial.
Example C100_nonvacuous : let f := fun (_ : nat) v => isort v in let data := [map (fun z => Fin (qz z)) [3; 1; 2]%Z] in
  nth_element_contract f /\ finite_data data /\ no_capwidths1 [Whis (Fin (qz 1)); Showbox false] /\ sizes_ok 1 [Whis (Fin (qz 1)); Showbox false] /\
  exists o d, bind (boxplot_new f true data) (calls f [Whis (Fin (qz 1)); Showbox false]) = Ok (o, d) /\ length d = 5.
Proof.
  cbv zeta. split; [exact nth_element_contract_inhabited|]. split; [intros d [ <- | []]; exists (map qz [3; 1; 2]%Z); split; [discriminate|reflexivity]|].
  split; [intros w [H|[H|[]]]; discriminate H|]. split; [intros l [[H|[H|[]]]|[H|[H|[]]]]; discriminate H|].
  match goal with |- exists o d, ?e = Ok (o, d) /\ _ => assert (F : match e with Ok p => length (snd p) | _ => 0 end = 5) by (vm_compute; reflexivity); destruct e as [p| | |] end; try discriminate F.
  exists (fst p), (snd p). split; [now destruct p|exact F].
Qed.
Example C101_nonvacuous : same_settings 3 [Showbox false; Whis (Fin (qz 1)); Showbox true] [Whis (Fin (qz 1))] /\
  ~ same_settings 3 [Showbox false] [].
Proof. split; [repeat split|]. intros (_ & _ & _ & _ & H & _). discriminate H. Qed.

(** C102.  plot(x, y0, ys...) and any history of calls of color, display_grid, labels and label. *)
Theorem C102_history_partial : forall (V : Type) (x y0 : list V) (ys : list (list V)) (h : list plot_setter),
  length x = length y0 -> (forall l, In (Labels l) h -> length l = S (length ys)) ->
  exists o cs, bind (plot_new x y0 ys) (plot_calls h) = Ok (o, (cs, grid_after h)) /\ length cs = S (length ys) /\
    forall k y, nth_error (y0 :: ys) k = Some y ->
      nth_error cs k = Some (mk_curve x y (color_after h k) (if (label_after h k =? "")%string then None else Some (label_after h k))).
Proof. exact plot_history. Qed.
Print Assumptions C102_history_partial.
Theorem C102_first_size : forall (V : Type) (x y0 : list V) (ys : list (list V)), length x <> length y0 -> plot_new x y0 ys = RequireFail.
Proof. intros V x y0 ys H. unfold plot_new. apply Nat.eqb_neq in H. now rewrite H. Qed.
Print Assumptions C102_first_size.
(** FINDING: only the first curve is checked against x, another one of any size is accepted *)
Theorem C102_sizes_refuted : forall (V : Type) (x y0 y1 : list V), length x = length y0 -> length y1 <> length x ->
  exists o c0 c1 g, plot_new x y0 [y1] = Ok (o, ([c0; c1], g)) /\ length (c_x c1) <> length (c_y c1).
Proof.
  intros V x y0 y1 H N. unfold plot_new. rewrite H, Nat.eqb_refl. cbn [require]. eexists. eexists. eexists. eexists. split; [reflexivity|]. cbn. congruence.
Qed.
Print Assumptions C102_sizes_refuted.
(** default colours: the cycle of eight *)
Theorem C102_color_cycle : forall k, color_after [] (k + 8) = color_after [] k /\ In (color_after [] k) palette /\ NoDup palette.
Proof.
  intros k. unfold color_after. cbn [fold_left]. split; [now replace (k + 8) with (k + 1 * 8) by lia; rewrite Nat.mod_add|]. split.
  - apply nth_In. now apply Nat.mod_upper_bound.
  - repeat constructor; cbn; intuition discriminate.
Qed.
Print Assumptions C102_color_cycle.
Example C102_nonvacuous : exists o, bind (plot_new [1; 2] [3; 4] [[5; 6]]) (plot_calls [Grid false; Labels ["a"; ""]%string]) =
  Ok (o, ([mk_curve [1; 2] [3; 4] "blue" (Some "a"%string); mk_curve [1; 2] [5; 6] "green" None], false)).
Proof.
  assert (F : match bind (plot_new [1; 2] [3; 4] [[5; 6]]) (plot_calls [Grid false; Labels ["a"; ""]%string]) with Ok p => Some (snd p) | _ => None end =
    Some ([mk_curve [1; 2] [3; 4] "blue" (Some "a"%string); mk_curve [1; 2] [5; 6] "green" None], false)) by (vm_compute; reflexivity).
  destruct (bind (plot_new [1; 2] [3; 4] [[5; 6]]) (plot_calls [Grid false; Labels ["a"; ""]%string])) as [[o d]| | |]; try discriminate F.
  exists o. cbn [snd] in F. injection F as ->. reflexivity.
Qed.
