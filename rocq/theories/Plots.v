(** Model of scicpp/plots: what the plot classes pass to sciplot.  A drawing is the list of the marks drawn since the last clear(); the
    rendering by sciplot and gnuplot is not modelled. *)
From Coq Require Import Ascii String ZArith.
From Verif Require Import Base Functional BaseFl Numeric RangeManips Stats StatsVar Misc.
Open Scope nat_scope.
Set Implicit Arguments.
Notation length := List.length.
Notation num := BaseFl.fl.

(** drawCurve of two points, drawCurvesFilled between two horizontal lines, drawPoints *)
Inductive mark :=
| Segment (x1 y1 x2 y2 : num) (color : string)
| Filled (x1 x2 y1 y2 : num) (color : string)
| Dots (xs ys : list num) (symbol : nat) (color : string).

(** utils.hpp:15-37 *)
Definition marker (c : Ascii.ascii) : nat :=
  (if c =? "." then 0 else if c =? "+" then 1 else if c =? "x" then 2 else if c =? "s" then 5 else if c =? "o" then 7
   else if c =? "^" then 9 else if c =? "v" then 11 else if c =? "D" then 13 else 0)%char.

(** ** boxplot.hpp *)
Record box_stats := mk_stats { st_median : num; st_mean : num; st_Q1 : num; st_Q3 : num; st_iqr : num; st_fliers : list num }.
Section Boxplot.
(** std::nth_element *)
Variable nth_element : nat -> list num -> list num.
(** boxplot.hpp:25-43, one data set *)
Definition data_stats1 (whis : num) (f : list num) : outcome box_stats :=
  do Q1 <- percentile nth_element LINEAR f (qz 25);
  do Q3 <- percentile nth_element LINEAR f (qz 75);
  let iqr := fsub Q3 Q1 in
  do median <- median NaN flt fadd fdiv (Fin (qz 2)) nth_element f;
  let mean := fmean f in
  let fliers := filter_scicpp f (fun x => flt x (fsub median (fmul whis iqr)) || flt (fadd median (fmul whis iqr)) x) in
  Ok (mk_stats median mean Q1 Q3 iqr fliers).
Definition data_stats (data : list (list num)) (whis : num) : outcome (list box_stats) := map_outcome (data_stats1 whis) data.

(** boxplot.hpp:139-163, the data members *)
Record box := mk_box { m_data : list (list num); m_stats : list box_stats; m_widths : list num; m_capwidths : list num; m_whis : num;
  m_showcaps : bool; m_showbox : bool; m_showfliers : bool; m_showmeans : bool; m_boxcolor : string }.

(** boxplot.hpp:168-231, the marks of data set i *)
Definition draw_box (o : box) (i : nat) (s : box_stats) : outcome (list mark) :=
  let pos := Fin (qn (i + 1)) in
  do w <- at_ub (m_widths o) i;
  let xl := fsub pos w in
  let xr := fadd pos w in
  let lo := fsub (st_median s) (fmul (m_whis o) (st_iqr s)) in
  let hi := fadd (st_median s) (fmul (m_whis o) (st_iqr s)) in
  do caps <- (if m_showcaps o
              then do c <- at_ub (m_capwidths o) i;
                   Ok [Segment (fsub pos c) lo (fadd pos c) lo "black"; Segment (fsub pos c) hi (fadd pos c) hi "black"]
              else Ok []);
  Ok ([Segment pos lo pos hi "black"] ++ caps ++
      (if m_showbox o
       then [Filled xl xr (st_Q1 s) (st_Q3 s) (m_boxcolor o); Segment xl (st_Q1 s) xr (st_Q1 s) (m_boxcolor o);
             Segment xl (st_Q3 s) xr (st_Q3 s) (m_boxcolor o); Segment xl (st_Q1 s) xl (st_Q3 s) (m_boxcolor o);
             Segment xr (st_Q1 s) xr (st_Q3 s) (m_boxcolor o)]
       else []) ++
      (if m_showfliers o then [Dots (repeat pos (length (st_fliers s))) (st_fliers s) (marker "o") "blue"] else []) ++
      [Segment xl (st_median s) xr (st_median s) "orange"] ++
      (if m_showmeans o then [Dots [pos] [st_mean s] (marker "D") "red"] else [])).
Fixpoint draw_boxes (o : box) (i : nat) (l : list box_stats) : outcome (list mark) :=
  match l with [] => Ok [] | s :: r => do a <- draw_box o i s; do b <- draw_boxes o (S i) r; Ok (a ++ b) end.
Definition redraw (o : box) : outcome (list mark) := draw_boxes o 0 (m_stats o).

(** an object: its members and what is drawn *)
Definition plot_object : Type := (box * list mark)%type.
Definition redrawn (o : box) : outcome plot_object := do d <- redraw o; Ok (o, d).
(** 0.1 *)
Definition tenth : num := Fin (Q2Qc (1 # 10)).
(** boxplot.hpp:53-58.  The members are initialised in the order of their declaration: m_widths and m_capwidths have the size of m_stats
    before it is filled; that is 0 when the data is a std::vector ([fixed] = false) and the number of data sets for a std::array. *)
Definition boxplot_new (fixed : bool) (data : list (list num)) : outcome plot_object :=
  let n := if fixed then length data else 0 in
  let whis := Fin (Q2Qc (3 # 2)) in
  do st <- data_stats data whis;
  redrawn (mk_box data st (repeat tenth n) (repeat tenth n) whis true true true false "blue").
(** the public member functions that change the plot, boxplot.hpp:60-128 *)
Inductive setter :=
| Showcaps (b : bool) | Showfliers (b : bool) | Showmeans (b : bool) | Showbox (b : bool)
| Capwidths1 (w : num) | Capwidths (w : list num) | Widths1 (w : num) | Widths (w : list num)
| Boxcolor (c : string) | Whis (w : num).
Definition set (s : setter) (o : box) : outcome box :=
  let '(mk_box d st w cw wh sc sb sf sm col) := o in
  match s with
  | Showcaps b => Ok (mk_box d st w cw wh b sb sf sm col)
  | Showfliers b => Ok (mk_box d st w cw wh sc sb b sm col)
  | Showmeans b => Ok (mk_box d st w cw wh sc sb sf b col)
  | Showbox b => Ok (mk_box d st w cw wh sc b sf sm col)
  | Capwidths1 x => Ok (mk_box d st (repeat x (length w)) cw wh sc sb sf sm col)
  | Capwidths x => Ok (mk_box d st w x wh sc sb sf sm col)
  | Widths1 x => Ok (mk_box d st (repeat x (length w)) cw wh sc sb sf sm col)
  | Widths x => Ok (mk_box d st x cw wh sc sb sf sm col)
  | Boxcolor c => Ok (mk_box d st w cw wh sc sb sf sm c)
  | Whis x => do st' <- data_stats d x; Ok (mk_box d st' w cw x sc sb sf sm col)
  end.
Definition call (s : setter) (p : plot_object) : outcome plot_object := do o <- set s (fst p); redrawn o.
Fixpoint calls (h : list setter) (p : plot_object) : outcome plot_object :=
  match h with [] => Ok p | s :: r => do q <- call s p; calls r q end.
End Boxplot.

(** ** plot.hpp *)
(** a curve: abscissas, ordinates, colour, legend *)
Record curve (V : Type) := mk_curve { c_x : list V; c_y : list V; c_color : string; c_label : option string }.
Section Plot.
Variable V : Type.
(** plot.hpp:74-81 *)
Definition default_colors : list string := ["blue"; "green"; "red"; "cyan"; "magenta"; "yellow"; "black"; "white"]%string.
Record plot2d := mk_plot { p_colors : list string; p_color_idx : nat; p_grid : bool; p_x : list V; p_y : list (list V); p_labels : list string; p_label_idx : nat }.
(** plot.hpp:83-102 *)
Definition draw_curve (o : plot2d) (y : list V) : outcome (plot2d * curve V) :=
  do color <- at_ub (p_colors o) (p_color_idx o mod length (p_colors o));
  do label <- at_ub (p_labels o) (p_label_idx o);
  Ok (mk_plot (p_colors o) (S (p_color_idx o)) (p_grid o) (p_x o) (p_y o) (p_labels o) (S (p_label_idx o)),
      mk_curve (p_x o) y color (if (label =? "")%string then None else Some label)).
Fixpoint draw_curves (o : plot2d) (ys : list (list V)) : outcome (plot2d * list (curve V)) :=
  match ys with
  | [] => Ok (o, [])
  | y :: r => do a <- draw_curve o y; do b <- draw_curves (fst a) r; Ok (fst b, snd a :: snd b)
  end.
(** plot.hpp:104-117: the curves and whether the grid is shown *)
Definition redraw_plot (o : plot2d) : outcome (plot2d * (list (curve V) * bool)) :=
  do r <- draw_curves (mk_plot (p_colors o) 0 (p_grid o) (p_x o) (p_y o) (p_labels o) 0) (p_y o);
  Ok (fst r, (snd r, p_grid o)).
(** plot.hpp:28-35; at least one curve *)
Definition plot_new (x : list V) (y0 : list V) (ys : list (list V)) : outcome (plot2d * (list (curve V) * bool)) :=
  require (length x =? length y0)
    (redraw_plot (mk_plot default_colors 0 true x (y0 :: ys) (repeat ""%string (S (length ys))) 0)).
(** plot.hpp:37-66.  The argument of labels has as many elements as there are curves (its type says so). *)
Inductive plot_setter := Color (c : string) | Grid (b : bool) | Labels (l : list string) | Label (l : string).
Definition plot_set (s : plot_setter) (o : plot2d) : plot2d :=
  let '(mk_plot c ci g x y l li) := o in
  match s with
  | Color k => mk_plot (repeat k (length c)) ci g x y l li
  | Grid b => mk_plot c ci b x y l li
  | Labels k => mk_plot c ci g x y k li
  | Label k => mk_plot c ci g x y (repeat k (length l)) li
  end.
Definition plot_call (s : plot_setter) (o : plot2d) : outcome (plot2d * (list (curve V) * bool)) := redraw_plot (plot_set s o).
Fixpoint plot_calls (h : list plot_setter) (p : plot2d * (list (curve V) * bool)) : outcome (plot2d * (list (curve V) * bool)) :=
  match h with [] => Ok p | s :: r => do q <- plot_call s (fst p); plot_calls r q end.
End Plot.
