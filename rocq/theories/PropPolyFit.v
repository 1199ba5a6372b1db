(** C94-C96: polyfit, polyroots, interp1d.  The Eigen solvers are parameters; what is assumed of them is a hypothesis of the theorems. *)
From Coq Require Import ZArith Reals List.
From Verif Require Import Base Spec Polynomial CplxR PolyFit PolyFitFacts.
From Coq Require Import Lra Psatz.
Open Scope nat_scope.
Set Implicit Arguments.

(** C94.  [least_squares A b w]: w minimises |A w - b|^2 (A by columns); [power_columns x d]: the columns x^0 .. x^d; [squared_error P x y] is
    the sum of the (P(x_i) - y_i)^2 with P(x) the sum of the P_k x^k. *)
Theorem C94_best_fit_partial : forall (solve : list (list R) -> list R -> list R) (x y : list R) (deg : nat), 1 <= deg -> length x = length y ->
  least_squares (power_columns x deg) y (solve (power_columns x deg) y) ->
  exists P, polyfit solve x y (Z.of_nat deg) = Ok P /\ length P = S deg /\
    forall Q, length Q = S deg -> (squared_error P x y <= squared_error Q x y)%R.
Proof. exact polyfit_best. Qed.
Print Assumptions C94_best_fit_partial.
Theorem C94_exact : forall (solve : list (list R) -> list R -> list R) (x y : list R) (deg : nat) (Q : list R), 1 <= deg -> length Q = S deg ->
  NoDup x -> S deg <= length x -> y = map (pvalue Q) x ->
  least_squares (power_columns x deg) y (solve (power_columns x deg) y) ->
  polyfit solve x y (Z.of_nat deg) = Ok Q.
Proof. exact polyfit_exact. Qed.
Print Assumptions C94_exact.
Theorem C94_lengths : forall (solve : list (list R) -> list R -> list R) (x y : list R) (deg : nat), 1 <= deg -> length x <> length y ->
  polyfit solve x y (Z.of_nat deg) = RequireFail.
Proof.
  intros solve x y deg H L. unfold polyfit. rewrite polyvander_powers by exact H. cbn [bind]. unfold lstsq. apply Nat.eqb_neq in L. now rewrite L.
Qed.
Print Assumptions C94_lengths.
(** FINDING: degree 0 (the best constant) writes outside the one-column matrix *)
Theorem C94_degree_zero_refuted : forall (solve : list (list R) -> list R -> list R) (x y : list R), polyfit solve x y 0 = UB.
Proof. reflexivity. Qed.
Print Assumptions C94_degree_zero_refuted.
(** a line through (0,1), (1,3): the solver that returns 1, 2 meets the hypotheses *)
Example C94_nonvacuous : let solve := fun (_ : list (list R)) (_ : list R) => [1; 2]%R in
  least_squares (power_columns [0; 1]%R 1) [1; 3]%R (solve (power_columns [0; 1]%R 1) [1; 3]%R) /\ polyfit solve [0; 1]%R [1; 3]%R 1 = Ok [1; 2]%R.
Proof.
  cbv zeta. split; [|reflexivity]. split; [reflexivity|]. intros v _. rewrite residual_error by reflexivity.
  replace (squared_error [1; 2] [0; 1] [1; 3])%R with 0%R; [apply sum_nonneg; intros; apply pow2_ge_0|]. unfold squared_error, pvalue. cbn. ring.
Qed.

(** C95.  [eigenvalue M l]: some non-zero row vector w has w M = l w; [xpvalue P l] is the sum of the P_k l^k. *)
Theorem C95_polyroots : forall (eigenvalues : list (list cx) -> list cx) (P : list cx), 2 <= length P -> last P x0 <> x0 ->
  (forall M, polycompanion x0 x1 xdiv xopp P = Ok M -> forall l, In l (eigenvalues M) <-> eigenvalue M l) ->
  exists r, polyroots eigenvalues P = Ok r /\ forall l, In l r <-> xpvalue P l = x0.
Proof. exact polyroots_spec. Qed.
Print Assumptions C95_polyroots.
Theorem C95_polyroots_real : forall (eigenvalues : list (list cx) -> list cx) (P : list R), 2 <= length P -> last P 0%R <> 0%R ->
  (forall M, polycompanion 0%R 1%R Rdiv Ropp P = Ok M -> forall l, In l (eigenvalues (map (map xre) M)) <-> eigenvalue (map (map xre) M) l) ->
  exists r, polyroots_real eigenvalues P = Ok r /\ forall l, In l r <-> xpvalue (map xre P) l = x0.
Proof. exact polyroots_real_spec. Qed.
Print Assumptions C95_polyroots_real.
(** 6 - 5 x + x^2 = (x - 2)(x - 3) *)
Example C95_nonvacuous : let ev := fun _ : list (list cx) => [xre 2; xre 3] in let P := [xre 6; xre (-5); x1] in
  2 <= length P /\ last P x0 <> x0 /\ (forall M, polycompanion x0 x1 xdiv xopp P = Ok M -> forall l, In l (ev M) <-> eigenvalue M l) /\
  polyroots ev P = Ok [xre 2; xre 3].
Proof.
  cbv zeta. split; [cbn; lia|]. assert (N : last [xre 6; xre (-5); x1] x0 <> x0) by (cbn; unfold x1, x0; intros Z; injection Z; lra).
  split; [exact N|]. split; [|reflexivity]. intros M E l. rewrite (@companion_eigenvalue [xre 6; xre (-5); x1] M) by (try exact E; try exact N; cbn; lia).
  assert (F : xpvalue [xre 6; xre (-5); x1] l = xmul (xsub l (xre 2)) (xsub l (xre 3))).
  { destruct l as [u v]. unfold xpvalue, xre, x1, x0, xsub. cbn. unfold xadd, xmul. cbn. f_equal; ring. }
  rewrite F. clear. split.
  - intros [ <- | [ <- | [] ]]; unfold xmul, xsub, xre, x0; cbn; f_equal; ring.
  - intros H. destruct (Req_dec (fst l) 2) as [E2|E2], (Req_dec (snd l) 0) as [E0|E0].
    + left. destruct l; cbn in *; subst; reflexivity.
    + right; left. assert (Z : xsub l (xre 2) = x0); [apply xintegral with (b := xsub l (xre 3)); [exact H|]|].
      * unfold xsub, xre, x0. cbn. intros Z. injection Z. lra.
      * unfold xsub, xre, x0 in Z. cbn in Z. injection Z. lra.
    + right; left. assert (Z : xsub l (xre 3) = x0); [apply xintegral with (b := xsub l (xre 2))|].
      * rewrite <- H. unfold xmul, xsub, xre. cbn. f_equal; ring.
      * unfold xsub, xre, x0. cbn. intros Z. injection Z. lra.
      * unfold xsub, xre, x0 in Z. destruct l as [u v]. cbn in Z. injection Z as Z1 Z2. unfold xre. f_equal; lra.
    + right; left. assert (Z : xsub l (xre 3) = x0); [apply xintegral with (b := xsub l (xre 2))|].
      * rewrite <- H. unfold xmul, xsub, xre. cbn. f_equal; ring.
      * unfold xsub, xre, x0. cbn. intros Z. injection Z. lra.
      * unfold xsub, xre, x0 in Z. destruct l as [u v]. cbn in Z. injection Z as Z1 Z2. unfold xre. f_equal; lra.
Qed.

(** C96.  [to_unit x t] maps [x_0, x_last] to [0, 1]; the hypothesis on the spline is that it goes through the scaled data. *)
Theorem C96_through_partial : forall (spline : list R -> nat -> list R -> R -> R) (k : interp_kind) (x y : list R),
  2 <= length x -> length x = length y -> increasing x ->
  goes_through (spline y (Nat.min (length x - 1) (match k with SLINEAR => 1 | QUADRATIC => 2 | CUBIC => 3 end)) (map (to_unit x) x)) (map (to_unit x) x) y ->
  exists f, interp1d spline k x y = Ok f /\ (forall i, i < length x -> f (nth i x 0%R) = nth i y 0%R).
Proof.
  intros spline k x y L E H G. destruct (@interp1d_ok spline k x y L E H) as [_ F]. eexists. split; [exact F|]. exact (@interp1d_through spline k x y _ L E H F G).
Qed.
Print Assumptions C96_through_partial.
(** a straight line between neighbours, for SLINEAR or two points: there the degree is 1, and the spline of degree 1 is a broken line *)
Theorem C96_linear : forall (spline : list R -> nat -> list R -> R -> R) (k : interp_kind) (x y : list R),
  2 <= length x -> length x = length y -> increasing x -> k = SLINEAR \/ length x = 2 ->
  broken_line (spline y 1 (map (to_unit x) x)) (map (to_unit x) x) y ->
  exists f, interp1d spline k x y = Ok f /\
    forall i t, S i < length x -> (nth i x 0 <= t <= nth (S i) x 0)%R ->
      f t = (nth i y 0 + (t - nth i x 0) / (nth (S i) x 0 - nth i x 0) * (nth (S i) y 0 - nth i y 0))%R.
Proof.
  intros spline k x y L E H K G. destruct (@interp1d_ok spline k x y L E H) as [_ F]. eexists. split; [exact F|]. apply (@interp1d_line spline k x y _ L E H F).
  replace (Nat.min (length x - 1) (kind_degree k)) with 1; [exact G|]. destruct K as [ -> | ->]; [cbn [kind_degree]; lia|destruct k; reflexivity].
Qed.
Print Assumptions C96_linear.
Theorem C96_array : forall (f : R -> R) (t : list R), length (interp1d_array f t) = length t /\
  forall i, i < length t -> nth i (interp1d_array f t) 0%R = f (nth i t 0%R).
Proof. intros f t. split; [apply map_length|]. intros i Hi. now apply nth_map_r. Qed.
Print Assumptions C96_array.
(** FINDING: an argument of integer type is scaled with integer arithmetic: for every integer of [x_0, x_last) the result is y_0 *)
Theorem C96_int_argument_refuted : forall (spline : list R -> nat -> list R -> R -> R) (k : interp_kind) (x y : list R) (a b t : Z),
  2 <= length x -> length x = length y -> increasing x -> hd 0%R x = IZR a -> last x 0%R = IZR b -> (a <= t < b)%Z ->
  goes_through (spline y (Nat.min (length x - 1) (match k with SLINEAR => 1 | QUADRATIC => 2 | CUBIC => 3 end)) (map (to_unit x) x)) (map (to_unit x) x) y ->
  interp1d_at_int spline k x y t = Ok (hd 0%R y).
Proof. exact interp1d_int_value. Qed.
Print Assumptions C96_int_argument_refuted.
(** and the ends of an interval shorter than the integers divide by zero *)
Theorem C96_int_division_refuted : forall (spline : list R -> nat -> list R -> R -> R) (k : interp_kind) (t : Z) (y0 y1 : R),
  interp1d_at_int spline k [1/4; 3/4]%R [y0; y1] t = UB.
Proof.
  intros spline k t y0 y1. unfold interp1d_at_int. cbn [length Nat.eqb negb coeff]. rewrite Rmin_left, Rmax_right by lra.
  destruct (Rlt_dec _ _) as [_|N]; [|exfalso; lra]. cbn [require]. unfold scaled_value_int.
  assert (T : forall r, (0 <= r < 1)%R -> rtrunc r = 0%Z).
  { intros r Hr. unfold rtrunc. destruct (Rle_dec 0 r); [|exfalso; lra]. unfold Int_part. rewrite <- (tech_up r 1); [reflexivity|lra|lra]. }
  rewrite !T by lra. reflexivity.
Qed.
Print Assumptions C96_int_division_refuted.
(** FINDING: the sizes are compared after the fit has read both arrays *)
Theorem C96_sizes_refuted : forall (spline : list R -> nat -> list R -> R -> R) (k : interp_kind) (x y : list R), length x <> length y ->
  interp1d spline k x y = UB.
Proof. intros spline k [|a x] y H; [reflexivity|]. unfold interp1d. apply Nat.eqb_neq in H. now rewrite H. Qed.
Print Assumptions C96_sizes_refuted.
(** the broken line through two points, given by its formula *)
Example C96_nonvacuous : let spline := fun (y : list R) (_ : nat) (_ : list R) (t : R) => (nth 0 y 0 + t * (nth 1 y 0 - nth 0 y 0))%R in
  let x := [1; 3]%R in let y := [10; 20]%R in
  goes_through (spline y 1 (map (to_unit x) x)) (map (to_unit x) x) y /\ broken_line (spline y 1 (map (to_unit x) x)) (map (to_unit x) x) y /\ increasing x.
Proof.
  cbv zeta. unfold to_unit. cbn [map hd last]. split; [|split].
  - intros [|[|i]] Hi; cbn in *; [field|field|lia].
  - intros i t Hi Ht. cbn [length] in Hi. assert (i = 0) as -> by lia. cbn in *. field.
  - intros i j Hij. cbn [length] in Hij. assert (i = 0) as -> by lia. assert (j = 1) as -> by lia. cbn. lra.
Qed.
