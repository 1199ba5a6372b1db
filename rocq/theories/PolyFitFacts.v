(** Facts about PolyFit.v *)
From Coq Require Import ZArith Reals List RealField.
From Verif Require Import Base Functional FunctionalProofs Spec SumLib Numeric Convolve ConvolveFacts Polynomial PolynomialFacts PolynomialField PolyExtra PolyReal CplxR PolyFit.
From Coq Require Import Lra Psatz.
Open Scope nat_scope.
Set Implicit Arguments.

(** ** Polynomials with as many zeros as coefficients *)
Lemma rpolyval_zero r P : Forall (fun c => c = 0%R) P -> rpolyval r P = 0%R.
Proof. induction 1 as [|y l -> _ IH]; [reflexivity|]. rewrite rpolyval_cons, IH. ring. Qed.
Lemma synthetic_division r P : exists Q, length Q = length P - 1 /\ (forall x, rpolyval x P = (x - r) * rpolyval x Q + rpolyval r P)%R /\
  (Forall (fun c => c = 0%R) Q -> forall k, rcoef P (S k) = 0%R).
Proof.
  induction P as [|c P [Q [L [E Z]]]].
  - exists []. split; [reflexivity|]. split; [intros x; unfold rpolyval; cbn; ring|]. intros _ k. destruct k; reflexivity.
  - destruct P as [|d P].
    + exists []. split; [reflexivity|]. split; [intros x; rewrite !rpolyval_cons; unfold rpolyval; cbn; ring|]. intros _ k. destruct k; reflexivity.
    + exists (rpolyval r (d :: P) :: Q). split; [cbn [length] in *; lia|]. split.
      * intros x. rewrite (rpolyval_cons x c), (rpolyval_cons r c), (rpolyval_cons x _ Q), (E x). ring.
      * intros F. inversion F as [|? ? F0 F1]; subst. intros k. change (rcoef (c :: d :: P) (S k)) with (rcoef (d :: P) k).
        destruct k as [|k]; [|now apply Z]. specialize (E r). specialize (Z F1).
        assert (H : rpolyval r (d :: P) = rcoef (d :: P) 0).
        { rewrite rpolyval_cons. replace (rpolyval r P) with 0%R; [cbn; ring|]. symmetry. apply rpolyval_zero. apply Forall_forall.
          intros y Hy. destruct (In_nth _ _ 0%R Hy) as [i [_ <-]]. exact (Z i). }
        rewrite <- H. exact F0.
Qed.
Lemma many_zeros xs : NoDup xs -> forall P, length P <= length xs -> (forall x, In x xs -> rpolyval x P = 0%R) -> Forall (fun c => c = 0%R) P.
Proof.
  induction 1 as [|r xs N D IH]; intros P L Z.
  - destruct P; [constructor|cbn in L; lia].
  - destruct (synthetic_division r P) as [Q [LQ [E ZQ]]].
    assert (F : Forall (fun c => c = 0%R) Q).
    { apply IH; [cbn [length] in L; lia|]. intros x Hx. specialize (E x). rewrite (Z x) in E by (now right). rewrite (Z r) in E by (now left).
      assert (x - r <> 0)%R by (intros H; apply N; replace r with x by lra; exact Hx).
      destruct (Rmult_integral (x - r) (rpolyval x Q)) as [H1|H1]; [lra|contradiction|exact H1]. }
    specialize (ZQ F). destruct P as [|c P]; [constructor|].
    assert (FP : Forall (fun c => c = 0%R) P).
    { apply Forall_forall. intros y Hy. destruct (In_nth _ _ 0%R Hy) as [k [_ <-]]. exact (ZQ k). }
    constructor; [|exact FP]. specialize (Z r (or_introl eq_refl)). rewrite rpolyval_cons in Z.
    assert (Z0 : rpolyval r P = 0%R). { clear - FP. induction FP as [|y l -> _ IH]; [reflexivity|]. rewrite rpolyval_cons, IH. ring. }
    rewrite Z0 in Z. lra.
Qed.
(** the differences of coefficients *)
Fixpoint pdiff (P Q : list R) : list R :=
  match P, Q with p :: P, q :: Q => (p - q)%R :: pdiff P Q | _, _ => [] end.
Lemma pdiff_val x P : forall Q, length P = length Q -> rpolyval x (pdiff P Q) = (rpolyval x P - rpolyval x Q)%R /\ length (pdiff P Q) = length P.
Proof.
  induction P as [|p P IH]; intros [|q Q] L; try discriminate L; [unfold rpolyval; cbn; split; [ring|reflexivity]|].
  cbn [pdiff]. destruct (IH Q) as [E EL]; [cbn in L; lia|]. rewrite !rpolyval_cons, E. cbn [length]. split; [ring|lia].
Qed.
Lemma pdiff_zero P : forall Q, length P = length Q -> Forall (fun c => c = 0%R) (pdiff P Q) -> P = Q.
Proof.
  induction P as [|p P IH]; intros [|q Q] L F; try discriminate L; [reflexivity|]. cbn [pdiff] in F. inversion F; subst. f_equal; [lra|]. apply IH; [cbn in L; lia|assumption].
Qed.

(** ** polyfit *)
(** the value of the polynomial with coefficients P (lowest degree first) *)
Definition pvalue (P : list R) (x : R) : R := nsum 0%R Rplus (fun k => nth k P 0 * x ^ k)%R (length P).
Lemma pvalue_rpolyval P x : pvalue P x = rpolyval x P.
Proof.
  unfold rpolyval, pvalue. rewrite (polyval_eval Rth). unfold SumLib.evalf. apply sum_ext. intros k _. f_equal.
  induction k as [|k IH]; cbn [rpow pow]; [reflexivity|now rewrite IH].
Qed.
(** the sum of the squares of the residuals of A w = b, the matrix A given by its columns *)
Definition residual2 (A : list (list R)) (w b : list R) : R :=
  nsum 0%R Rplus (fun i => (nsum 0%R Rplus (fun j => nth i (nth j A []) 0 * nth j w 0)%R (length A) - nth i b 0) ^ 2)%R (length b).
(** w solves A w = b in the sense of least squares *)
Definition least_squares (A : list (list R)) (b w : list R) : Prop :=
  length w = length A /\ forall v, length v = length A -> (residual2 A w b <= residual2 A v b)%R.
(** the Vandermonde matrix by columns: column j holds the x^j *)
Definition power_columns (x : list R) (d : nat) : list (list R) := map (fun j => map (fun t => t ^ j)%R x) (seq 0 (S d)).
(** the sum of the squared errors of the polynomial P on the points *)
Definition squared_error (P x y : list R) : R := nsum 0%R Rplus (fun i => (pvalue P (nth i x 0) - nth i y 0) ^ 2)%R (length x).

Lemma rpow_pow t n : rpow 1%R Rmult t n = (t ^ n)%R.
Proof. induction n as [|n IH]; cbn [rpow pow]; [reflexivity|now rewrite IH]. Qed.
Lemma polyvander_powers x d : 1 <= d -> polyvander 1%R Rmult x (Z.of_nat d) = Ok (power_columns x d).
Proof.
  intros H. rewrite (polyvander_spec Rfield) by exact H. apply (f_equal Ok). unfold power_columns. apply map_ext. intros j. apply map_ext. intros t. apply rpow_pow.
Qed.
Lemma residual_error x y d P : length x = length y -> length P = S d -> residual2 (power_columns x d) P y = squared_error P x y.
Proof.
  intros L LP. unfold residual2, squared_error. rewrite <- L. apply sum_ext. intros i Hi. f_equal. f_equal. unfold pvalue.
  unfold power_columns at 2. rewrite map_length, seq_length, LP. apply sum_ext. intros j Hj. unfold power_columns.
  set (f := fun j => map (fun t => t ^ j)%R x).
  rewrite nth_indep with (d' := f 0) by (now rewrite map_length, seq_length). rewrite (map_nth f), seq_nth by exact Hj. cbn [Nat.add]. unfold f.
  set (g := fun t => (t ^ j)%R). rewrite nth_indep with (d' := g 0%R) by (now rewrite map_length). rewrite (map_nth g). unfold g. ring.
Qed.
Lemma sum_nonneg (f : nat -> R) n : (forall i, (i < n)%nat -> (0 <= f i)%R) -> (0 <= nsum 0%R Rplus f n)%R.
Proof. induction n as [|n IH]; intros H; cbn [nsum]; [lra|]. specialize (IH (fun i Hi => H i (Nat.lt_lt_succ_r _ _ Hi))). assert (H1 := H n (Nat.lt_succ_diag_r n)). lra. Qed.
Lemma sum_sq_zero (f : nat -> R) n : (nsum 0%R Rplus (fun i => f i ^ 2)%R n <= 0)%R -> forall i, i < n -> f i = 0%R.
Proof.
  induction n as [|n IH]; intros H i Hi; [lia|]. cbn [nsum] in H.
  assert (S1 : (0 <= nsum 0%R Rplus (fun i => f i ^ 2)%R n)%R) by (apply sum_nonneg; intros; apply pow2_ge_0).
  assert (S2 := pow2_ge_0 (f n)). destruct (Nat.eq_dec i n) as [->|Hn]; [|apply IH; [lra|lia]].
  assert (E : (f n ^ 2 = 0)%R) by lra. cbn [pow] in E. rewrite Rmult_1_r in E. destruct (Rmult_integral _ _ E); assumption.
Qed.
Lemma nth_map_r (f : R -> R) l i : i < length l -> nth i (map f l) 0%R = f (nth i l 0%R).
Proof. intros H. rewrite nth_indep with (d' := f 0%R) by (now rewrite map_length). apply map_nth. Qed.
Section FitFacts.
Variable solve : list (list R) -> list R -> list R.
Lemma polyfit_best x y d : 1 <= d -> length x = length y -> least_squares (power_columns x d) y (solve (power_columns x d) y) ->
  exists P, polyfit solve x y (Z.of_nat d) = Ok P /\ length P = S d /\ forall Q, length Q = S d -> (squared_error P x y <= squared_error Q x y)%R.
Proof.
  intros H L [LP M]. unfold polyfit. rewrite polyvander_powers by exact H. cbn [bind]. unfold lstsq. rewrite L, Nat.eqb_refl. cbn [require].
  assert (LA : length (power_columns x d) = S d) by (unfold power_columns; now rewrite map_length, seq_length). rewrite LA in LP, M.
  eexists. split; [reflexivity|]. split; [exact LP|]. intros Q LQ. rewrite <- !(@residual_error x y d) by assumption. now apply M.
Qed.
Lemma polyfit_exact x y d Q : 1 <= d -> length Q = S d -> NoDup x -> S d <= length x -> y = map (pvalue Q) x ->
  least_squares (power_columns x d) y (solve (power_columns x d) y) -> polyfit solve x y (Z.of_nat d) = Ok Q.
Proof.
  intros H LQ N LX EY LS. assert (L : length x = length y) by (rewrite EY; now rewrite map_length).
  destruct (@polyfit_best x y d H L LS) as [P [E [LP M]]]. rewrite E. apply (f_equal Ok).
  assert (Z0 : squared_error Q x y = 0%R).
  { unfold squared_error. rewrite (@sum_ext _ 0%R Rplus _ (fun _ => 0%R)); [apply (sum_zero Rth); reflexivity|].
    intros i Hi. rewrite EY. rewrite (@nth_map_r (pvalue Q)) by exact Hi. ring. }
  specialize (M Q LQ). rewrite Z0 in M. pose proof (fun i Hi => @sum_sq_zero (fun i => pvalue P (nth i x 0) - nth i y 0)%R (length x) M i Hi) as F. cbv beta in F.
  apply pdiff_zero; [lia|]. apply many_zeros with (xs := x); [exact N| |].
  - destruct (@pdiff_val 0%R P Q ltac:(lia)) as [_ ->]. lia.
  - intros t Ht. destruct (@pdiff_val t P Q ltac:(lia)) as [-> _]. destruct (In_nth _ _ 0%R Ht) as [i [Hi <-]]. specialize (F i Hi).
    rewrite EY in F. rewrite (@nth_map_r (pvalue Q) x i Hi), !pvalue_rpolyval in F. exact F.
Qed.
End FitFacts.

(** ** polyroots *)
Lemma xfield : field_theory x0 x1 xadd xmul xsub xopp xdiv (fun b => xmul (xconj b) (xre (/ xnorm2 b))) eq.
Proof.
  constructor.
  - exact xring.
  - intros H. unfold x1, x0 in H. injection H. lra.
  - reflexivity.
  - intros p Hp. assert (N : xnorm2 p <> 0%R) by (intros Z; apply Hp; now apply xnorm2_zero).
    transitivity (xmul (xmul p (xconj p)) (xre (/ xnorm2 p))); [destruct p; unfold xmul, xconj, xre, xnorm2; cbn [fst snd]; f_equal; ring|].
    rewrite xmul_conj. unfold xmul, xre, x1. cbn [fst snd]. f_equal; [field_simplify; [reflexivity|exact N]|ring].
Qed.
(** lam is an eigenvalue of the square matrix M (list of n rows): a non-zero row vector w with w M = lam w *)
Definition eigenvalue (M : list (list cx)) (lam : cx) : Prop :=
  exists w : nat -> cx, (exists i, i < length M /\ w i <> x0) /\
    forall j, j < length M -> nsum x0 xadd (fun i => xmul (w i) (nth j (nth i M []) x0)) (length M) = xmul lam (w j).
Definition xpvalue (P : list cx) (x : cx) : cx := nsum x0 xadd (fun k => xmul (nth k P x0) (rpow x1 xmul x k)) (length P).
Lemma xpvalue_polyval P x : xpvalue P x = polyval x0 xadd xmul x P.
Proof. rewrite (polyval_eval xring). reflexivity. Qed.
Lemma last_nth' (T : Type) (l : list T) d : last l d = nth (length l - 1) l d.
Proof.
  induction l as [|x l IH]; [reflexivity|]. destruct l as [|y l]; [reflexivity|]. change (last (x :: y :: l) d) with (last (y :: l) d). rewrite IH.
  cbn [length]. now replace (S (S (length l)) - 1) with (S (S (length l) - 1)) by lia.
Qed.
Section RootFacts.
Variable ev : list (list cx) -> list cx.
Lemma polyroots_spec P : 2 <= length P -> last P x0 <> x0 ->
  (forall M, polycompanion x0 x1 xdiv xopp P = Ok M -> forall l, In l (ev M) <-> eigenvalue M l) ->
  exists r, polyroots ev P = Ok r /\ forall l, In l r <-> xpvalue P l = x0.
Proof.
  intros H Hl C. assert (Hn : nth (length P - 1) P x0 <> x0).
  { now rewrite <- last_nth'. }
  destruct (@companion_eigenvalues _ _ _ _ _ _ _ _ _ xfield P x0 H Hn) as [M [E [LM [LR _]]]]. unfold polyroots. rewrite E. cbn [bind]. eexists. split; [reflexivity|].
  intros l. rewrite (C M E). rewrite xpvalue_polyval. destruct (@companion_eigenvalues _ _ _ _ _ _ _ _ _ xfield P l H Hn) as [M' [E' [_ [_ I]]]].
  rewrite E in E'. injection E' as <-. rewrite I. unfold eigenvalue. now rewrite LM.
Qed.
Lemma companion_eigenvalue P M : 2 <= length P -> last P x0 <> x0 -> polycompanion x0 x1 xdiv xopp P = Ok M -> forall l, eigenvalue M l <-> xpvalue P l = x0.
Proof.
  intros H Hl E l. rewrite last_nth' in Hl. rewrite xpvalue_polyval. destruct (@companion_eigenvalues _ _ _ _ _ _ _ _ _ xfield P l H Hl) as [M' [E' [LM [_ I]]]].
  rewrite E in E'. injection E' as <-. rewrite I. unfold eigenvalue. now rewrite LM.
Qed.
End RootFacts.
(** real coefficients: the companion matrix commutes with the embedding of R in C *)
Lemma xdiv_re a b : b <> 0%R -> xdiv (xopp (xre a)) (xre b) = xre (- a / b).
Proof.
  intros H. unfold xdiv, xopp, xre, xmul, xconj, xnorm2. cbn [fst snd]. assert (b * b + 0 * 0 <> 0)%R by (intros Z; apply H; nra).
  f_equal; field; [|]; repeat split; try assumption; try (intros Z; apply H; nra).
Qed.
Lemma companion_re P M : nth (length P - 1) P 0%R <> 0%R -> polycompanion 0%R 1%R Rdiv Ropp P = Ok M -> polycompanion x0 x1 xdiv xopp (map xre P) = Ok (map (map xre) M).
Proof.
  intros Hl E. unfold polycompanion in *. rewrite map_length. destruct (length P <=? 1) eqn:L; [discriminate|]. apply Nat.leb_gt in L.
  rewrite (at_ub_coef (rO := 0%R)) in E by lia. rewrite (at_ub_coef (rO := x0)) by (rewrite map_length; lia). cbn [bind] in *.
  injection E as <-. apply (f_equal Ok). rewrite map_map. apply map_ext. intros i. rewrite map_map. apply map_ext. intros j.
  assert (EC : forall k, nth k (map xre P) x0 = xre (nth k P 0%R)) by (intros k; exact (map_nth xre P 0%R k)).
  unfold coef. rewrite !EC. rewrite xdiv_re by exact Hl. destruct (j =? _); [reflexivity|]. destruct (i =? S j); reflexivity.
Qed.
Lemma polyroots_real_spec (ev : list (list cx) -> list cx) P : 2 <= length P -> last P 0%R <> 0%R ->
  (forall M, polycompanion 0%R 1%R Rdiv Ropp P = Ok M -> forall l, In l (ev (map (map xre) M)) <-> eigenvalue (map (map xre) M) l) ->
  exists r, polyroots_real ev P = Ok r /\ forall l, In l r <-> xpvalue (map xre P) l = x0.
Proof.
  intros H Hl C. rewrite last_nth' in Hl. destruct (@companion_eigenvalues _ _ _ _ _ _ _ _ _ Rfield P 0%R H Hl) as [M [E _]].
  unfold polyroots_real. rewrite E. cbn [bind]. eexists. split; [reflexivity|]. intros l. rewrite (C M E).
  apply companion_eigenvalue with (P := map xre P); [now rewrite map_length| |now apply companion_re].
  rewrite last_nth', map_length. change x0 with (xre 0) at 1. rewrite map_nth. intros Z. apply Hl. unfold xre, x0 in Z. now injection Z.
Qed.

(** ** interp1d *)
(** strictly increasing list *)
Definition increasing (x : list R) : Prop := forall i j, i < j < length x -> (nth i x 0 < nth j x 0)%R.
Lemma increasing_tail a x : increasing (a :: x) -> increasing x.
Proof. intros H i j Hij. apply (H (S i) (S j)). cbn [length]. lia. Qed.
Lemma coeff_min x0 r : increasing (x0 :: r) -> coeff Rmin x0 r = x0.
Proof.
  revert x0. induction r as [|y r IH]; intros x0 H; [reflexivity|]. cbn [coeff]. rewrite IH by (eapply increasing_tail; exact H).
  apply Rmin_left. assert (H1 := H 0 1). cbn [nth length] in H1. specialize (H1 ltac:(lia)). lra.
Qed.
Lemma coeff_max x0 r : increasing (x0 :: r) -> coeff Rmax x0 r = last (x0 :: r) 0%R.
Proof.
  revert x0. induction r as [|y r IH]; intros x0 H; [reflexivity|]. change (last (x0 :: y :: r) 0%R) with (last (y :: r) 0%R). cbn [coeff].
  rewrite IH by (eapply increasing_tail; exact H). apply Rmax_right. rewrite last_nth'.
  apply Rlt_le. apply (H 0 (S (length (y :: r) - 1))). cbn [length]. lia.
Qed.
(** what is assumed of the spline fit of data y at the parameters p (from 0 to 1): it goes through the data, and a spline of degree 1 is
    the broken line through them *)
Definition goes_through (s : R -> R) (p y : list R) : Prop := forall i, i < length p -> s (nth i p 0%R) = nth i y 0%R.
Definition broken_line (s : R -> R) (p y : list R) : Prop := forall i t, S i < length p -> (nth i p 0 <= t <= nth (S i) p 0)%R ->
  s t = (nth i y 0 + (t - nth i p 0) / (nth (S i) p 0 - nth i p 0) * (nth (S i) y 0 - nth i y 0))%R.
(** the abscissas mapped affinely to [0, 1] *)
Definition to_unit (x : list R) (t : R) : R := ((t - hd 0 x) / (last x 0 - hd 0 x))%R.
Section InterpFacts.
Variable spline : list R -> nat -> list R -> R -> R.
Lemma interp1d_ok k x y : 2 <= length x -> length x = length y -> increasing x ->
  (hd 0 x < last x 0)%R /\
  interp1d spline k x y = Ok (fun t => spline y (Nat.min (length x - 1) (kind_degree k)) (map (to_unit x) x) (to_unit x t)).
Proof.
  intros L E H. destruct x as [|a r]; [cbn in L; lia|]. unfold interp1d.
  assert (Hlt : (a < last (a :: r) 0)%R).
  { rewrite last_nth'. apply (H 0 (length (a :: r) - 1)). lia. }
  split; [exact Hlt|]. rewrite E, Nat.eqb_refl. cbn [negb]. rewrite (coeff_min H), (coeff_max H). destruct (Rlt_dec _ _) as [_|N]; [|contradiction]. reflexivity.
Qed.
Lemma interp1d_through k x y f : 2 <= length x -> length x = length y -> increasing x -> interp1d spline k x y = Ok f ->
  goes_through (spline y (Nat.min (length x - 1) (kind_degree k)) (map (to_unit x) x)) (map (to_unit x) x) y -> goes_through f x y.
Proof.
  intros L E H F G i Hi. destruct (@interp1d_ok k x y L E H) as [_ F']. rewrite F in F'. injection F' as ->. specialize (G i).
  rewrite map_length, nth_map_r in G by exact Hi. exact (G Hi).
Qed.
Lemma interp1d_line k x y f : 2 <= length x -> length x = length y -> increasing x -> interp1d spline k x y = Ok f ->
  broken_line (spline y (Nat.min (length x - 1) (kind_degree k)) (map (to_unit x) x)) (map (to_unit x) x) y -> broken_line f x y.
Proof.
  intros L E H F G i t Hi Ht. destruct (@interp1d_ok k x y L E H) as [Hlt F']. rewrite F in F'. injection F' as ->. specialize (G i (to_unit x t)).
  rewrite map_length in G. rewrite !nth_map_r in G by lia. assert (Hii : (nth i x 0 < nth (S i) x 0)%R) by (apply H; lia).
  rewrite G; [|exact Hi|].
  - unfold to_unit. assert (Hd0 : (last x 0 - hd 0 x <> 0)%R) by lra. revert Hii Hd0. generalize (last x 0%R - hd 0%R x)%R (nth i x 0%R) (nth (S i) x 0%R) (hd 0%R x).
    intros d u v m Huv Hd0. f_equal. f_equal. field. repeat split; try exact Hd0; try lra.
  - unfold to_unit. set (d := (last x 0 - hd 0 x)%R). assert (Hd : (0 < / d)%R) by (apply Rinv_0_lt_compat; unfold d; lra). unfold Rdiv.
    split; apply Rmult_le_compat_r; lra.
Qed.
Lemma rtrunc_IZR z : rtrunc (IZR z) = z.
Proof.
  assert (IP : forall z, Int_part (IZR z) = z).
  { clear. intros z. unfold Int_part. rewrite <- (tech_up (IZR z) (z + 1)); [lia| |]; rewrite plus_IZR; lra. }
  unfold rtrunc. destruct (Rle_dec _ _); [apply IP|]. rewrite <- opp_IZR, IP. lia.
Qed.
Lemma interp1d_int_value k x y a b t : 2 <= length x -> length x = length y -> increasing x ->
  hd 0%R x = IZR a -> last x 0%R = IZR b -> (a <= t < b)%Z ->
  goes_through (spline y (Nat.min (length x - 1) (kind_degree k)) (map (to_unit x) x)) (map (to_unit x) x) y ->
  interp1d_at_int spline k x y t = Ok (hd 0%R y).
Proof.
  intros L E H Ha Hb Ht G. destruct x as [|x0' r]; [cbn in L; lia|]. cbn [hd] in Ha. subst x0'. unfold interp1d_at_int.
  rewrite <- E, Nat.eqb_refl. cbn [negb]. rewrite (coeff_min H), (coeff_max H), Hb. destruct (Rlt_dec _ _) as [_|N]; [|exfalso; apply N; apply IZR_lt; lia].
  cbn [require]. unfold scaled_value_int. rewrite !rtrunc_IZR. destruct (Z.eqb_spec (b - a) 0); [lia|]. rewrite Z.quot_small by lia. cbn [bind].
  apply (f_equal Ok). specialize (G 0 ltac:(rewrite map_length; cbn [length]; lia)). unfold to_unit in G at 2. cbn [map nth hd] in G. rewrite Hb in G.
  replace ((IZR a - IZR a) / (IZR b - IZR a))%R with 0%R in G by (field; intros Z; apply n; apply eq_IZR; rewrite minus_IZR; exact Z).
  assert (E1 : map (scaled_value (IZR a) (IZR b)) (IZR a :: r) = map (to_unit (IZR a :: r)) (IZR a :: r)).
  { apply map_ext. intros u. unfold to_unit, scaled_value. now rewrite Hb. }
  rewrite E1. etransitivity; [exact G|]. destruct y; reflexivity.
Qed.
End InterpFacts.
