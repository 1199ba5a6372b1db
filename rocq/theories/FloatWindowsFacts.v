(** Error analysis of the windows computed in floating point (FloatWindows.v), no underflow (eta = 0). *)
From Coq Require Import List Arith ZArith Reals Bool.
From Flocq Require Import Core.
From Verif Require Import Base Functional FunctionalProofs Spec SumLib Windows WindowsFacts WindowsReal WindowsRange FloatArith FloatArithFacts FloatVarFacts FloatWindows.
From Coq Require Import Lra Psatz Lia.
Import ListNotations.
Open Scope R_scope.

(** *** real functions *)
Lemma sin_abs_le x : Rabs (sin x) <= Rabs x.
Proof.
  destruct (Rle_or_lt 0 x) as [H|H].
  - rewrite (Rabs_pos_eq x) by exact H. apply Rabs_le. split; [|now apply sin_le_id].
    destruct (Rle_or_lt x PI) as [L|L]; [pose proof (sin_ge_0 x H L); lra|]. pose proof (SIN_bound x). pose proof PI_RGT_0. pose proof PI2_1. lra.
  - rewrite (Rabs_left x) by exact H. rewrite <- (Rabs_Ropp (sin x)), <- sin_neg. assert (H' : 0 <= - x) by lra. apply Rabs_le. split; [|now apply sin_le_id].
    destruct (Rle_or_lt (- x) PI) as [L|L]; [pose proof (sin_ge_0 (- x) H' L); lra|]. pose proof (SIN_bound (- x)). pose proof PI2_1. lra.
Qed.
Lemma half_abs d : 2 * Rabs (d / 2) = Rabs d.
Proof. unfold Rdiv. rewrite Rabs_mult, (Rabs_pos_eq (/ 2)) by lra. field. Qed.
Lemma cos_lip a b : Rabs (cos a - cos b) <= Rabs (a - b).
Proof.
  rewrite form2, !Rabs_mult, (Rabs_left (-2)) by lra. pose proof (sin_abs_le ((a - b) / 2)) as S1. pose proof (half_abs (a - b)).
  assert (S2 : Rabs (sin ((a + b) / 2)) <= 1) by (apply Rabs_le, SIN_bound). pose proof (Rabs_pos (sin ((a - b) / 2))). pose proof (Rabs_pos (sin ((a + b) / 2))). nra.
Qed.
Lemma sin_lip a b : Rabs (sin a - sin b) <= Rabs (a - b).
Proof.
  rewrite form4, !Rabs_mult, (Rabs_pos_eq 2) by lra. pose proof (sin_abs_le ((a - b) / 2)) as S1. pose proof (half_abs (a - b)).
  assert (S2 : Rabs (cos ((a + b) / 2)) <= 1) by (apply Rabs_le, COS_bound). pose proof (Rabs_pos (sin ((a - b) / 2))). pose proof (Rabs_pos (cos ((a + b) / 2))). nra.
Qed.
Lemma exp_ge x : 1 + x <= exp x.
Proof. destruct (Req_dec x 0) as [->|N]; [rewrite exp_0; lra|]. left. now apply exp_ineq1. Qed.
Lemma z_exp z : z * exp (- z) <= exp (-1).
Proof.
  pose proof (exp_ge (z - 1)) as H. pose proof (exp_pos (- z)). assert (E : exp (-1) = exp (z - 1) * exp (- z)) by (rewrite <- exp_plus; f_equal; ring). rewrite E. nra.
Qed.
Lemma exp_diff a b : a <= b -> 0 <= exp (- a) - exp (- b) <= (b - a) * exp (- a).
Proof.
  intros H. split; [assert (exp (- b) <= exp (- a)); [|lra]; destruct (Req_dec a b) as [->|N]; [lra|left; apply exp_increasing; lra]|].
  pose proof (exp_ge (a - b)). pose proof (exp_pos (- a)). assert (E : exp (- b) = exp (a - b) * exp (- a)) by (rewrite <- exp_plus; f_equal; ring). rewrite E. nra.
Qed.
(** exp of a non-positive number known to a relative error *)
Lemma exp_rel G z r : 1 <= G -> 0 <= z -> / G <= r <= G -> Rabs (exp (- (z * r)) - exp (- z)) <= (G - 1) * exp (-1).
Proof.
  intros HG Hz [R1 R2]. pose proof (exp_pos (-1)). assert (P : 0 < / G) by (apply Rinv_0_lt_compat; lra).
  destruct (Rle_or_lt 1 r) as [L|L].
  - destruct (exp_diff z (z * r) ltac:(nra)) as [E1 E2]. rewrite Rabs_left1 by lra. pose proof (z_exp z). pose proof (exp_pos (- z)). nra.
  - destruct (exp_diff (z * r) z ltac:(nra)) as [E1 E2]. rewrite Rabs_pos_eq by lra. pose proof (z_exp (z * r)). pose proof (exp_pos (- (z * r))).
    assert (Q : z - z * r = (z * r) * (/ r - 1)) by (field; lra). rewrite Q in E2.
    assert (I : / r <= G). { replace G with (/ / G) by (field; lra). apply Rinv_le_contravar; lra. }
    assert (1 <= / r) by (rewrite <- Rinv_1; apply Rinv_le_contravar; lra). nra.
Qed.

Section Acc.
Variables (u : R) (fmt : R -> Prop) (rnd : R -> R).
Hypothesis RD : rounding u 0 fmt rnd.
Let Hu := u_pos _ _ _ _ RD.
Let Id := rd_id _ _ _ _ RD.
Let Gge := gge u fmt rnd RD.
Let Gmon := gmon u fmt rnd RD.
Notation g := (g u).
(** x approximates X, of magnitude at most A: k roundings relative to A, and an inherited error E *)
Definition acc (k : nat) (A E x X : R) : Prop := Rabs X <= A /\ 0 <= E /\ Rabs (x - X) <= (g k - 1) * A + g k * E.
Lemma acc_exact x A : Rabs x <= A -> acc 0 A 0 x x.
Proof. intros H. split; [exact H|split; [lra|]]. unfold Rminus at 1. rewrite Rplus_opp_r, Rabs_R0. pose proof (Gge 0). pose proof (Rabs_pos x). nra. Qed.
Lemma acc_A k A E x X : acc k A E x X -> 0 <= A.
Proof. intros (H & _). pose proof (Rabs_pos X). lra. Qed.
Lemma acc_weak k k' A A' E E' x X : (k <= k')%nat -> A <= A' -> E <= E' -> acc k A E x X -> acc k' A' E' x X.
Proof.
  intros Hk HA HE (H1 & H2 & H3). pose proof (Gmon k k' Hk). pose proof (Gge k). pose proof (Rabs_pos X). split; [lra|split; [lra|]]. eapply Rle_trans; [exact H3|].
  apply Rplus_le_compat; apply Rmult_le_compat; lra.
Qed.
Lemma acc_rnd k A E x X : acc k A E x X -> acc (S k) A E (rnd x) X.
Proof.
  intros (H1 & H2 & H3). split; [exact H1|split; [exact H2|]]. pose proof (Gge k).
  pose proof (rnd_step _ _ _ _ RD k x X A (g k * E) H1 ltac:(apply Rmult_le_pos; lra) H3) as Q. rewrite Rplus_0_r in Q. rewrite gS in *. lra.
Qed.
Lemma acc_add k A B E F x y X Y : acc k A E x X -> acc k B F y Y -> acc k (A + B) (E + F) (x + y) (X + Y).
Proof.
  intros (H1 & H2 & H3) (H4 & H5 & H6). split; [eapply Rle_trans; [apply Rabs_triang|]; lra|split; [lra|]].
  replace (x + y - (X + Y)) with ((x - X) + (y - Y)) by ring. eapply Rle_trans; [apply Rabs_triang|]. lra.
Qed.
Lemma acc_opp k A E x X : acc k A E x X -> acc k A E (- x) (- X).
Proof. intros (H1 & H2 & H3). split; [now rewrite Rabs_Ropp|split; [exact H2|]]. replace (- x - - X) with (- (x - X)) by ring. now rewrite Rabs_Ropp. Qed.
Lemma acc_sub k A B E F x y X Y : acc k A E x X -> acc k B F y Y -> acc k (A + B) (E + F) (x - y) (X - Y).
Proof. intros H1 H2. apply (acc_add k A B E F x (- y) X (- Y)); [exact H1|now apply acc_opp]. Qed.
Lemma acc_mul j k A B E F x y X Y : acc j A E x X -> acc k B F y Y -> acc (j + k) (A * B) (A * F + E * B + E * F) (x * y) (X * Y).
Proof.
  intros (H1 & H2 & H3) (H4 & H5 & H6). pose proof (Gge j). pose proof (Gge k). pose proof (Rabs_pos X). pose proof (Rabs_pos Y).
  split; [rewrite Rabs_mult; apply Rmult_le_compat; lra|split; [repeat apply Rplus_le_le_0_compat; apply Rmult_le_pos; lra|]].
  assert (Q : Rabs x <= g j * (A + E)). { replace x with (X + (x - X)) by ring. eapply Rle_trans; [apply Rabs_triang|]. lra. }
  replace (x * y - X * Y) with (x * (y - Y) + (x - X) * Y) by ring. eapply Rle_trans; [apply Rabs_triang|]. rewrite !Rabs_mult.
  pose proof (Rmult_le_compat _ _ _ _ (Rabs_pos x) (Rabs_pos (y - Y)) Q H6). pose proof (Rmult_le_compat _ _ _ _ (Rabs_pos (x - X)) (Rabs_pos Y) H3 H4).
  eapply Rle_trans; [apply Rplus_le_compat; eassumption|]. apply Req_le. rewrite (gplus u j k). ring.
Qed.
(** a factor known without inherited error *)
Lemma acc_scale k A E c x X : acc k A E x X -> acc k (Rabs c * A) (Rabs c * E) (c * x) (c * X).
Proof. intros H. pose proof (acc_mul 0 k (Rabs c) A 0 E c x c X (acc_exact c (Rabs c) (Rle_refl _)) H) as Q. revert Q. apply acc_weak; [lia|lra|lra]. Qed.
Lemma acc_divz k A E c x X : 0 < c -> acc k A E x X -> acc k (A / c) (E / c) (x / c) (X / c).
Proof.
  intros Hc H. pose proof (acc_scale k A E (/ c) x X H) as Q. rewrite (Rabs_pos_eq (/ c)) in Q by (left; now apply Rinv_0_lt_compat).
  unfold Rdiv. rewrite (Rmult_comm A), (Rmult_comm E), (Rmult_comm x), (Rmult_comm X). exact Q.
Qed.
(** the magnitude may be replaced by a smaller one if the error bound is kept *)
Lemma acc_fun (f fl : R -> R) (e : R) k A E x X : (forall a b, Rabs (f a - f b) <= Rabs (a - b)) -> (forall a, Rabs (fl a - f a) <= e) -> (forall a, Rabs (f a) <= 1) ->
  acc k A E x X -> acc 0 1 (e + ((g k - 1) * A + g k * E)) (fl x) (f X).
Proof.
  intros L B M (H1 & H2 & H3). pose proof (B x). pose proof (L x X). pose proof (Rabs_pos (fl x - f x)). pose proof (Rabs_pos (x - X)). split; [apply M|split; [lra|]].
  replace (fl x - f X) with ((fl x - f x) + (f x - f X)) by ring. eapply Rle_trans; [apply Rabs_triang|]. unfold FloatArithFacts.g at 1 2. cbn [pow]. lra.
Qed.
Lemma acc_err k A E x X : acc k A E x X -> Rabs (x - X) <= (g k - 1) * A + g k * E. Proof. now intros (_ & _ & H). Qed.

(** *** purely relative errors *)
Definition rel (k : nat) (x X : R) : Prop := exists r, / g k <= r <= g k /\ x = X * r.
Hypothesis Hinv : forall x, Rabs (rnd x - x) <= u * Rabs (rnd x).
Lemma gp k : 0 < g k. Proof. pose proof (Gge k). lra. Qed.
Lemma gi k : 0 < / g k <= 1.
Proof. pose proof (Gge k). split; [apply Rinv_0_lt_compat; lra|]. rewrite <- Rinv_1. apply Rinv_le_contravar; lra. Qed.
Lemma rel_0 x : rel 0 x x. Proof. exists 1. pose proof (Gge 0). pose proof (gi 0). split; [lra|ring]. Qed.
Lemma g1 : g 1 = 1 + u. Proof. unfold FloatArithFacts.g. cbn [pow]. ring. Qed.
Lemma rel_rnd1 x : rel 1 (rnd x) x.
Proof.
  destruct (Req_dec x 0) as [->|N]. { exists 1. pose proof (Gge 1). pose proof (gi 1). split; [lra|]. rewrite (Id 0 (rd_0 _ _ _ _ RD)). ring. }
  pose proof (rd_err _ _ _ _ RD x) as E1. rewrite Rplus_0_r in E1. pose proof (Hinv x) as E2. 
  assert (N2 : rnd x <> 0). { intros Q. rewrite Q in E2. rewrite Rabs_R0, Rmult_0_r in E2. pose proof (Rabs_pos (0 - x)). assert (Rabs (0 - x) = 0) as Z by lra. apply N. destruct (Req_dec (0 - x) 0) as [Q2|Q2]; [lra|]. now apply Rabs_no_R0 in Q2. }
  exists (rnd x / x). split; [|field; exact N]. rewrite g1.
  assert (A1 : Rabs (rnd x / x - 1) <= u). { replace (rnd x / x - 1) with ((rnd x - x) * / x) by (field; exact N). rewrite Rabs_mult. apply (Rmult_le_reg_r (Rabs x)); [now apply Rabs_pos_lt|]. rewrite Rmult_assoc, <- Rabs_mult, Rinv_l, Rabs_R1 by exact N. lra. }
  assert (A2 : Rabs (1 - x / rnd x) <= u). { replace (1 - x / rnd x) with ((rnd x - x) * / rnd x) by (field; exact N2). rewrite Rabs_mult. apply (Rmult_le_reg_r (Rabs (rnd x))); [now apply Rabs_pos_lt|]. rewrite Rmult_assoc, <- Rabs_mult, Rinv_l, Rabs_R1 by exact N2. lra. }
  apply Rabs_le_inv in A1, A2. split; [|lra].
  (* x / rnd x <= 1 + u *) 
  assert (S : 0 < rnd x / x).
  { destruct (Rtotal_order (rnd x / x) 0) as [Q|[Q|Q]]; [|exfalso; apply N2; apply (Rmult_eq_reg_r (/ x)); [unfold Rdiv in Q; lra|now apply Rinv_neq_0_compat]|exact Q].
    exfalso. destruct (Rtotal_order x 0) as [X|[X|X]]; [|contradiction|].
    - pose proof (rd_mono _ _ _ _ RD x 0 ltac:(lra)) as Mn. rewrite (Id 0 (rd_0 _ _ _ _ RD)) in Mn. assert (0 <= rnd x / x); [|lra]. replace (rnd x / x) with ((- rnd x) * / (- x)) by (field; lra). apply Rmult_le_pos; [lra|left; apply Rinv_0_lt_compat; lra].
    - pose proof (rd_mono _ _ _ _ RD 0 x ltac:(lra)) as Mn. rewrite (Id 0 (rd_0 _ _ _ _ RD)) in Mn. assert (0 <= rnd x / x); [|lra]. apply Rmult_le_pos; [lra|left; apply Rinv_0_lt_compat; lra]. }
  replace (rnd x / x) with (/ (x / rnd x)) by (field; split; assumption). apply Rinv_le_contravar; [|lra].
  replace (x / rnd x) with (/ (rnd x / x)) by (field; split; assumption). now apply Rinv_0_lt_compat.
Qed.
Lemma rel_trans j k x y z : rel j x y -> rel k y z -> rel (j + k) x z.
Proof.
  intros (r & [R1 R2] & ->) (s & [S1 S2] & ->). exists (r * s). split; [|ring]. rewrite (gplus u j k), Rinv_mult.
  pose proof (gi j). pose proof (gi k). split; apply Rmult_le_compat; lra.
Qed.
Lemma rel_rnd k x X : rel k x X -> rel (S k) (rnd x) X.
Proof. intros H. exact (rel_trans 1 k _ _ _ (rel_rnd1 x) H). Qed.
Lemma rel_mul j k x y X Y : rel j x X -> rel k y Y -> rel (j + k) (x * y) (X * Y).
Proof.
  intros (r & [R1 R2] & ->) (s & [S1 S2] & ->). exists (r * s). split; [|ring]. rewrite (gplus u j k), Rinv_mult.
  pose proof (gi j). pose proof (gi k). split; apply Rmult_le_compat; lra.
Qed.
Lemma rel_inv k x X : rel k x X -> rel k (/ x) (/ X).
Proof.
  intros (r & [R1 R2] & ->). pose proof (gi k). exists (/ r). split.
  - split; [apply Rinv_le_contravar; lra|]. rewrite <- (Rinv_inv (g k)). apply Rinv_le_contravar; lra.
  - destruct (Req_dec X 0) as [->|N]; [|field; split; [lra|exact N]].
    rewrite Rmult_0_l, Rinv_0. ring.
Qed.
Lemma rel_div j k x y X Y : rel j x X -> rel k y Y -> rel (j + k) (x / y) (X / Y).
Proof. intros H1 H2. apply rel_mul; [exact H1|now apply rel_inv]. Qed.
Lemma rel_opp k x X : rel k x X -> rel k (- x) (- X).
Proof. intros (r & H & ->). exists r. split; [exact H|ring]. Qed.
Lemma rel_acc k x X A : Rabs X <= A -> rel k x X -> acc k A 0 x X.
Proof.
  intros HA (r & [R1 R2] & ->). split; [exact HA|split; [lra|]]. replace (X * r - X) with (X * (r - 1)) by ring. rewrite Rabs_mult.
  pose proof (gi k) as [I1 I2]. pose proof (Gge k). assert (1 - / g k <= g k - 1).
  { assert (2 <= g k + / g k); [|lra]. apply (Rmult_le_reg_r (g k)); [lra|]. rewrite Rmult_plus_distr_r, Rinv_l by lra. pose proof (Rle_0_sqr (g k - 1)). unfold Rsqr in *. lra. }
  assert (Rabs (r - 1) <= g k - 1) by (apply Rabs_le; lra). pose proof (Rabs_pos X). pose proof (Rabs_pos (r - 1)). nra.
Qed.
End Acc.

(** sin y / y varies slower than |y| / 2 *)
Definition sa (y : R) : R := if Req_EM_T y 0 then 1 else sin y / y.
Lemma mono_from_0 (f f' : R -> R) y : (forall x, derivable_pt_lim f x (f' x)) -> (forall x, 0 <= x -> 0 <= f' x) -> 0 <= y -> f 0 <= f y.
Proof.
  intros D P H. destruct (Req_dec y 0) as [->|N]; [lra|]. destruct (MVT_cor2 f f' 0 y ltac:(lra) (fun c _ => D c)) as (c & E & C). pose proof (P c ltac:(lra)). nra.
Qed.
Lemma d_half x : derivable_pt_lim (fun y => y * y / 2) x x.
Proof.
  replace x with ((1 * x + x * 1) * / 2 + x * x * 0) at 2 by field.
  apply (derivable_pt_lim_mult (fun y => y * y) (fun _ => / 2)); [|apply derivable_pt_lim_const]. apply (derivable_pt_lim_mult id id); apply derivable_pt_lim_id.
Qed.
Lemma d_ycos x : derivable_pt_lim (fun y => y * cos y - sin y) x (- (x * sin x)).
Proof.
  replace (- (x * sin x)) with ((1 * cos x + x * - sin x) - cos x) by ring.
  apply (derivable_pt_lim_minus (fun y => y * cos y) sin); [|apply derivable_pt_lim_sin]. apply (derivable_pt_lim_mult id cos); [apply derivable_pt_lim_id|apply derivable_pt_lim_cos].
Qed.
Lemma ycos_bound y : 0 <= y -> Rabs (y * cos y - sin y) <= y * y / 2.
Proof.
  intros H.
  assert (Q1 := mono_from_0 _ _ y (fun x => derivable_pt_lim_plus _ _ _ _ _ (d_half x) (d_ycos x))). specialize (Q1 ltac:(intros x Hx; cbn; pose proof (SIN_bound x); nra) H).
  assert (Q2 := mono_from_0 _ _ y (fun x => derivable_pt_lim_minus _ _ _ _ _ (d_half x) (d_ycos x))). specialize (Q2 ltac:(intros x Hx; cbn; pose proof (SIN_bound x); nra) H).
  unfold plus_fct, minus_fct in *. rewrite sin_0 in *. apply Rabs_le. lra.
Qed.
Lemma sa_deriv y : y <> 0 -> derivable_pt_lim (fun y => sin y / y) y ((cos y * y - 1 * sin y) / Rsqr y).
Proof. intros N. exact (derivable_pt_lim_div sin id y (cos y) 1 (derivable_pt_lim_sin y) (derivable_pt_lim_id y) N). Qed.
Lemma sa_lip_pos a b : 0 <= a -> a <= b -> Rabs (sa b - sa a) <= (b - a) / 2.
Proof.
  intros Ha Hb. destruct (Req_dec a b) as [->|N]. { unfold Rminus. rewrite !Rplus_opp_r, Rabs_R0. lra. } destruct (Req_dec a 0) as [->|N0].
  - unfold sa. destruct (Req_EM_T 0 0) as [_|C]; [|contradiction]. destruct (Req_EM_T b 0) as [->|Nb]; [rewrite Rminus_0_r; unfold Rminus; rewrite Rplus_opp_r, Rabs_R0; lra|].
    assert (Hb' : 0 < b) by lra. pose proof (sin_le_id b Hb) as S1.
    assert (Q := mono_from_0 _ _ b (fun x => derivable_pt_lim_plus _ _ _ _ _ (derivable_pt_lim_minus _ _ _ _ _ (d_half x) (derivable_pt_lim_id x)) (derivable_pt_lim_sin x))).
    specialize (Q ltac:(intros x Hx; cbn; pose proof (cos_lip x 0) as L; rewrite cos_0, Rminus_0_r, (Rabs_pos_eq x) in L by exact Hx; apply Rabs_le_inv in L; lra) Hb).
    unfold plus_fct, minus_fct, id in Q. rewrite sin_0 in Q.
    replace (sin b / b - 1) with (- ((b - sin b) / b)) by (field; lra). rewrite Rabs_Ropp, Rabs_pos_eq.
    + apply (Rmult_le_reg_r b); [exact Hb'|]. unfold Rdiv. rewrite Rmult_assoc, Rinv_l by lra. lra.
    + apply Rmult_le_pos; [lra|left; now apply Rinv_0_lt_compat].
  - unfold sa. destruct (Req_EM_T a 0) as [C|_]; [contradiction|]. destruct (Req_EM_T b 0) as [C|_]; [lra|].
    destruct (MVT_cor2 (fun y => sin y / y) (fun y => (cos y * y - 1 * sin y) / Rsqr y) a b ltac:(lra)) as (c & E & C); [intros c Hc; apply sa_deriv; lra|]. rewrite E, Rabs_mult, (Rabs_pos_eq (b - a)) by lra.
    assert (B : Rabs ((cos c * c - 1 * sin c) / c²) <= / 2).
    { pose proof (ycos_bound c ltac:(lra)) as Y. replace (cos c * c - 1 * sin c) with (c * cos c - sin c) by ring. assert (P : 0 < c²) by (unfold Rsqr; nra).
      unfold Rdiv. rewrite Rabs_mult, (Rabs_pos_eq (/ c²)) by (left; now apply Rinv_0_lt_compat). apply (Rmult_le_reg_r (c²)); [exact P|]. rewrite Rmult_assoc, Rinv_l by lra. unfold Rsqr. lra. }
    nra.
Qed.
Lemma sa_even a : sa a = sa (Rabs a).
Proof.
  destruct (Rle_or_lt 0 a) as [H|H]; [now rewrite Rabs_pos_eq|]. rewrite Rabs_left by exact H. unfold sa. destruct (Req_EM_T a 0); [lra|]. destruct (Req_EM_T (- a) 0); [lra|]. rewrite sin_neg. field. lra.
Qed.
Lemma sa_lip a b : Rabs (sa a - sa b) <= Rabs (a - b) / 2.
Proof.
  rewrite (sa_even a), (sa_even b). pose proof (Rabs_triang_inv2 a b) as T. destruct (Rle_or_lt (Rabs a) (Rabs b)) as [L|L].
  - rewrite Rabs_minus_sym. pose proof (sa_lip_pos _ _ (Rabs_pos a) L) as Q. rewrite (Rabs_left1 (Rabs a - Rabs b)) in T by lra. lra.
  - pose proof (sa_lip_pos (Rabs b) (Rabs a) (Rabs_pos b) ltac:(lra)) as Q. rewrite (Rabs_pos_eq (Rabs a - Rabs b)) in T by lra. lra.
Qed.
Lemma sa_1 a : Rabs (sa a) <= 1.
Proof.
  unfold sa. destruct (Req_EM_T a 0) as [_|N]; [rewrite Rabs_R1; lra|]. unfold Rdiv. rewrite Rabs_mult. apply (Rmult_le_reg_r (Rabs a)); [now apply Rabs_pos_lt|].
  rewrite Rmult_assoc, <- Rabs_mult, Rinv_l, Rabs_R1, Rmult_1_r, Rmult_1_l by exact N. apply sin_abs_le.
Qed.

Lemma doc_sym I0 fam M i : (2 <= M)%nat -> params_ok fam M -> (i < M)%nat -> doc_formula I0 fam M (M - 1 - i) = doc_formula I0 fam M i.
Proof.
  intros H P Hi. pose proof (all_formulas I0 fam M H P) as E.
  destruct (window_symmetric (rops I0) fam M) as (w & Ew & L & S).
  { intros be _. cbn. destruct (Rle_dec 0 (Rabs be)) as [|N]; [reflexivity|destruct N; apply Rabs_pos]. }
  rewrite E in Ew. injection Ew as Ew. subst w. specialize (S i Hi). rewrite !nth_error_map, !(nth_error_nth' _ 0%nat), !seq_nth in S by (rewrite ?seq_length; lia). cbn in S. now injection S as S.
Qed.
Lemma filler_close (w : list R) (f F : nat -> R) (M : nat) (B : R) : length w = M ->
  (forall j, (j < M)%nat -> (M - 1 <= 2 * j)%nat -> Rabs (f j - F j) <= B) -> (forall i, (i < M)%nat -> F (M - 1 - i)%nat = F i) ->
  exists r, symmetric_filler w f = Ok r /\ length r = M /\ forall i, (i < M)%nat -> Rabs (nth i r 0 - F i) <= B.
Proof.
  intros L H S. rewrite symmetric_filler_map, L. eexists. split; [reflexivity|split; [now rewrite map_length, seq_length|]]. intros i Hi.
  set (h := fun i => f (Nat.max i (M - 1 - i))). rewrite (nth_indep _ 0 (h 0%nat)) by (now rewrite map_length, seq_length). rewrite (map_nth h), seq_nth by exact Hi. unfold h. rewrite Nat.add_0_l.
  destruct (Nat.le_gt_cases (M - 1 - i) i) as [Q|Q]; [rewrite Nat.max_l by lia; apply H; lia|]. rewrite Nat.max_r by lia. rewrite <- S by exact Hi. apply H; lia.
Qed.

Section Win.
Variables (u : R) (fmt : R -> Prop) (rnd : R -> R).
Hypothesis RD : rounding u 0 fmt rnd.
Hypothesis Hinv : forall x, Rabs (rnd x - x) <= u * Rabs (rnd x).
Hypothesis Fopp : forall x, fmt x -> fmt (- x).
Variable N : Z.
Hypothesis HN : (8 <= N)%Z.
Hypothesis Fhalf : forall z, (Z.abs z <= N)%Z -> fmt (IZR z / 2).
Hypothesis Fint : forall z, (Z.abs z <= N)%Z -> fmt (IZR z).
Variables (sinl cosl expl I0l : R -> R) (powl : R -> R -> R) (eps : R).
Hypothesis Hcos : forall x, Rabs (cosl x - cos x) <= eps.
Variable I0 : R -> R.
Notation o := (fl_wops rnd sinl cosl expl I0l powl).
Notation g := (g u).
Notation acc := (acc u).
Notation rel := (rel u).
Let Gge := gge u fmt rnd RD.
Let Gmon := gmon u fmt rnd RD.
Let Id := rd_id _ _ _ _ RD.
Lemma ofz z : (Z.abs z <= N)%Z -> rnd (IZR z) = IZR z.
Proof. intros H. now apply Id, Fint. Qed.
Lemma ofn n : (Z.of_nat n <= N)%Z -> rnd (IZR (Z.of_nat n)) = INR n.
Proof. intros H. rewrite ofz by lia. apply IZR_nat. Qed.
Lemma half : rnd (1 / 2) = 1 / 2. Proof. apply Id. apply (Fhalf 1). lia. Qed.
Definition close (fam : family (T := R)) (fam' : family (T := R)) (M : nat) (B : R) : Prop :=
  exists r, window o fam Symmetric M = Ok r /\ length r = M /\ forall i, (i < M)%nat -> Rabs (nth i r 0 - doc_formula I0 fam' M i) <= B.
Ltac fo := cbn [fl_wops w_of w_num w_add w_sub w_mul w_div w_opp w_abs w_fma w_cos w_sin w_exp w_sqrt w_pow w_bessel_i0 w_pi w_le w_iszero w_trunc].
Lemma up_half M j : (2 <= M)%nat -> (j < M)%nat -> (M - 1 <= 2 * j)%nat -> 0 < INR M - 1 /\ 1 <= 2 * INR j / (INR M - 1) <= 2.
Proof.
  intros H Hj Hh. pose proof (INR_ge2 M H). pose proof (INR_half M j ltac:(lia) Hh). pose proof (INR_lt_le j M Hj). split; [lra|].
  split; apply (Rmult_le_reg_r (INR M - 1)); try lra; unfold Rdiv; rewrite Rmult_assoc, Rinv_l by lra; lra.
Qed.
Lemma pi_rel : rel 1 (rnd PI) PI. Proof. apply (rel_rnd1 u fmt rnd RD Hinv). Qed.
Let rrnd := rel_rnd u fmt rnd RD Hinv.
Let ardn := acc_rnd u fmt rnd RD.
Let aweak := acc_weak u fmt rnd RD.
Let amul := acc_mul u fmt rnd RD.
Let aex := acc_exact u fmt rnd RD.
Let asub := acc_sub u.
Let racc := rel_acc u fmt rnd RD.

Lemma bartlett_close M : (2 <= M)%nat -> (2 * Z.of_nat M <= N)%Z -> close Bartlett Bartlett M (g 3 - 1).
Proof.
  intros H HM. unfold close. cbn [window build_window]. unfold bartlett_filler. rewrite repeat_length. apply filler_close; [apply repeat_length| |intros i Hi; now apply (doc_sym I0 Bartlett M i H I)].
  intros j Hj Hh. fo. destruct (up_half M j H Hj Hh) as [P1 P2]. rewrite !ofn, (ofz 2) by lia. rewrite INR_pred by lia. unfold doc_formula. rewrite (Rabs_right (2 * INR j / (INR M - 1) - 1)) by lra.
  assert (R1 : rel 1 (rnd (- (2) / (INR M - 1))) (- (2) / (INR M - 1))) by (apply (rel_rnd1 u fmt rnd RD Hinv)).
  pose proof (rel_mul u fmt rnd RD 1 0 _ _ _ _ R1 (rel_0 u fmt rnd RD (INR j))) as R2.
  assert (A2 : acc 1 2 0 (rnd (- (2) / (INR M - 1)) * INR j) (- (2 * INR j / (INR M - 1)))).
  { replace (- (2 * INR j / (INR M - 1))) with (- (2) / (INR M - 1) * INR j) by (field; lra). apply racc; [|exact R2]. replace (- (2) / (INR M - 1) * INR j) with (- (2 * INR j / (INR M - 1))) by (field; lra). rewrite Rabs_Ropp, Rabs_pos_eq; lra. }
  assert (A3 : acc 2 1 0 (rnd (- (2) / (INR M - 1)) * INR j + 2) (1 - (2 * INR j / (INR M - 1) - 1))).
  { split; [apply Rabs_le; lra|split; [lra|]]. apply (acc_err u) in A2. replace (rnd (- (2) / (INR M - 1)) * INR j + 2 - (1 - (2 * INR j / (INR M - 1) - 1))) with (rnd (- (2) / (INR M - 1)) * INR j - - (2 * INR j / (INR M - 1))) by ring.
    eapply Rle_trans; [exact A2|]. unfold FloatArithFacts.g. cbn [pow]. pose proof (Rle_0_sqr u). unfold Rsqr in *. lra. }
  apply ardn, (acc_err u) in A3. lra.
Qed.
Lemma cosine_close M : (forall x, Rabs (sinl x - sin x) <= eps) -> (2 <= M)%nat -> (2 * Z.of_nat M <= N)%Z -> close Cosine Cosine M (eps + (g 3 - 1) * PI).
Proof.
  intros Hsin H HM. unfold close. cbn [window build_window]. unfold cosine_filler. rewrite repeat_length. destruct (Nat.eqb_spec M 0); [lia|].
  apply filler_close; [apply repeat_length| |intros i Hi; now apply (doc_sym I0 Cosine M i H I)].
  intros j Hj Hh. fo. rewrite half, !ofn by lia. assert (E : rnd (INR j + 1 / 2) = INR j + 1 / 2).
  { apply Id. replace (INR j + 1 / 2) with (IZR (2 * Z.of_nat j + 1) / 2) by (rewrite plus_IZR, mult_IZR, IZR_nat; field). apply Fhalf. lia. }
  rewrite E. unfold doc_formula. pose proof (INR_ge2 M H). pose proof (INR_lt_le j M Hj). pose proof (pos_INR j). pose proof PI_RGT_0.
  assert (R1 : rel 3 (rnd (rnd (rnd PI / INR M) * (INR j + 1 / 2))) (PI / INR M * (INR j + 1 / 2))).
  { apply rrnd. apply (rel_mul u fmt rnd RD 2 0); [|apply (rel_0 u fmt rnd RD)]. apply rrnd. apply (rel_div u fmt rnd RD 1 0); [exact pi_rel|apply (rel_0 u fmt rnd RD)]. }
  replace (PI / INR M * (INR j + 1 / 2)) with (PI * (INR j + 1 / 2) / INR M) in R1 by (field; lra).
  assert (A : acc 3 PI 0 (rnd (rnd (rnd PI / INR M) * (INR j + 1 / 2))) (PI * (INR j + 1 / 2) / INR M)).
  { apply racc; [|exact R1]. rewrite Rabs_pos_eq; [|apply Rmult_le_pos; [nra|left; apply Rinv_0_lt_compat; lra]]. apply (Rmult_le_reg_r (INR M)); [lra|]. unfold Rdiv. rewrite Rmult_assoc, Rinv_l by lra. nra. }
  apply (acc_fun u sin sinl eps) in A; [|apply sin_lip|exact Hsin|intros a; apply Rabs_le, SIN_bound]. apply (acc_err u) in A. rewrite Rmult_0_r, Rplus_0_r in A. eapply Rle_trans; [exact A|].
  unfold FloatArithFacts.g at 1 2. cbn [pow]. lra.
Qed.

(** *** cosine sums *)
Fixpoint asum (A : list R) : R := match A with [] => 0 | C :: r => Rabs C + asum r end.
Fixpoint wsum (j : nat) (A : list R) : R := match A with [] => 0 | C :: r => Rabs C * INR j + wsum (S j) r end.
Definition coef (k : nat) (c C : R) : Prop := fmt c /\ Rabs (c - C) <= (g k - 1) * Rabs C.
Lemma terms_acc M i k : (2 <= M)%nat -> (i < M)%nat -> (2 * Z.of_nat M <= N)%Z -> forall a A, Forall2 (coef k) a A -> forall j m s tmp S0 E0 T0, (k + 1 <= m)%nat -> s = 1 \/ s = -1 -> acc m S0 E0 tmp T0 ->
  acc (m + length a) (S0 + asum A) (E0 + (eps * asum A + (g 5 - 1) * (2 * PI * wsum j A)))
    (cosine_terms o (rnd (rnd (rnd 2 * rnd PI) / rnd (IZR (Z.of_nat (M - 1))))) i j a s tmp) (cosine_terms (rops I0) (2 * PI / (INR M - 1)) i j A s T0).
Proof.
  intros HM Hi HB a A HF. pose proof (INR_ge2 M HM). pose proof (INR_lt_le i M Hi). pose proof (pos_INR i). pose proof PI_RGT_0 as HPI. induction HF as [|c C a A [Fc Hc] HF IH]; intros j m s tmp S0 E0 T0 Hm Hs HT.
  - cbn [cosine_terms asum wsum length]. rewrite Nat.add_0_r, !Rmult_0_r, !Rplus_0_r. exact HT.
  - cbn [cosine_terms length asum wsum]. fo. cbn [rops w_mul w_opp w_of w_add w_cos]. set (sc := rnd (rnd (rnd 2 * rnd PI) / rnd (IZR (Z.of_nat (M - 1))))) in *.
    assert (Es : rnd (s * - rnd 1) = s * -1). { rewrite (ofz 1) by lia. destruct Hs as [-> | ->]; [replace (1 * - (1)) with (IZR (-1)) by ring|replace (-1 * - (1)) with (IZR 1) by ring]; rewrite ofz by lia; ring. }
    rewrite Es. replace (- (1)) with (-1) by ring. assert (Hs' : s * -1 = 1 \/ s * -1 = -1) by (destruct Hs as [-> | ->]; [right|left]; ring).
    set (s' := s * -1) in *. replace (m + S (length a))%nat with (S m + length a)%nat by lia.
    replace (S0 + (Rabs C + asum A)) with ((S0 + Rabs C) + asum A) by ring.
    set (e := eps + (g 5 - 1) * (2 * PI * INR j)).
    replace (E0 + (eps * (Rabs C + asum A) + (g 5 - 1) * (2 * PI * (Rabs C * INR j + wsum (S j) A)))) with ((E0 + Rabs C * e) + (eps * asum A + (g 5 - 1) * (2 * PI * wsum (S j) A))) by (unfold e; ring).
    apply IH; [lia|exact Hs'|]. apply ardn. apply (acc_add u m); [exact HT|].
    (* the term *)
    assert (TH : rel 5 (rnd (sc * rnd (IZR (Z.of_nat (i * j))))) (2 * PI / (INR M - 1) * IZR (Z.of_nat (i * j)))).
    { apply rrnd. apply (rel_mul u fmt rnd RD 3 1); [|apply (rel_rnd1 u fmt rnd RD Hinv)]. unfold sc. rewrite ofn, INR_pred by lia. apply rrnd.
      apply (rel_div u fmt rnd RD 2 0); [|apply (rel_0 u fmt rnd RD)]. apply rrnd. rewrite (ofz 2) by lia. apply (rel_mul u fmt rnd RD 0 1); [apply (rel_0 u fmt rnd RD)|exact pi_rel]. }
    assert (AT : acc 5 (2 * PI * INR j) 0 (rnd (sc * rnd (IZR (Z.of_nat (i * j))))) (2 * PI / (INR M - 1) * IZR (Z.of_nat (i * j)))).
    { apply racc; [|exact TH]. rewrite IZR_nat, mult_INR. pose proof (pos_INR j). replace (2 * PI / (INR M - 1) * (INR i * INR j)) with ((2 * PI * INR j) * (INR i / (INR M - 1))) by (field; lra).
      assert (0 <= INR i / (INR M - 1) <= 1). { split; [apply Rmult_le_pos; [lra|left; apply Rinv_0_lt_compat; lra]|]. apply (Rmult_le_reg_r (INR M - 1)); [lra|]. unfold Rdiv. rewrite Rmult_assoc, Rinv_l by lra. lra. }
      assert (0 <= 2 * PI * INR j) by (apply Rmult_le_pos; lra). rewrite Rabs_pos_eq by (apply Rmult_le_pos; lra). nra. }
    apply (acc_fun u cos cosl eps) in AT; [|apply cos_lip|exact Hcos|intros b; apply Rabs_le, COS_bound]. rewrite Rmult_0_r, Rplus_0_r in AT. fold e in AT.
    assert (AC : acc k (Rabs C) 0 (rnd (s' * c)) (s' * C)).
    { assert (Ec : rnd (s' * c) = s' * c) by (apply Id; destruct Hs' as [-> | ->]; [now rewrite Rmult_1_l|replace (-1 * c) with (- c) by ring; now apply Fopp]). rewrite Ec.
      assert (Ab : Rabs s' = 1) by (destruct Hs' as [-> | ->]; [apply Rabs_R1|rewrite Rabs_left; lra]). split; [rewrite Rabs_mult, Ab; lra|split; [lra|]].
      replace (s' * c - s' * C) with (s' * (c - C)) by ring. rewrite Rabs_mult, Ab, Rmult_1_l, Rmult_0_r, Rplus_0_r. exact Hc. }
    pose proof (ardn _ _ _ _ _ (amul _ _ _ _ _ _ _ _ _ _ AC AT)) as Q. revert Q. apply aweak; [lia|lra|lra].
Qed.
Definition csum_bound (m : nat) (A : list R) : R := (g m - 1) * asum A + g m * (eps * asum A + (g 5 - 1) * (2 * PI * wsum 0 A)).
Lemma cosines_close a A k M : (2 <= M)%nat -> (2 * Z.of_nat M <= N)%Z -> Forall2 (coef k) a A -> close (GeneralCosine a) (GeneralCosine A) M (csum_bound (k + 1 + length a) A).
Proof.
  intros H HM HF. unfold close. cbn [window]. unfold general_cosine, build_window, general_cosine_filler. rewrite repeat_length.
  apply filler_close; [apply repeat_length| |intros i Hi; now apply (doc_sym I0 (GeneralCosine A) M i H I)].
  intros j Hj Hh. fo. pose proof (INR_ge2 M H).
  assert (T : acc (k + 1) 0 0 (rnd 0) 0). { rewrite (ofz 0) by lia. apply (aweak 0%nat (k + 1)%nat 0 0 0 0); [lia|lra|lra|]. apply aex. rewrite Rabs_R0. lra. }
  pose proof (terms_acc M j k H Hj HM a A HF 0%nat (k + 1)%nat (-1) (rnd 0) 0 0 0 (le_n _) ltac:(now right) T) as Q. apply (acc_err u) in Q. rewrite !Rplus_0_l in Q. fold (csum_bound (k + 1 + length a) A) in Q.
  rewrite (ofz 1) by lia. replace (- (1)) with (-1) by ring.
  rewrite cosine_terms_R in Q. unfold doc_formula. rewrite Rplus_0_l in Q.
  rewrite (sum_ext (fun k0 : nat => - (-1) * (-1) ^ k0 * nth k0 A 0 * cos (2 * PI / (INR M - 1) * (INR j * INR (0 + k0)))) (fun j0 : nat => (-1) ^ j0 * nth j0 A 0 * cos (2 * PI * INR j * INR j0 / (INR M - 1)))) in Q; [exact Q|].
  intros n _. rewrite Nat.add_0_l. replace (2 * PI / (INR M - 1) * (INR j * INR n)) with (2 * PI * INR j * INR n / (INR M - 1)) by (field; lra). ring.
Qed.
Lemma coef_lit (n d : Z) : coef 1 (rnd (IZR n / IZR d)) (IZR n / IZR d).
Proof. split; [apply (rd_fmt _ _ _ _ RD)|]. pose proof (rd_err _ _ _ _ RD (IZR n / IZR d)) as Q. rewrite Rplus_0_r in Q. rewrite (g1 u). lra. Qed.
Lemma coef_fmt c : fmt c -> coef 0 c c.
Proof. intros F. split; [exact F|]. unfold Rminus at 1. rewrite Rplus_opp_r, Rabs_R0. pose proof (Gge 0). pose proof (Rabs_pos c). nra. Qed.
Lemma coef_weak j k c C : (j <= k)%nat -> coef j c C -> coef k c C.
Proof. intros H [F Q]. split; [exact F|]. pose proof (Gmon j k H). pose proof (Rabs_pos C). nra. Qed.

Lemma doc_same f1 f2 M i : (2 <= M)%nat -> params_ok f1 M -> params_ok f2 M -> (i < M)%nat -> window (rops I0) f1 Symmetric M = window (rops I0) f2 Symmetric M -> doc_formula I0 f1 M i = doc_formula I0 f2 M i.
Proof.
  intros H P1 P2 Hi E. rewrite !all_formulas in E by assumption. injection E as E. apply (f_equal (fun l => nth_error l i)) in E. rewrite !nth_error_map, !(nth_error_nth' _ 0%nat), !seq_nth in E by (rewrite ?seq_length; lia). cbn in E. now injection E as E.
Qed.
Lemma cosines_as fam a A k M : (2 <= M)%nat -> (2 * Z.of_nat M <= N)%Z -> Forall2 (coef k) a A -> params_ok fam M ->
  window o fam Symmetric M = window o (GeneralCosine a) Symmetric M -> window (rops I0) fam Symmetric M = window (rops I0) (GeneralCosine A) Symmetric M -> close fam fam M (csum_bound (k + 1 + length a) A).
Proof.
  intros H HM HF P E1 E2. destruct (cosines_close a A k M H HM HF) as (r & E & L & Q). exists r. split; [now rewrite E1|split; [exact L|]]. intros i Hi. rewrite (doc_same fam (GeneralCosine A) M i H P I Hi E2). now apply Q.
Qed.
Ltac lits := repeat (apply Forall2_cons; [apply coef_lit|]); apply Forall2_nil.
Lemma blackman_close M : (2 <= M)%nat -> (2 * Z.of_nat M <= N)%Z -> close Blackman Blackman M (csum_bound 5 [42 / 100; 50 / 100; 8 / 100]).
Proof. intros H HM. refine (cosines_as Blackman _ _ 1 M H HM _ I eq_refl eq_refl). lits. Qed.
Lemma nuttall_close M : (2 <= M)%nat -> (2 * Z.of_nat M <= N)%Z -> close Nuttall Nuttall M (csum_bound 6 [3635819 / 10000000; 4891775 / 10000000; 1365995 / 10000000; 106411 / 10000000]).
Proof. intros H HM. refine (cosines_as Nuttall _ _ 1 M H HM _ I eq_refl eq_refl). lits. Qed.
Lemma blackmanharris_close M : (2 <= M)%nat -> (2 * Z.of_nat M <= N)%Z -> close BlackmanHarris BlackmanHarris M (csum_bound 6 [35875 / 100000; 48829 / 100000; 14128 / 100000; 1168 / 100000]).
Proof. intros H HM. refine (cosines_as BlackmanHarris _ _ 1 M H HM _ I eq_refl eq_refl). lits. Qed.
Lemma flattop_close M : (2 <= M)%nat -> (2 * Z.of_nat M <= N)%Z ->
  close Flattop Flattop M (csum_bound 7 [21557895 / 100000000; 41663158 / 100000000; 277263158 / 1000000000; 83578947 / 1000000000; 6947368 / 1000000000]).
Proof. intros H HM. refine (cosines_as Flattop _ _ 1 M H HM _ I eq_refl eq_refl). lits. Qed.
Lemma hamming_coefs al M k : (2 <= M)%nat -> (2 * Z.of_nat M <= N)%Z -> coef k (rnd al) al -> coef k (rnd (rnd 1 - rnd al)) (1 - al) ->
  forall fam, params_ok fam M -> window o fam Symmetric M = window o (GeneralHamming (rnd al)) Symmetric M -> window (rops I0) fam Symmetric M = window (rops I0) (GeneralHamming al) Symmetric M ->
  close fam fam M (csum_bound (k + 3) [al; 1 - al]).
Proof.
  intros H HM C1 C2 fam P E1 E2. pose proof (cosines_as fam [rnd al; rnd (rnd 1 - rnd al)] [al; 1 - al] k M H HM) as Q. replace (k + 3)%nat with (k + 1 + length [rnd al; rnd (rnd 1 - rnd al)])%nat by (cbn; lia). apply Q; [|exact P|exact E1|exact E2].
  apply Forall2_cons; [exact C1|apply Forall2_cons; [exact C2|apply Forall2_nil]].
Qed.
Lemma hann_close M : (2 <= M)%nat -> (2 * Z.of_nat M <= N)%Z -> close Hann Hann M (csum_bound 3 [1 / 2; 1 / 2]).
Proof.
  intros H HM. cut (close Hann Hann M (csum_bound 3 [1 / 2; 1 - 1 / 2])); [replace (1 - 1 / 2) with (1 / 2) by lra; exact (fun Q => Q)|]. refine (hamming_coefs (1 / 2) M 0 H HM _ _ Hann I eq_refl eq_refl).
  - rewrite half. apply coef_fmt. apply (Fhalf 1). lia.
  - rewrite half, (ofz 1) by lia. replace (1 - 1 / 2) with (1 / 2) by lra. rewrite half. apply coef_fmt. apply (Fhalf 1). lia.
Qed.
Lemma hamming_close M : (2 <= M)%nat -> (2 * Z.of_nat M <= N)%Z -> close Hamming Hamming M (csum_bound 6 [54 / 100; 46 / 100]).
Proof.
  intros H HM. cut (close Hamming Hamming M (csum_bound 6 [54 / 100; 1 - 54 / 100])); [replace (1 - 54 / 100) with (46 / 100) by lra; exact (fun Q => Q)|]. refine (hamming_coefs (54 / 100) M 3 H HM _ _ Hamming I eq_refl eq_refl).
  - apply (coef_weak 1); [lia|apply coef_lit].
  - split; [apply (rd_fmt _ _ _ _ RD)|]. rewrite (ofz 1) by lia. rewrite (Rabs_pos_eq (1 - 54 / 100)) by lra. pose proof (rd_err _ _ _ _ RD (54 / 100)) as Q. rewrite Rplus_0_r, (Rabs_pos_eq (54 / 100)) in Q by lra.
    assert (B : Rabs (1 - rnd (54 / 100) - (1 - 54 / 100)) <= (g 2 - 1) * (1 - 54 / 100)).
    { replace (1 - rnd (54 / 100) - (1 - 54 / 100)) with (- (rnd (54 / 100) - 54 / 100)) by ring. rewrite Rabs_Ropp. eapply Rle_trans; [exact Q|]. pose proof (u_pos _ _ _ _ RD). unfold FloatArithFacts.g. cbn [pow]. nra. }
    apply (rstep u fmt rnd RD 2); [rewrite Rabs_pos_eq by lra; lra|exact B].
Qed.
Lemma general_hamming_close al M : fmt al -> (2 <= M)%nat -> (2 * Z.of_nat M <= N)%Z -> close (GeneralHamming al) (GeneralHamming al) M (csum_bound 4 [al; 1 - al]).
Proof.
  intros F H HM. refine (hamming_coefs al M 1 H HM _ _ (GeneralHamming al) I _ eq_refl); rewrite (Id al F).
  - apply (coef_weak 0); [lia|now apply coef_fmt].
  - rewrite (ofz 1) by lia. split; [apply (rd_fmt _ _ _ _ RD)|]. pose proof (rd_err _ _ _ _ RD (1 - al)) as Q. rewrite Rplus_0_r in Q. rewrite (g1 u). lra.
  - reflexivity.
Qed.
Lemma center_fl M : (1 <= M)%nat -> (2 * Z.of_nat M <= N)%Z -> center o M = (INR M - 1) / 2.
Proof.
  intros H HM. rewrite <- (center_R I0 M H). unfold center. fo. cbn [rops w_sub w_of w_num]. pose proof (Nat.div_le_upper_bound M 2 M ltac:(lia) ltac:(lia)).
  rewrite ofn by lia. rewrite IZR_nat. destruct (M mod 2 =? 0)%nat.
  - rewrite half. apply Id. replace (INR (M / 2) - 1 / 2) with (IZR (2 * Z.of_nat (M / 2) - 1) / 2) by (rewrite minus_IZR, mult_IZR, IZR_nat; field). apply Fhalf. lia.
  - rewrite (ofz 0) by lia. apply Id. rewrite Rminus_0_r, <- IZR_nat. replace (IZR (Z.of_nat (M / 2))) with (IZR (2 * Z.of_nat (M / 2)) / 2) by (rewrite mult_IZR; field). apply Fhalf. lia.
Qed.
Lemma offset_fl M j : (1 <= M)%nat -> (j < M)%nat -> (2 * Z.of_nat M <= N)%Z -> rnd (INR j - (INR M - 1) / 2) = INR j - (INR M - 1) / 2.
Proof.
  intros H Hj HM. apply Id. replace (INR j - (INR M - 1) / 2) with (IZR (2 * Z.of_nat j - (Z.of_nat M - 1)) / 2) by (rewrite !minus_IZR, mult_IZR, !IZR_nat; field). apply Fhalf. lia.
Qed.
Lemma gaussian_close sg M : (forall x, x <= 0 -> Rabs (expl x - exp x) <= eps) -> sg <> 0 -> (2 <= M)%nat -> (2 * Z.of_nat M <= N)%Z -> close (Gaussian sg) (Gaussian sg) M (eps + (g 5 - 1) * exp (-1)).
Proof.
  intros Hexp Hs H HM. unfold close. cbn [window build_window]. unfold gaussian_filler. rewrite repeat_length. rewrite center_fl by lia. apply filler_close; [apply repeat_length| |intros i Hi; now apply (doc_sym I0 (Gaussian sg) M i H Hs)].
  intros j Hj Hh. fo. rewrite ofn by lia. rewrite offset_fl by lia. unfold doc_formula. set (n := INR j - (INR M - 1) / 2). rewrite (ofz 1), (ofz 2) by lia.
  set (z := n ^ 2 / (2 * sg ^ 2)). assert (P : 0 < sg ^ 2) by (rewrite <- Rsqr_pow2; now apply Rsqr_pos_lt). assert (Z0 : 0 <= z).
  { unfold z. apply Rmult_le_pos; [rewrite <- Rsqr_pow2; apply Rle_0_sqr|left; apply Rinv_0_lt_compat; lra]. }
  assert (R : rel 5 (rnd (rnd (rnd (- (1) / rnd (rnd (2 * sg) * sg)) * n) * n)) (- (1) / (2 * sg * sg) * n * n)).
  { apply rrnd. apply (rel_mul u fmt rnd RD 4 0); [|apply (rel_0 u fmt rnd RD)]. apply rrnd. apply (rel_mul u fmt rnd RD 3 0); [|apply (rel_0 u fmt rnd RD)]. apply rrnd. apply (rel_div u fmt rnd RD 0 2); [apply (rel_0 u fmt rnd RD)|].
    apply rrnd. apply (rel_mul u fmt rnd RD 1 0); [|apply (rel_0 u fmt rnd RD)]. apply (rel_rnd1 u fmt rnd RD Hinv). }
  replace (- (1) / (2 * sg * sg) * n * n) with (- z) in R by (unfold z; field; exact Hs). destruct R as (r & Hr & ->).
  replace (- n ^ 2 / (2 * sg ^ 2)) with (- z) by (unfold z; field; exact Hs). replace (- z * r) with (- (z * r)) by ring.
  pose proof (exp_rel (g 5) z r (Gge 5) Z0 Hr) as Q. pose proof (gi u fmt rnd RD 5) as G5. assert (B := Hexp (- (z * r)) ltac:(assert (0 <= z * r) by (apply Rmult_le_pos; lra); lra)).
  replace (expl (- (z * r)) - exp (- z)) with ((expl (- (z * r)) - exp (- (z * r))) + (exp (- (z * r)) - exp (- z))) by ring. eapply Rle_trans; [apply Rabs_triang|]. lra.
Qed.

Lemma parzen_close M : (2 <= M)%nat -> (2 * Z.of_nat M <= N)%Z -> close Parzen Parzen M (2 * (g 9 - 1)).
Proof.
  intros H HM. unfold close. cbn [window build_window]. unfold parzen_filler. rewrite repeat_length. rewrite center_fl by lia.
  apply filler_close; [apply repeat_length| |intros i Hi; now apply (doc_sym I0 Parzen M i H I)].
  intros j Hj Hh. pose proof (INR_half M j ltac:(lia) Hh) as HR. pose proof (INR_lt_le j M Hj) as HJ. pose proof (INR_ge2 M H) as M2.
  replace (Z.of_nat M - 1)%Z with (Z.of_nat (M - 1)) by lia. replace (Z.quot (Z.of_nat (M - 1)) 2) with (Z.of_nat ((M - 1) / 2)) by (symmetry; apply (quot_nat (M - 1) 2); lia).
  replace (Z.quot (Z.of_nat M) 4) with (Z.of_nat (M / 4)) by (symmetry; apply (quot_nat M 4); lia).
  pose proof (Nat.div_mod (M - 1) 2 ltac:(lia)) as D2. pose proof (Nat.mod_upper_bound (M - 1) 2 ltac:(lia)) as B2.
  pose proof (Nat.div_mod M 4 ltac:(lia)) as D4. pose proof (Nat.mod_upper_bound M 4 ltac:(lia)) as B4.
  destruct (Z.leb_spec 0 (Z.of_nat j - Z.of_nat ((M - 1) / 2))) as [_|C]; [|lia].
  assert (C : (Z.of_nat j - Z.of_nat ((M - 1) / 2) <= Z.of_nat (M / 4))%Z <-> (4 * j + 1 <= 3 * M - 2)%nat) by lia.
  assert (CR : (INR j - (INR M - 1) / 2 <= (INR M - 1) / 4)%R <-> (4 * j + 1 <= 3 * M - 2)%nat).
  { split; intros Q.
    - apply INR_le. rewrite minus_INR, plus_INR, !mult_INR by lia. simpl. lra.
    - apply le_INR in Q. rewrite minus_INR, plus_INR, !mult_INR in Q by lia. simpl in Q. lra. }
  unfold doc_formula. rewrite (Rabs_right (INR j - (INR M - 1) / 2)) by lra. fo. rewrite !ofn by lia. rewrite offset_fl by lia. rewrite (Rabs_right (INR j - (INR M - 1) / 2)) by lra.
  set (n := INR j - (INR M - 1) / 2) in *. set (q := n / (INR M / 2)). cbv zeta. rewrite (ofz 1), (ofz 2), (ofz 6) by lia.
  assert (E2 : rnd (2 * n) = 2 * n). { apply Id. unfold n. replace (2 * (INR j - (INR M - 1) / 2)) with (IZR (2 * (2 * Z.of_nat j - (Z.of_nat M - 1))) / 2) by (rewrite !mult_IZR, !minus_IZR, !mult_IZR, !IZR_nat; field). apply Fhalf. lia. }
  rewrite E2. assert (Eq : 2 * n / INR M = q) by (unfold q; field; lra). rewrite Eq. assert (Q01 : 0 <= q <= 1).
  { rewrite <- Eq. split; [apply Rmult_le_pos; [unfold n; lra|left; apply Rinv_0_lt_compat; lra]|]. apply (Rmult_le_reg_r (INR M)); [lra|]. unfold Rdiv. rewrite Rmult_assoc, Rinv_l by lra. unfold n. lra. }
  set (A := rnd q). assert (AA : forall b, q <= b -> acc 1 b 0 A q) by (intros b Hb; apply racc; [rewrite Rabs_pos_eq; lra|apply (rel_rnd1 u fmt rnd RD Hinv)]).
  assert (AB : acc 2 1 0 (rnd (1 - A)) (1 - q)).
  { apply ardn. split; [rewrite Rabs_pos_eq; lra|split; [lra|]]. replace (1 - A - (1 - q)) with (- (A - q)) by ring. rewrite Rabs_Ropp. apply (acc_err u 1 1 0). apply AA. lra. }
  set (B := rnd (1 - A)) in *.
  destruct (Z.leb_spec (Z.of_nat j - Z.of_nat ((M - 1) / 2)) (Z.of_nat (M / 4))) as [L|L], (Rle_dec n ((INR M - 1) / 4)) as [Q|Q].
  - assert (Hq : q <= 1 / 2). { rewrite <- Eq. apply (Rmult_le_reg_r (INR M)); [lra|]. unfold Rdiv. rewrite Rmult_assoc, Rinv_l by lra. unfold n in *. lra. }
    assert (T1 : acc 2 3 0 (rnd (6 * A)) (6 * q)). { apply ardn. pose proof (acc_scale u fmt rnd RD 1 (1 / 2) 0 6 A q (AA (1 / 2) Hq)) as W. revert W. apply aweak; [lia|rewrite Rabs_pos_eq; lra|lra]. }
    pose proof (ardn _ _ _ _ _ (amul _ _ _ _ _ _ _ _ _ _ T1 (AA (1 / 2) Hq))) as T2. pose proof (ardn _ _ _ _ _ (amul _ _ _ _ _ _ _ _ _ _ T2 AB)) as T3. cbn [Nat.add] in T3.
    assert (T4 : acc 7 (3 / 2) 0 (1 - rnd (rnd (rnd (6 * A) * A) * B)) (1 - 6 * q ^ 2 + 6 * q ^ 3)).
    { destruct T3 as (_ & _ & T3). assert (V : 0 <= q * q * (1 - q) <= 1 / 4) by nra. split; [apply Rabs_le; nra|split; [lra|]].
      replace (1 - rnd (rnd (rnd (6 * A) * A) * B) - (1 - 6 * q ^ 2 + 6 * q ^ 3)) with (- (rnd (rnd (rnd (6 * A) * A) * B) - 6 * q * q * (1 - q))) by ring. rewrite Rabs_Ropp. eapply Rle_trans; [exact T3|]. apply Req_le. field. }
    apply ardn, (acc_err u) in T4. eapply Rle_trans; [exact T4|]. pose proof (Gmon 8 9 ltac:(lia)). pose proof (Gge 8). lra.
  - exfalso. apply Q, CR, C, L.
  - exfalso. apply CR, C in Q. lia.
  - assert (T1 : acc 3 2 0 (rnd (2 * B)) (2 * (1 - q))). { apply ardn. pose proof (acc_scale u fmt rnd RD 2 1 0 2 B (1 - q) AB) as W. revert W. apply aweak; [lia|rewrite Rabs_pos_eq; lra|lra]. }
    pose proof (ardn _ _ _ _ _ (amul _ _ _ _ _ _ _ _ _ _ T1 AB)) as T2. pose proof (ardn _ _ _ _ _ (amul _ _ _ _ _ _ _ _ _ _ T2 AB)) as T3. cbn [Nat.add] in T3. apply (acc_err u) in T3.
    replace (2 * (1 - q) ^ 3) with (2 * (1 - q) * (1 - q) * (1 - q)) by ring. eapply Rle_trans; [exact T3|]. apply Req_le. ring.
Qed.
Lemma xhat M j : (2 <= M)%nat -> (2 * Z.of_nat M <= N)%Z -> (j < M)%nat -> (M - 1 <= 2 * j)%nat ->
  acc 2 2 0 (rnd (INR j * rnd (2 / (INR M - 1)))) (2 * INR j / (INR M - 1)).
Proof.
  intros H HM Hj Hh. destruct (up_half M j H Hj Hh) as [P1 P2]. apply racc; [rewrite Rabs_pos_eq; lra|]. replace (2 * INR j / (INR M - 1)) with (INR j * (2 / (INR M - 1))) by (field; lra).
  apply rrnd. apply (rel_mul u fmt rnd RD 0 1); [apply (rel_0 u fmt rnd RD)|apply (rel_rnd1 u fmt rnd RD Hinv)].
Qed.
Lemma bohman_close M : (forall x, Rabs (sinl x - sin x) <= eps) -> (2 <= M)%nat -> (2 * Z.of_nat M <= N)%Z ->
  close Bohman Bohman M ((2 + / PI) * ((g 6 - 1) + g 6 * (eps + (g 5 - 1) * (2 * PI)))).
Proof.
  intros Hsin H HM. unfold close. cbn [window build_window]. unfold bohman_filler. rewrite repeat_length. destruct (Nat.eqb_spec M 0); [lia|].
  apply filler_close; [apply repeat_length| |intros i Hi; now apply (doc_sym I0 Bohman M i H I)].
  intros j Hj Hh. destruct (up_half M j H Hj Hh) as [P1 P2]. pose proof PI_RGT_0 as HPI. fo. rewrite !ofn, (ofz 2), (ofz 1) by lia. rewrite INR_pred by lia. unfold doc_formula. rewrite (Rabs_right (2 * INR j / (INR M - 1) - 1)) by lra.
  pose proof (xhat M j H HM Hj Hh) as X1. set (X := 2 * INR j / (INR M - 1)) in *. set (x1 := rnd (INR j * rnd (2 / (INR M - 1)))) in *.
  assert (X2 : acc 3 2 0 (rnd (x1 - 1)) (X - 1)). { apply ardn. split; [apply Rabs_le; lra|split; [lra|]]. replace (x1 - 1 - (X - 1)) with (x1 - X) by ring. apply (acc_err u) in X1. exact X1. }
  set (x := rnd (x1 - 1)) in *. cbv zeta.
  assert (X3 : acc 4 2 0 (rnd (1 - x)) (1 - (X - 1))). { apply ardn. split; [apply Rabs_le; lra|split; [lra|]]. replace (1 - x - (1 - (X - 1))) with (- (x - (X - 1))) by ring. rewrite Rabs_Ropp. apply (acc_err u) in X2. exact X2. }
  assert (API : acc 1 PI 0 (rnd PI) PI) by (apply racc; [rewrite Rabs_pos_eq; lra|exact pi_rel]).
  pose proof (ardn _ _ _ _ _ (amul _ _ _ _ _ _ _ _ _ _ API X2)) as TH. cbn [Nat.add] in TH.
  assert (TH' : acc 5 (2 * PI) 0 (rnd (rnd PI * x)) (PI * (X - 1))) by (revert TH; apply aweak; [lia|lra|lra]). clear TH.
  pose proof TH' as TC. apply (acc_fun u cos cosl eps) in TC; [|apply cos_lip|exact Hcos|intros b; apply Rabs_le, COS_bound]. pose proof TH' as TS. apply (acc_fun u sin sinl eps) in TS; [|apply sin_lip|exact Hsin|intros b; apply Rabs_le, SIN_bound].
  rewrite Rmult_0_r, Rplus_0_r in TC, TS. set (e := eps + (g 5 - 1) * (2 * PI)) in *.
  pose proof (ardn _ _ _ _ _ (amul _ _ _ _ _ _ _ _ _ _ X3 TC)) as V1. cbn [Nat.add] in V1.
  assert (IP : acc 1 (/ PI) 0 (/ rnd PI) (/ PI)). { apply racc; [rewrite Rabs_pos_eq; [lra|left; now apply Rinv_0_lt_compat]|]. apply (rel_inv u fmt rnd RD). exact pi_rel. }
  pose proof (ardn _ _ _ _ _ (amul _ _ _ _ _ _ _ _ _ _ TS IP)) as V2. cbn [Nat.add] in V2.
  assert (V1' : acc 5 2 (2 * e) (rnd (rnd (1 - x) * cosl (rnd (rnd PI * x)))) ((1 - (X - 1)) * cos (PI * (X - 1)))) by (revert V1; apply aweak; [lia|lra|lra]).
  assert (V2' : acc 5 (/ PI) (e * / PI) (rnd (sinl (rnd (rnd PI * x)) / rnd PI)) (sin (PI * (X - 1)) / PI)) by (revert V2; apply aweak; [lia|lra|lra]).
  pose proof (ardn _ _ _ _ _ (acc_add u _ _ _ _ _ _ _ _ _ V1' V2')) as W. apply (acc_err u) in W. eapply Rle_trans; [exact W|]. apply Req_le. ring.
Qed.
(** sin must be accurate relative to its value: it is divided by its argument *)
Lemma lanczos_close M : (forall x, Rabs (sinl x - sin x) <= eps * Rabs (sin x)) -> (2 <= M)%nat -> (2 * Z.of_nat M <= N)%Z ->
  close Lanczos Lanczos M ((g 1 - 1) + g 1 * (eps + (g 4 - 1) * PI)).
Proof.
  intros Hsin H HM. assert (He : 0 <= eps) by (pose proof (Hcos 0) as Q; pose proof (Rabs_pos (cosl 0 - cos 0)); lra).
  unfold close. cbn [window build_window]. unfold lanczos_filler. rewrite repeat_length.
  apply filler_close; [apply repeat_length| |intros i Hi; now apply (doc_sym I0 Lanczos M i H I)].
  intros j Hj Hh. destruct (up_half M j H Hj Hh) as [P1 P2]. pose proof PI_RGT_0 as HPI. unfold sinc. fo. rewrite !ofn, (ofz 1) by lia. rewrite INR_pred, mult_INR by lia. replace (INR 2) with 2 by (cbn; lra). unfold doc_formula.
  set (X := 2 * INR j / (INR M - 1)) in *. fold (rsinc (X - 1)).
  assert (X1 : acc 1 2 0 (rnd X) X) by (apply racc; [rewrite Rabs_pos_eq; lra|apply (rel_rnd1 u fmt rnd RD Hinv)]).
  assert (X2 : acc 2 2 0 (rnd (1 - rnd X)) (1 - X)). { apply ardn. split; [apply Rabs_le; lra|split; [lra|]]. replace (1 - rnd X - (1 - X)) with (- (rnd X - X)) by ring. rewrite Rabs_Ropp. apply (acc_err u) in X1. exact X1. }
  set (x := rnd (1 - rnd X)) in *.
  assert (API : acc 1 PI 0 (rnd PI) PI) by (apply racc; [rewrite Rabs_pos_eq; lra|exact pi_rel]).
  pose proof (ardn _ _ _ _ _ (amul _ _ _ _ _ _ _ _ _ _ API X2)) as TH. cbn [Nat.add] in TH. apply (acc_err u) in TH. set (y := rnd (rnd PI * x)) in *.
  assert (ES : rsinc (X - 1) = sa (PI * (1 - X))).
  { rewrite <- rsinc_opp. replace (- (X - 1)) with (1 - X) by ring. unfold rsinc, sa. destruct (Req_EM_T (1 - X) 0) as [Q|Q], (Req_EM_T (PI * (1 - X)) 0) as [Q'|Q']; try reflexivity; [exfalso; apply Q'; rewrite Q; ring|]. apply Rmult_integral in Q'. lra. }
  rewrite ES. assert (LS : Rabs (sa y - sa (PI * (1 - X))) <= (g 4 - 1) * PI) by (pose proof (sa_lip y (PI * (1 - X))); lra).
  assert (fin : forall v, acc 0 1 (eps + (g 4 - 1) * PI) v (sa (PI * (1 - X))) -> Rabs (rnd v - sa (PI * (1 - X))) <= g 1 - 1 + g 1 * (eps + (g 4 - 1) * PI)) by (intros v Hv; apply ardn, (acc_err u) in Hv; lra).
  assert (NZ : forall z, z <> 0 -> rnd z <> 0).
  { intros z Nz Q. destruct (rel_rnd1 u fmt rnd RD Hinv z) as (r & Hr & E). pose proof (gi u fmt rnd RD 1). rewrite Q in E. symmetry in E. apply Rmult_integral in E. lra. }
  destruct (Req_EM_T x 0) as [Z|Z].
  - cut (Rabs (rnd 1 - sa (PI * (1 - X))) <= g 1 - 1 + g 1 * (eps + (g 4 - 1) * PI)); [rewrite (ofz 1) by lia; exact (fun Q => Q)|]. apply fin. assert (Ey : y = 0) by (unfold y; rewrite Z, Rmult_0_r; apply Id, (rd_0 _ _ _ _ RD)). rewrite Ey in LS. unfold sa at 1 in LS. destruct (Req_EM_T 0 0) as [_|C]; [|contradiction].
    split; [apply sa_1|split; [pose proof (Rabs_pos (1 - sa (PI * (1 - X)))); lra|]]. unfold FloatArithFacts.g at 1 2. cbn [pow]. lra.
  - fold y. assert (Ny : y <> 0) by (unfold y; apply NZ; apply Rmult_integral_contrapositive; split; [apply NZ; lra|exact Z]). apply fin.
    assert (Q : Rabs (sinl y / y - sa y) <= eps).
    { unfold sa. destruct (Req_EM_T y 0); [contradiction|]. replace (sinl y / y - sin y / y) with ((sinl y - sin y) * / y) by (field; exact Ny). rewrite Rabs_mult. apply (Rmult_le_reg_r (Rabs y)); [now apply Rabs_pos_lt|].
      rewrite Rmult_assoc, <- Rabs_mult, Rinv_l, Rabs_R1, Rmult_1_r by exact Ny. eapply Rle_trans; [apply Hsin|]. apply Rmult_le_compat_l; [exact He|apply sin_abs_le]. }
    split; [apply sa_1|split; [pose proof (Rabs_pos (sa y - sa (PI * (1 - X)))); lra|]]. replace (sinl y / y - sa (PI * (1 - X))) with ((sinl y / y - sa y) + (sa y - sa (PI * (1 - X)))) by ring. eapply Rle_trans; [apply Rabs_triang|].
    unfold FloatArithFacts.g at 1 2. cbn [pow]. lra.
Qed.
End Win.
