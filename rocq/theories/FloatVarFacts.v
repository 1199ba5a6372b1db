(** Error analysis of the blocked variance (FloatVar.v), no underflow (eta = 0). *)
From Coq Require Import List Arith ZArith Reals Bool.
From Flocq Require Import Core.
From Verif Require Import Base Functional FunctionalProofs Numeric Stats StatsVar PairwiseError FloatArith FloatArithFacts FloatVar.
From Coq Require Import Lra Psatz Lia.
Import ListNotations.
Open Scope R_scope.

(** *** norms *)
Lemma sq_sqrt x : 0 <= x -> sqrt x * sqrt x = x. Proof. apply sqrt_sqrt. Qed.
Lemma cauchy x1 x2 x3 y1 y2 y3 : x1 * y1 + x2 * y2 + x3 * y3 <= sqrt (x1 * x1 + x2 * x2 + x3 * x3) * sqrt (y1 * y1 + y2 * y2 + y3 * y3).
Proof.
  assert (P : forall a b c, 0 <= a * a + b * b + c * c) by (intros a b c; pose proof (Rle_0_sqr a); pose proof (Rle_0_sqr b); pose proof (Rle_0_sqr c); unfold Rsqr in *; lra).
  rewrite <- sqrt_mult by apply P. eapply Rle_trans; [apply Rle_abs|]. rewrite <- sqrt_Rsqr_abs. apply sqrt_le_1_alt. unfold Rsqr.
  pose proof (P (x1 * y2 - x2 * y1) (x1 * y3 - x3 * y1) (x2 * y3 - x3 * y2)). lra.
Qed.
Lemma minkowski x1 x2 x3 y1 y2 y3 :
  sqrt ((x1 + y1) * (x1 + y1) + (x2 + y2) * (x2 + y2) + (x3 + y3) * (x3 + y3)) <= sqrt (x1 * x1 + x2 * x2 + x3 * x3) + sqrt (y1 * y1 + y2 * y2 + y3 * y3).
Proof.
  set (A := x1 * x1 + x2 * x2 + x3 * x3). set (B := y1 * y1 + y2 * y2 + y3 * y3).
  assert (PA : 0 <= A) by (unfold A; pose proof (Rle_0_sqr x1); pose proof (Rle_0_sqr x2); pose proof (Rle_0_sqr x3); unfold Rsqr in *; lra).
  assert (PB : 0 <= B) by (unfold B; pose proof (Rle_0_sqr y1); pose proof (Rle_0_sqr y2); pose proof (Rle_0_sqr y3); unfold Rsqr in *; lra).
  pose proof (sqrt_pos A). pose proof (sqrt_pos B). pose proof (sq_sqrt A PA) as EA. pose proof (sq_sqrt B PB) as EB. pose proof (cauchy x1 x2 x3 y1 y2 y3) as C. fold A in C. fold B in C.
  rewrite <- (sqrt_square (sqrt A + sqrt B)) by lra. apply sqrt_le_1_alt. unfold A, B in *. lra.
Qed.
Lemma norm_mono x1 x2 x3 y1 y2 y3 : 0 <= x1 <= y1 -> 0 <= x2 <= y2 -> 0 <= x3 <= y3 -> sqrt (x1 * x1 + x2 * x2 + x3 * x3) <= sqrt (y1 * y1 + y2 * y2 + y3 * y3).
Proof. intros. apply sqrt_le_1_alt. nra. Qed.
Lemma norm_scale k x1 x2 x3 : 0 <= k -> sqrt ((k * x1) * (k * x1) + (k * x2) * (k * x2) + (k * x3) * (k * x3)) = k * sqrt (x1 * x1 + x2 * x2 + x3 * x3).
Proof.
  intros H. replace (k * x1 * (k * x1) + k * x2 * (k * x2) + k * x3 * (k * x3)) with ((k * k) * (x1 * x1 + x2 * x2 + x3 * x3)) by ring.
  rewrite sqrt_mult_alt by nra. now rewrite sqrt_square.
Qed.
(** if every component is off by a relative a plus an absolute w, so is the norm *)
Lemma norm_err a e1 e2 e3 E1 E2 E3 w1 w2 w3 : 0 <= a -> 0 <= e1 -> 0 <= e2 -> 0 <= e3 -> 0 <= E1 -> 0 <= E2 -> 0 <= E3 -> 0 <= w1 -> 0 <= w2 -> 0 <= w3 ->
  Rabs (e1 - E1) <= a * E1 + w1 -> Rabs (e2 - E2) <= a * E2 + w2 -> Rabs (e3 - E3) <= a * E3 + w3 ->
  Rabs (sqrt (e1 * e1 + e2 * e2 + e3 * e3) - sqrt (E1 * E1 + E2 * E2 + E3 * E3)) <= a * sqrt (E1 * E1 + E2 * E2 + E3 * E3) + sqrt (w1 * w1 + w2 * w2 + w3 * w3).
Proof.
  intros Ha p1 p2 p3 P1 P2 P3 W1 W2 W3 H1 H2 H3. apply Rabs_le_inv in H1, H2, H3.
  assert (A1 : 0 <= a * E1) by (now apply Rmult_le_pos). assert (A2 : 0 <= a * E2) by (now apply Rmult_le_pos). assert (A3 : 0 <= a * E3) by (now apply Rmult_le_pos).
  pose proof (norm_scale a E1 E2 E3 Ha) as SC. pose proof (minkowski (a * E1) (a * E2) (a * E3) w1 w2 w3) as M1. rewrite SC in M1.
  assert (U : sqrt (e1 * e1 + e2 * e2 + e3 * e3) <= sqrt ((E1 + (a * E1 + w1)) * (E1 + (a * E1 + w1)) + (E2 + (a * E2 + w2)) * (E2 + (a * E2 + w2)) + (E3 + (a * E3 + w3)) * (E3 + (a * E3 + w3)))) by (apply norm_mono; lra).
  pose proof (minkowski E1 E2 E3 (a * E1 + w1) (a * E2 + w2) (a * E3 + w3)) as M2.
  assert (V : sqrt (E1 * E1 + E2 * E2 + E3 * E3) <= sqrt ((e1 + (a * E1 + w1)) * (e1 + (a * E1 + w1)) + (e2 + (a * E2 + w2)) * (e2 + (a * E2 + w2)) + (e3 + (a * E3 + w3)) * (e3 + (a * E3 + w3)))) by (apply norm_mono; lra).
  pose proof (minkowski e1 e2 e3 (a * E1 + w1) (a * E2 + w2) (a * E3 + w3)) as M3.
  apply Rabs_le. lra.
Qed.
(** relative error of a square root *)
Lemma sqrt_err c x X : 0 <= c -> 0 <= x -> 0 <= X -> Rabs (x - X) <= c * X -> Rabs (sqrt x - sqrt X) <= c * sqrt X.
Proof.
  intros Hc Hx HX H. destruct (Req_dec X 0) as [->|N].
  - assert (x = 0) by (rewrite Rmult_0_r in H; pose proof (Rle_abs (x - 0)); lra). subst x. rewrite sqrt_0, Rminus_0_r, Rabs_R0. lra.
  - assert (0 < sqrt X) by (apply sqrt_lt_R0; lra). pose proof (sqrt_pos x). pose proof (sq_sqrt x Hx) as E1. pose proof (sq_sqrt X HX) as E2.
    assert (F : x - X = (sqrt x - sqrt X) * (sqrt x + sqrt X)) by nra. rewrite F, Rabs_mult, (Rabs_pos_eq (sqrt x + sqrt X)) in H by lra.
    pose proof (Rabs_pos (sqrt x - sqrt X)). assert (Rabs (sqrt x - sqrt X) * sqrt X <= c * sqrt X * sqrt X) by (rewrite Rmult_assoc, E2; nra).
    apply (Rmult_le_reg_r (sqrt X)); lra.
Qed.

(** *** exact mean and sum of squared deviations *)
Definition avg (l : list R) : R := Rsum l / INR (length l).
Definition dev2 (c : R) (l : list R) : R := Rsum (map (fun x => (x - c) * (x - c)) l).
Definition sdev2 (l : list R) : R := dev2 (avg l) l.
Lemma dev2_pos c l : 0 <= dev2 c l.
Proof. unfold dev2, Rsum. induction l as [|x l IH]; cbn [map fold_right]; [lra|]. pose proof (Rle_0_sqr (x - c)). unfold Rsqr in *. lra. Qed.
Lemma dev2_app c a b : dev2 c (a ++ b) = dev2 c a + dev2 c b.
Proof. unfold dev2. rewrite map_app. unfold Rsum. induction (map _ a) as [|x l IH]; cbn [app fold_right]; [ring|]. rewrite IH. ring. Qed.
Lemma Rsum_app' a b : Rsum (a ++ b) = Rsum a + Rsum b.
Proof. unfold Rsum. induction a as [|x l IH]; cbn [app fold_right]; [ring|]. rewrite IH. ring. Qed.
Lemma dev2_shift c d l : dev2 c l = dev2 d l + 2 * (d - c) * (Rsum l - INR (length l) * d) + INR (length l) * ((d - c) * (d - c)).
Proof. unfold dev2, Rsum. induction l as [|x l IH]; cbn [map fold_right length]; [cbn; ring|]. rewrite S_INR, IH. ring. Qed.
Lemma len_pos (l : list R) : l <> [] -> 0 < INR (length l). Proof. intros H. apply lt_0_INR. destruct l; [contradiction|cbn; lia]. Qed.
Lemma dev2_avg c l : l <> [] -> dev2 c l = sdev2 l + INR (length l) * ((avg l - c) * (avg l - c)).
Proof. intros H. pose proof (len_pos l H). unfold sdev2. rewrite (dev2_shift c (avg l)). unfold avg at 3. field_simplify (Rsum l - INR (length l) * (Rsum l / INR (length l))); [ring|lra]. Qed.
Lemma avg_app a b : a <> [] -> b <> [] -> avg (a ++ b) = (INR (length a) * avg a + INR (length b) * avg b) / (INR (length a) + INR (length b)).
Proof. intros Ha Hb. pose proof (len_pos a Ha). pose proof (len_pos b Hb). unfold avg. rewrite Rsum_app', app_length, plus_INR. field. lra. Qed.
Lemma sdev2_app a b : a <> [] -> b <> [] -> let n1 := INR (length a) in let n2 := INR (length b) in
  sdev2 (a ++ b) = sdev2 a + sdev2 b + n1 * n2 / (n1 + n2) * ((avg a - avg b) * (avg a - avg b)).
Proof.
  intros Ha Hb n1 n2. pose proof (len_pos a Ha). pose proof (len_pos b Hb). unfold sdev2 at 1. rewrite dev2_app, (dev2_avg _ a Ha), (dev2_avg _ b Hb), (avg_app a b Ha Hb). unfold n1, n2. field. lra.
Qed.
Lemma sum_abs_le M l : Forall (fun x => Rabs x <= M) l -> Rsum_abs l <= INR (length l) * M.
Proof. unfold Rsum_abs. induction 1 as [|x l Hx _ IH]; cbn [fold_right length]; [cbn; lra|]. rewrite S_INR. lra. Qed.
Lemma avg_abs M l : l <> [] -> Forall (fun x => Rabs x <= M) l -> Rsum_abs l / INR (length l) <= M /\ Rabs (avg l) <= M.
Proof.
  intros Hl H. pose proof (len_pos l Hl) as LP. pose proof (sum_abs_le M l H) as S1. assert (A : Rsum_abs l / INR (length l) <= M).
  { apply (Rmult_le_reg_r (INR (length l))); [lra|]. unfold Rdiv. rewrite Rmult_assoc, Rinv_l by lra. lra. }
  split; [exact A|]. eapply Rle_trans; [|exact A]. unfold avg, Rdiv. rewrite Rabs_mult, (Rabs_pos_eq (/ _)) by (apply Rlt_le, Rinv_0_lt_compat, LP).
  apply Rmult_le_compat_r; [apply Rlt_le, Rinv_0_lt_compat, LP|apply Rsum_le_abs].
Qed.

Section Facts.
Variables (u : R) (fmt : R -> Prop) (rnd : R -> R).
Hypothesis RD : rounding u 0 fmt rnd.
Variables nan inf : R.
Let Hu := u_pos _ _ _ _ RD.
Let Id := rd_id _ _ _ _ RD.
Let Mono := rd_mono _ _ _ _ RD.
Let F0 := rd_0 _ _ _ _ RD.
Notation g := (g u).
Lemma gge k : 1 <= g k. Proof. exact (g_ge u fmt rnd 0 RD k) || exact (g_ge _ _ _ _ RD k). Qed.
Lemma gplus j k : g (j + k) = g j * g k. Proof. unfold FloatArithFacts.g. apply pow_add. Qed.
Lemma gmon j k : (j <= k)%nat -> g j <= g k. Proof. exact (gmono _ _ _ _ RD j k). Qed.
Lemma rpos x : 0 <= x -> 0 <= rnd x. Proof. intros H. rewrite <- (Id 0 F0). now apply Mono. Qed.
Lemma rstep k x X A : Rabs X <= A -> Rabs (x - X) <= (g k - 1) * A -> Rabs (rnd x - X) <= (g (S k) - 1) * A.
Proof. intros HX H. pose proof (rnd_step _ _ _ _ RD k x X A 0 HX (Rle_refl 0)) as Q. rewrite !Rplus_0_r, Rmult_0_r, Rplus_0_r in Q. now apply Q. Qed.
Lemma self k x A : Rabs x <= A -> Rabs (x - x) <= (g k - 1) * A.
Proof. intros H. replace (x - x) with 0 by ring. rewrite Rabs_R0. pose proof (gge k). pose proof (Rabs_pos x). nra. Qed.
Lemma mul_err j k x y X Y A B : Rabs X <= A -> Rabs Y <= B -> Rabs (x - X) <= (g j - 1) * A -> Rabs (y - Y) <= (g k - 1) * B ->
  Rabs (x * y - X * Y) <= (g (j + k) - 1) * (A * B).
Proof.
  intros HX HY Hx Hy. rewrite gplus. replace (x * y - X * Y) with ((x - X) * (y - Y) + (x - X) * Y + X * (y - Y)) by ring.
  pose proof (gge j). pose proof (gge k). pose proof (Rabs_pos X). pose proof (Rabs_pos Y). pose proof (Rabs_pos (x - X)). pose proof (Rabs_pos (y - Y)).
  eapply Rle_trans; [apply Rabs_triang|]. eapply Rle_trans; [apply Rplus_le_compat_r, Rabs_triang|]. rewrite !Rabs_mult.
  assert (P1 : Rabs (x - X) * Rabs (y - Y) <= ((g j - 1) * A) * ((g k - 1) * B)) by (apply Rmult_le_compat; assumption).
  assert (P2 : Rabs (x - X) * Rabs Y <= ((g j - 1) * A) * B) by (apply Rmult_le_compat; assumption).
  assert (P3 : Rabs X * Rabs (y - Y) <= A * ((g k - 1) * B)) by (apply Rmult_le_compat; assumption).
  eapply Rle_trans; [apply Rplus_le_compat; [apply Rplus_le_compat; [exact P1|exact P2]|exact P3]|]. apply Req_le. ring.
Qed.
Lemma weaken j k x A : (j <= k)%nat -> 0 <= A -> x <= (g j - 1) * A -> x <= (g k - 1) * A.
Proof. intros H HA Hx. pose proof (gmon j k H). nra. Qed.
(** the square of a rounded difference *)
Lemma square_err k x m : Rabs (fl_mul rnd (fl_mul rnd k (fl_sub rnd x m)) (fl_sub rnd x m) - k * ((x - m) * (x - m))) <= (g 4 - 1) * (Rabs k * ((x - m) * (x - m))) /\
  Rabs (fl_mul rnd (fl_sub rnd x m) (fl_sub rnd x m) - (x - m) * (x - m)) <= (g 3 - 1) * ((x - m) * (x - m)).
Proof.
  unfold fl_mul, fl_sub. set (d := x - m). assert (D : Rabs (rnd d - d) <= (g 1 - 1) * Rabs d) by (apply (rstep 0); [lra|apply self; lra]).
  assert (DD : Rabs d * Rabs d = d * d) by (rewrite <- Rabs_mult; apply Rabs_pos_eq; apply Rle_0_sqr). split.
  - apply (rstep 3 _ _ _). { rewrite Rabs_mult, (Rabs_pos_eq (d * d)) by apply Rle_0_sqr. lra. }
    replace (k * (d * d)) with ((k * d) * d) by ring. rewrite <- DD, <- (Rmult_assoc (Rabs k)). apply (mul_err 2 1); [rewrite Rabs_mult; lra|lra| |exact D].
    apply (rstep 1); [rewrite Rabs_mult; lra|]. apply (mul_err 0 1); [lra|lra|apply self; lra|exact D].
  - apply (rstep 2); [rewrite Rabs_pos_eq by apply Rle_0_sqr; lra|]. rewrite <- DD at 2. apply (mul_err 1 1); lra || exact D.
Qed.

Variable M : R.
Lemma fold_err m l : forall r Q j, (3 <= j)%nat -> 0 <= Q -> 0 <= r -> Rabs (r - Q) <= (g j - 1) * Q ->
  let s := fold_left (fun s x => fl_add rnd s (fl_mul rnd (fl_sub rnd x m) (fl_sub rnd x m))) l r in
  0 <= s /\ Rabs (s - (Q + dev2 m l)) <= (g (j + length l) - 1) * (Q + dev2 m l).
Proof.
  induction l as [|x l IH]; intros r Q j Hj HQ Hr H.
  - cbn. unfold dev2, Rsum. cbn. rewrite Rplus_0_r, Nat.add_0_r. split; [exact Hr|exact H].
  - cbn [fold_left length]. set (T := (x - m) * (x - m)). assert (HT : 0 <= T) by apply Rle_0_sqr. destruct (square_err 1 x m) as [_ E]. set (t := fl_mul rnd (fl_sub rnd x m) (fl_sub rnd x m)) in *. fold T in E.
    assert (Ht : 0 <= t) by (apply rpos, Rle_0_sqr).
    assert (N : Rabs (fl_add rnd r t - (Q + T)) <= (g (S j) - 1) * (Q + T)).
    { apply rstep; [rewrite Rabs_pos_eq; lra|]. replace (r + t - (Q + T)) with ((r - Q) + (t - T)) by ring. eapply Rle_trans; [apply Rabs_triang|]. apply (weaken 3 j) in E; [lra|exact Hj|exact HT]. }
    specialize (IH (fl_add rnd r t) (Q + T) (S j) ltac:(lia) ltac:(lra) ltac:(apply rpos; lra) N). cbv zeta in IH.
    replace (Q + dev2 m (x :: l)) with (Q + T + dev2 m l) by (unfold dev2, Rsum, T; cbn [map fold_right]; ring).
    replace (j + S (length l))%nat with (S j + length l)%nat by lia. exact IH.
Qed.

Definition mu (d : nat) : R := g (65 + 4 * d) - 1.
Definition K (d : nat) : R := INR (S d) * g (67 + 2 * d) * mu d.
Definition inv (d : nat) (l : list R) (r : R * R * R * nat) : Prop := let '(m, m', c, n) := r in
  m = m' /\ n = length l /\ Rabs (m - avg l) <= mu d * M /\ 0 <= c /\
  Rabs (sqrt c - sqrt (sdev2 l)) <= (g (67 + 2 * d) - 1) * sqrt (sdev2 l) + K d * (sqrt (INR (length l)) * M).
Notation blockf := (cov_block 0 nan (fl_add rnd) (fl_sub rnd) (fl_mul rnd) (fl_quot rnd) (fun x => x) (fl_nat rnd) false f_all).
Notation combf := (cov_combine 1 (fl_add rnd) (fl_sub rnd) (fl_mul rnd) (fl_quot rnd) (fun x => x) (fl_nat rnd)).
Notation dup := (map (fun x : R => (x, x))).

Lemma block_eq l : blockf (dup l) = let m := r_mean rnd nan l in
  (m, m, fold_left (fun s x => fl_add rnd s (fl_mul rnd (fl_sub rnd x m) (fl_sub rnd x m))) l 0, length l).
Proof.
  unfold cov_block. rewrite !map_map. cbn [fst snd]. rewrite !map_id. change (mean_filter 0 nan (fl_add rnd) (fl_quot rnd) (fl_nat rnd) false l f_all) with (r_mean rnd nan l).
  cbv zeta. set (m := r_mean rnd nan l).
  assert (F : forall r n, fold_left (fun (st : R * nat) (xy : R * R) => if f_all (fst xy) && f_all (snd xy) then (fl_add rnd (fst st) (fl_mul rnd (fl_sub rnd (fst xy) m) (fl_sub rnd (snd xy) m)), S (snd st)) else st) (dup l) (r, n)
    = (fold_left (fun s x => fl_add rnd s (fl_mul rnd (fl_sub rnd x m) (fl_sub rnd x m))) l r, (n + length l)%nat)).
  { clearbody m. induction l as [|x l IH]; intros r n; [cbn; f_equal; lia|]. cbn [map fold_left fst snd length]. change (f_all x && f_all x) with true. cbv iota. rewrite IH. f_equal. lia. }
  rewrite F. reflexivity.
Qed.
Lemma g1_le a : 1 <= g a. Proof. apply gge. Qed.
Lemma mu_pos d : 0 <= mu d. Proof. unfold mu. pose proof (gge (65 + 4 * d)). lra. Qed.
Lemma mu_mono d e : (d <= e)%nat -> mu d <= mu e. Proof. intros H. unfold mu. pose proof (gmon (65 + 4 * d) (65 + 4 * e) ltac:(lia)). lra. Qed.
Lemma K_pos d : 0 <= K d. Proof. unfold K. pose proof (mu_pos d). pose proof (gge (67 + 2 * d)). pose proof (pos_INR (S d)). apply Rmult_le_pos; [apply Rmult_le_pos; lra|assumption]. Qed.
Lemma K_mono d e : (d <= e)%nat -> K d <= K e.
Proof.
  intros H. unfold K. pose proof (mu_pos d). pose proof (gge (67 + 2 * d)). pose proof (pos_INR (S d)). apply Rmult_le_compat; [apply Rmult_le_pos; lra|assumption| |now apply mu_mono].
  apply Rmult_le_compat; [assumption|lra|apply le_INR; lia|apply gmon; lia].
Qed.
Lemma inv_weaken d e l r : (d <= e)%nat -> 0 <= M -> inv d l r -> inv e l r.
Proof.
  intros H HM. destruct r as [[[m m'] c] n]. intros (E1 & E2 & E3 & E4 & E5). repeat split; auto.
  - pose proof (mu_mono d e H). nra.
  - pose proof (sqrt_pos (sdev2 l)). pose proof (sqrt_pos (INR (length l))). pose proof (K_mono d e H). pose proof (gmon (67 + 2 * d) (67 + 2 * e) ltac:(lia)).
    assert (0 <= sqrt (INR (length l)) * M) by (now apply Rmult_le_pos). nra.
Qed.
Lemma block_inv l : l <> [] -> (length l <= 64)%nat -> Forall fmt l -> fmt (INR (length l)) -> Forall (fun x => Rabs x <= M) l -> inv 0 l (blockf (dup l)).
Proof.
  intros Hl L64 HF HI HM. rewrite block_eq. cbv zeta. set (m := r_mean rnd nan l). destruct (avg_abs M l Hl HM) as [A1 A2]. pose proof (len_pos l Hl) as LP. assert (M0 : 0 <= M) by (pose proof (Rabs_pos (avg l)); lra).
  assert (Em : Rabs (m - avg l) <= mu 0 * M).
  { pose proof (mean_err _ _ _ _ RD 0 nan l Hl ltac:(cbn; lia) HF HI) as E. rewrite Rplus_0_r in E. unfold m. eapply Rle_trans; [exact E|]. unfold mu. replace (65 + 4 * 0)%nat with (65 + 0)%nat by lia. pose proof (gge (65 + 0)). nra. }
  destruct (fold_err m l 0 0 3 ltac:(lia) ltac:(lra) ltac:(lra)) as [Fp Fe]. { rewrite Rminus_0_r, Rabs_R0. lra. }
  set (c := fold_left _ l 0) in *. rewrite Rplus_0_l in Fe. pose proof (dev2_pos m l) as DP.
  assert (Fe67 : Rabs (c - dev2 m l) <= (g 67 - 1) * dev2 m l) by (apply (weaken (3 + length l) 67); [lia|exact DP|exact Fe]).
  repeat split; auto.
  pose proof (gge 67) as G67. pose proof (sqrt_err (g 67 - 1) c (dev2 m l) ltac:(lra) Fp DP Fe67) as SE.
  assert (SP : 0 <= sdev2 l) by apply dev2_pos.
  set (e := Rabs (avg l - m)). assert (Ee : e <= mu 0 * M) by (unfold e; rewrite Rabs_minus_sym; exact Em). assert (e0 : 0 <= e) by apply Rabs_pos.
  assert (Q : sqrt (dev2 m l) <= sqrt (sdev2 l) + sqrt (INR (length l)) * e /\ sqrt (sdev2 l) <= sqrt (dev2 m l)).
  { rewrite (dev2_avg m l Hl). replace ((avg l - m) * (avg l - m)) with (e * e) by (unfold e; rewrite <- Rabs_mult; apply Rabs_pos_eq, Rle_0_sqr). pose proof (sqrt_pos (sdev2 l)). pose proof (sqrt_pos (INR (length l))). split.
    - pose proof (minkowski (sqrt (sdev2 l)) 0 0 0 (sqrt (INR (length l)) * e) 0) as MK. rewrite !Rplus_0_l, !Rplus_0_r, !Rmult_0_l, !Rplus_0_l, !Rplus_0_r in MK.
      rewrite (sqrt_square (sqrt (sdev2 l))) in MK by assumption. rewrite (sqrt_square (_ * e)) in MK by (now apply Rmult_le_pos). rewrite (sq_sqrt (sdev2 l) SP) in MK.
      replace (sqrt (INR (length l)) * e * (sqrt (INR (length l)) * e)) with (INR (length l) * (e * e)) in MK; [exact MK|]. rewrite <- (sq_sqrt (INR (length l))) at 1 by lra. ring.
    - apply sqrt_le_1_alt. pose proof (Rle_0_sqr e). unfold Rsqr in *. nra. }
  destruct Q as [Q1 Q2]. pose proof (sqrt_pos (INR (length l))) as SN. assert (W : sqrt (INR (length l)) * e <= sqrt (INR (length l)) * (mu 0 * M)) by (now apply Rmult_le_compat_l).
  change (67 + 2 * 0)%nat with 67%nat. unfold K. change (67 + 2 * 0)%nat with 67%nat. change (INR 1) with 1. rewrite Rmult_1_l.
  replace (sqrt c - sqrt (sdev2 l)) with ((sqrt c - sqrt (dev2 m l)) + (sqrt (dev2 m l) - sqrt (sdev2 l))) by ring. eapply Rle_trans; [apply Rabs_triang|]. rewrite (Rabs_pos_eq (_ - sqrt (sdev2 l))) by lra.
  set (W1 := sqrt (INR (length l)) * (mu 0 * M)) in *. replace (g 67 * mu 0 * (sqrt (INR (length l)) * M)) with (g 67 * W1) by (unfold W1; ring). nra.
Qed.

Lemma mean_combine d n1 n2 x y X Y : 0 < n1 -> 0 < n2 -> Rabs X <= M -> Rabs Y <= M -> Rabs (x - X) <= mu d * M -> Rabs (y - Y) <= mu d * M ->
  Rabs (fl_mul rnd (fl_quot rnd 1 (n1 + n2)) (fl_add rnd (fl_mul rnd n1 x) (fl_mul rnd n2 y)) - (n1 * X + n2 * Y) / (n1 + n2)) <= mu (S d) * M.
Proof.
  intros P1 P2 HX HY Hx Hy. unfold mu in *. set (k := (65 + 4 * d)%nat) in *. replace (65 + 4 * S d)%nat with (S (1 + S (S k))) by lia. unfold fl_mul, fl_quot, fl_add. set (n := n1 + n2).
  assert (M0 : 0 <= M) by (pose proof (Rabs_pos X); lra). assert (I : 0 < / n) by (apply Rinv_0_lt_compat; unfold n; lra).
  assert (E1 : Rabs (rnd (n1 * x) - n1 * X) <= (g (S k) - 1) * (n1 * M)).
  { apply rstep; [rewrite Rabs_mult, (Rabs_pos_eq n1) by lra; nra|]. apply (mul_err 0 k); [rewrite Rabs_pos_eq; lra|exact HX|apply self; rewrite Rabs_pos_eq; lra|exact Hx]. }
  assert (E2 : Rabs (rnd (n2 * y) - n2 * Y) <= (g (S k) - 1) * (n2 * M)).
  { apply rstep; [rewrite Rabs_mult, (Rabs_pos_eq n2) by lra; nra|]. apply (mul_err 0 k); [rewrite Rabs_pos_eq; lra|exact HY|apply self; rewrite Rabs_pos_eq; lra|exact Hy]. }
  assert (AS : Rabs (n1 * X + n2 * Y) <= n * M).
  { eapply Rle_trans; [apply Rabs_triang|]. rewrite !Rabs_mult, (Rabs_pos_eq n1), (Rabs_pos_eq n2) by lra. unfold n. nra. }
  assert (E3 : Rabs (rnd (rnd (n1 * x) + rnd (n2 * y)) - (n1 * X + n2 * Y)) <= (g (S (S k)) - 1) * (n * M)).
  { apply rstep; [exact AS|]. match goal with |- Rabs (?a + ?b - (?c + ?e)) <= _ => replace (a + b - (c + e)) with ((a - c) + (b - e)) by ring end. eapply Rle_trans; [apply Rabs_triang|]. unfold n. lra. }
  assert (E4 : Rabs (rnd (1 / n) - / n) <= (g 1 - 1) * / n).
  { replace (1 / n) with (/ n) by (unfold Rdiv; ring). apply (rstep 0); [rewrite Rabs_pos_eq; lra|apply self; rewrite Rabs_pos_eq; lra]. }
  replace ((n1 * X + n2 * Y) / n) with (/ n * (n1 * X + n2 * Y)) by (unfold Rdiv; ring). replace M with (/ n * (n * M)) at 1 by (field; unfold n; lra).
  apply rstep.
  - rewrite Rabs_mult, (Rabs_pos_eq (/ n)) by lra. apply Rmult_le_compat_l; lra.
  - apply mul_err; [rewrite Rabs_pos_eq; lra|exact AS|exact E4|exact E3].
Qed.
Lemma q_err n1 n2 : 0 < n1 -> 0 < n2 -> let q := n1 * n2 / (n1 + n2) in let qh := fl_quot rnd (fl_mul rnd n1 n2) (n1 + n2) in
  0 <= qh /\ 0 < q /\ Rabs (qh - q) <= (g 2 - 1) * q /\ q <= (n1 + n2) / 4.
Proof.
  intros P1 P2 q qh. set (n := n1 + n2) in *. assert (I : 0 < / n) by (apply Rinv_0_lt_compat; unfold n; lra). assert (PP : 0 < n1 * n2) by nra.
  assert (Q0 : 0 < q) by (unfold q, Rdiv; nra). assert (H0 : 0 <= rnd (n1 * n2)) by (apply rpos; lra).
  assert (QH : 0 <= qh) by (unfold qh, fl_quot, fl_mul; apply rpos; unfold Rdiv; nra). repeat split; auto.
  - unfold qh, q, fl_quot, fl_mul, Rdiv. apply (rstep 1); [rewrite Rabs_pos_eq; [lra|nra]|]. rewrite <- Rmult_minus_distr_r, Rabs_mult, (Rabs_pos_eq (/ n)) by lra. rewrite <- Rmult_assoc. apply Rmult_le_compat_r; [lra|].
    apply (rstep 0); [rewrite Rabs_pos_eq; lra|apply self; rewrite Rabs_pos_eq; lra].
  - unfold q. apply (Rmult_le_reg_r n); [unfold n; lra|]. unfold Rdiv. rewrite Rmult_assoc, Rinv_l by (unfold n; lra). unfold n. pose proof (Rle_0_sqr (n1 - n2)). unfold Rsqr in *. lra.
Qed.
Lemma K_step d : g 2 * (K d + g 6 * mu d) <= K (S d).
Proof.
  unfold K. pose proof (mu_pos d) as m0. pose proof (mu_mono d (S d) ltac:(lia)) as m1. rewrite (S_INR (S d)). pose proof (pos_INR (S d)). replace (67 + 2 * S d)%nat with (2 + (67 + 2 * d))%nat by lia. rewrite (gplus 2).
  pose proof (gge 2). pose proof (gge (67 + 2 * d)). pose proof (gmon 6 (67 + 2 * d) ltac:(lia)) as G6. pose proof (gge 6). set (G := g (67 + 2 * d)) in *.
  apply (Rle_trans _ (g 2 * (INR (S d) * G * mu d + G * mu d))).
  - apply Rmult_le_compat_l; [lra|]. apply Rplus_le_compat_l. now apply Rmult_le_compat_r.
  - replace (g 2 * (INR (S d) * G * mu d + G * mu d)) with (((INR (S d) + 1) * (g 2 * G)) * mu d) by ring. apply Rmult_le_compat_l; [|exact m1]. apply Rmult_le_pos; [lra|]. apply Rmult_le_pos; lra.
Qed.
Lemma combine_inv d a b r1 r2 : a <> [] -> b <> [] -> fmt (INR (length a)) -> fmt (INR (length b)) -> fmt (INR (length a + length b)) ->
  Forall (fun x => Rabs x <= M) a -> Forall (fun x => Rabs x <= M) b -> inv d a r1 -> inv d b r2 -> inv (S d) (a ++ b) (combf r1 r2).
Proof.
  intros Ha Hb FA FB FN MA MB. destruct r1 as [[[x x'] c1] k1], r2 as [[[y y'] c2] k2]. intros (-> & -> & Ex & C1 & S1) (-> & -> & Ey & C2 & S2). unfold cov_combine, fl_nat. rewrite !(Id _ FA), !(Id _ FB), !(Id _ FN).
  destruct (avg_abs M a Ha MA) as [_ A1]. destruct (avg_abs M b Hb MB) as [_ A2]. pose proof (len_pos a Ha) as P1. pose proof (len_pos b Hb) as P2. assert (M0 : 0 <= M) by (pose proof (Rabs_pos (avg a)); lra).
  unfold inv. rewrite app_length. split; [reflexivity|split; [reflexivity|]]. rewrite plus_INR. pose proof (sdev2_app a b Ha Hb) as SA. cbv zeta in SA. rewrite SA, (avg_app a b Ha Hb). set (n1 := INR (length a)) in *. set (n2 := INR (length b)) in *.
  split; [now apply mean_combine|]. destruct (q_err n1 n2 P1 P2) as (Q0 & Qp & QE & Q4). set (q := n1 * n2 / (n1 + n2)) in *. set (qh := fl_quot rnd (fl_mul rnd n1 n2) (n1 + n2)) in *.
  set (t := fl_mul rnd (fl_mul rnd qh (fl_sub rnd x' y')) (fl_sub rnd x' y')). set (D := x' - y'). set (De := avg a - avg b).
  assert (t0 : 0 <= t).
  { unfold t, fl_mul, fl_sub. apply rpos. fold D. destruct (Rle_or_lt 0 D) as [H|H].
    - pose proof (rpos D H) as HD. pose proof (rpos (qh * rnd D) ltac:(nra)). nra.
    - assert (HD : rnd D <= 0) by (rewrite <- (Id 0 F0); apply Mono; lra). assert (rnd (qh * rnd D) <= 0) by (rewrite <- (Id 0 F0); apply Mono; nra). nra. }
  assert (DD : 0 <= D * D) by apply Rle_0_sqr.
  assert (Et : Rabs (t - q * (D * D)) <= (g 6 - 1) * (q * (D * D))).
  { destruct (square_err qh x' y') as [E _]. fold t in E. fold D in E. rewrite (Rabs_pos_eq qh Q0) in E. change 6%nat with (4 + 2)%nat. rewrite gplus.
    replace (t - q * (D * D)) with ((t - qh * (D * D)) + (qh - q) * (D * D)) by ring. eapply Rle_trans; [apply Rabs_triang|]. rewrite (Rabs_mult (qh - q)), (Rabs_pos_eq (D * D) DD).
    assert (QH : qh <= g 2 * q) by (pose proof (Rle_abs (qh - q)); lra). pose proof (gge 4). pose proof (gge 2).
    assert (B1 : (g 4 - 1) * (qh * (D * D)) <= (g 4 - 1) * (g 2 * q * (D * D))) by (apply Rmult_le_compat_l; [lra|]; now apply Rmult_le_compat_r).
    assert (B2 : Rabs (qh - q) * (D * D) <= (g 2 - 1) * q * (D * D)) by (now apply Rmult_le_compat_r). lra. }
  assert (sq0 : 0 <= sqrt q) by apply sqrt_pos.
  assert (QD : forall z, sqrt (q * (z * z)) = sqrt q * Rabs z). { intros z. rewrite sqrt_mult_alt by lra. f_equal. rewrite <- (sqrt_Rsqr_abs z). reflexivity. }
  pose proof (gge 6) as G6. pose proof (sqrt_err (g 6 - 1) t (q * (D * D)) ltac:(lra) t0 ltac:(nra) Et) as ST. rewrite QD in ST.
  set (w3 := sqrt q * (g 6 * (2 * (mu d * M)))). pose proof (mu_pos d) as mu0. assert (mM : 0 <= mu d * M) by (now apply Rmult_le_pos).
  assert (w30 : 0 <= w3) by (unfold w3; apply Rmult_le_pos; [assumption|]; apply Rmult_le_pos; lra).
  assert (S3 : Rabs (sqrt t - sqrt q * Rabs De) <= (g 6 - 1) * (sqrt q * Rabs De) + w3).
  { assert (DE : Rabs (Rabs D - Rabs De) <= 2 * (mu d * M)).
    { eapply Rle_trans; [apply Rabs_triang_inv2|]. unfold D, De. replace (x' - y' - (avg a - avg b)) with ((x' - avg a) - (y' - avg b)) by ring. unfold Rminus at 1. eapply Rle_trans; [apply Rabs_triang|]. rewrite Rabs_Ropp. lra. }
    replace (sqrt t - sqrt q * Rabs De) with ((sqrt t - sqrt q * Rabs D) + sqrt q * (Rabs D - Rabs De)) by ring. eapply Rle_trans; [apply Rabs_triang|]. rewrite (Rabs_mult (sqrt q)), (Rabs_pos_eq (sqrt q) sq0).
    assert (B1 : sqrt q * Rabs (Rabs D - Rabs De) <= sqrt q * (2 * (mu d * M))) by (now apply Rmult_le_compat_l).
    assert (B0 : Rabs D <= Rabs De + 2 * (mu d * M)) by (pose proof (Rle_abs (Rabs D - Rabs De)); lra).
    assert (B2 : (g 6 - 1) * (sqrt q * Rabs D) <= (g 6 - 1) * (sqrt q * (Rabs De + 2 * (mu d * M)))) by (apply Rmult_le_compat_l; [lra|]; now apply Rmult_le_compat_l).
    unfold w3. nra. }
  pose proof (K_pos d) as K0. set (w1 := K d * (sqrt n1 * M)) in *. set (w2 := K d * (sqrt n2 * M)) in *.
  assert (w10 : 0 <= w1) by (unfold w1; apply Rmult_le_pos; [assumption|apply Rmult_le_pos; [apply sqrt_pos|assumption]]).
  assert (w20 : 0 <= w2) by (unfold w2; apply Rmult_le_pos; [assumption|apply Rmult_le_pos; [apply sqrt_pos|assumption]]).
  pose proof (gmon 6 (67 + 2 * d) ltac:(lia)) as Ga. pose proof (gge (67 + 2 * d)) as Gb.
  assert (S3' : Rabs (sqrt t - sqrt q * Rabs De) <= (g (67 + 2 * d) - 1) * (sqrt q * Rabs De) + w3).
  { eapply Rle_trans; [exact S3|]. apply Rplus_le_compat_r. apply Rmult_le_compat_r; [apply Rmult_le_pos; [assumption|apply Rabs_pos]|lra]. }
  pose proof (norm_err (g (67 + 2 * d) - 1) (sqrt c1) (sqrt c2) (sqrt t) (sqrt (sdev2 a)) (sqrt (sdev2 b)) (sqrt q * Rabs De) w1 w2 w3 ltac:(lra) (sqrt_pos c1) (sqrt_pos c2) (sqrt_pos t) (sqrt_pos (sdev2 a)) (sqrt_pos (sdev2 b)) ltac:(apply Rmult_le_pos; [assumption|apply Rabs_pos]) w10 w20 w30 S1 S2 S3') as NE.
  rewrite (sq_sqrt c1 C1), (sq_sqrt c2 C2), (sq_sqrt t t0), (sq_sqrt (sdev2 a) (dev2_pos _ _)), (sq_sqrt (sdev2 b) (dev2_pos _ _)) in NE.
  replace (sqrt q * Rabs De * (sqrt q * Rabs De)) with (q * (De * De)) in NE.
  2: { replace (sqrt q * Rabs De * (sqrt q * Rabs De)) with ((sqrt q * sqrt q) * (Rabs De * Rabs De)) by ring. rewrite (sq_sqrt q) by lra. rewrite <- Rabs_mult, (Rabs_pos_eq (De * De)) by apply Rle_0_sqr. reflexivity. }
  set (Sc := sdev2 a + sdev2 b + q * (De * De)) in *. assert (Sc0 : 0 <= Sc) by (unfold Sc; pose proof (dev2_pos (avg a) a); pose proof (dev2_pos (avg b) b); unfold sdev2 in *; pose proof (Rle_0_sqr De); unfold Rsqr in *; nra).
  assert (NW : sqrt (w1 * w1 + w2 * w2 + w3 * w3) <= sqrt (n1 + n2) * ((K d + g 6 * mu d) * M)).
  { set (n := n1 + n2). assert (n0 : 0 <= n) by (unfold n; lra). assert (KK : 0 <= (K d + g 6 * mu d) * M) by (apply Rmult_le_pos; [|assumption]; apply Rplus_le_le_0_compat; [assumption|]; apply Rmult_le_pos; lra).
    rewrite <- (sqrt_square (sqrt n * ((K d + g 6 * mu d) * M))) by (apply Rmult_le_pos; [apply sqrt_pos|assumption]). apply sqrt_le_1_alt.
    replace (sqrt n * ((K d + g 6 * mu d) * M) * (sqrt n * ((K d + g 6 * mu d) * M))) with ((sqrt n * sqrt n) * (((K d + g 6 * mu d) * M) * ((K d + g 6 * mu d) * M))) by ring. rewrite (sq_sqrt n n0).
    replace (w1 * w1) with (n1 * (K d * M * (K d * M))) by (unfold w1; rewrite <- (sq_sqrt n1) at 1 by lra; ring). replace (w2 * w2) with (n2 * (K d * M * (K d * M))) by (unfold w2; rewrite <- (sq_sqrt n2) at 1 by lra; ring).
    replace (w3 * w3) with (4 * q * ((g 6 * (mu d * M)) * (g 6 * (mu d * M)))) by (unfold w3; rewrite <- (sq_sqrt q) at 1 by lra; ring).
    set (p := K d * M). set (r := g 6 * (mu d * M)). assert (p0 : 0 <= p) by (unfold p; now apply Rmult_le_pos). assert (r0 : 0 <= r) by (unfold r; apply Rmult_le_pos; lra).
    replace ((K d + g 6 * mu d) * M) with (p + r) by (unfold p, r; ring). assert (4 * q <= n) by (unfold n; lra). unfold n in *. assert (0 <= r * r) by nra. assert (0 <= p * r) by nra. nra. }
  set (ch := fl_add rnd (fl_add rnd c1 c2) t). assert (ch0 : 0 <= ch) by (unfold ch, fl_add; apply rpos; pose proof (rpos (c1 + c2) ltac:(lra)); lra). split; [exact ch0|].
  set (e2 := c1 + c2 + t) in *. assert (e20 : 0 <= e2) by (unfold e2; lra).
  assert (Ec : Rabs (ch - e2) <= (g 2 - 1) * e2).
  { unfold ch, e2, fl_add. apply (rstep 1); [rewrite Rabs_pos_eq; lra|]. replace (rnd (c1 + c2) + t - (c1 + c2 + t)) with (rnd (c1 + c2) - (c1 + c2)) by ring.
    eapply Rle_trans; [apply (rstep 0 (c1 + c2) (c1 + c2) (c1 + c2)); [rewrite Rabs_pos_eq; lra|apply self; rewrite Rabs_pos_eq; lra]|]. pose proof (gge 1). nra. }
  pose proof (gge 2) as G2. pose proof (sqrt_err (g 2 - 1) ch e2 ltac:(lra) ch0 e20 Ec) as SC.
  set (X := (g (67 + 2 * d) - 1) * sqrt Sc + sqrt (w1 * w1 + w2 * w2 + w3 * w3)) in *. pose proof (sqrt_pos Sc) as sS.
  assert (SE2 : sqrt e2 <= sqrt Sc + X) by (pose proof (Rle_abs (sqrt e2 - sqrt Sc)); lra).
  replace (sqrt ch - sqrt Sc) with ((sqrt ch - sqrt e2) + (sqrt e2 - sqrt Sc)) by ring. eapply Rle_trans; [apply Rabs_triang|].
  assert (B : (g 2 - 1) * sqrt e2 <= (g 2 - 1) * (sqrt Sc + X)) by (apply Rmult_le_compat_l; lra).
  apply (Rle_trans _ ((g 2 - 1) * (sqrt Sc + X) + X)); [lra|]. replace (67 + 2 * S d)%nat with (2 + (67 + 2 * d))%nat by lia. rewrite (gplus 2).
  assert (KS : g 2 * sqrt (w1 * w1 + w2 * w2 + w3 * w3) <= K (S d) * (sqrt (n1 + n2) * M)).
  { apply (Rle_trans _ (g 2 * (sqrt (n1 + n2) * ((K d + g 6 * mu d) * M)))); [apply Rmult_le_compat_l; lra|].
    replace (g 2 * (sqrt (n1 + n2) * ((K d + g 6 * mu d) * M))) with (g 2 * (K d + g 6 * mu d) * (sqrt (n1 + n2) * M)) by ring. apply Rmult_le_compat_r; [apply Rmult_le_pos; [apply sqrt_pos|assumption]|apply K_step]. }
  unfold X. nra.
Qed.
Lemma pairwise_inv L : forall l, l <> [] -> (length l <= 64 * 2 ^ L)%nat -> Forall fmt l -> (forall k, (k <= length l)%nat -> fmt (INR k)) -> Forall (fun x => Rabs x <= M) l ->
  inv L l (pairwise_accumulate 64 blockf combf (dup l)).
Proof.
  induction L as [|L IH]; intros l Hl HL HF HN HM; assert (M0 : 0 <= M) by (destruct l as [|x l]; [contradiction|]; inversion HM; subst; pose proof (Rabs_pos x); lra);
    rewrite (pairwise_unfold 64 blockf combf (dup l)) by lia; rewrite map_length; destruct (Nat.leb_spec (length l) 64) as [H|H].
  - apply block_inv; auto.
  - cbn in HL. lia.
  - apply (inv_weaken 0); [lia|exact M0|]. apply block_inv; auto.
  - set (h := (length l / 2)%nat). pose proof (Nat.div_mod (length l) 2 ltac:(lia)) as DM. pose proof (Nat.mod_upper_bound (length l) 2 ltac:(lia)). fold h in DM. cbn [Nat.pow] in HL. clearbody h.
    rewrite firstn_map, skipn_map. rewrite <- (firstn_skipn h l) at 1. assert (L1 : length (firstn h l) = h) by (rewrite firstn_length; lia). assert (L2 : length (skipn h l) = (length l - h)%nat) by apply skipn_length.
    rewrite <- (firstn_skipn h l) in HF, HM. apply Forall_app in HF, HM. destruct HF as [F1 F2], HM as [M1 M2].
    assert (N1 : firstn h l <> []) by (intros E; rewrite E in L1; cbn in L1; lia). assert (N2 : skipn h l <> []) by (intros E; rewrite E in L2; cbn in L2; lia).
    apply combine_inv; auto; try (apply HN; rewrite ?L1, ?L2; lia).
    + apply IH; auto; [lia|]. intros k Hk. apply HN. lia.
    + apply IH; auto; [lia|]. intros k Hk. apply HN. lia.
Qed.
Lemma var_err L ddof l : (0 < Z.of_nat (length l) - ddof)%Z -> (length l <= 64 * 2 ^ L)%nat -> l <> [] -> Forall fmt l -> (forall k, (k <= length l)%nat -> fmt (INR k)) -> fmt (IZR (Z.of_nat (length l) - ddof)) ->
  Forall (fun x => Rabs x <= M) l -> let n := INR (length l) in let nu := IZR (Z.of_nat (length l) - ddof) in let sigma := sqrt (sdev2 l / nu) in
  exists v, r_var rnd nan inf ddof l = Ok v /\ 0 <= v /\ Rabs (sqrt v - sigma) <= (g (68 + 2 * L) - 1) * sigma + g 1 * K L * (sqrt (n / nu) * M).
Proof.
  intros Hd HL Hl HF HN Hnu HM n nu sigma. unfold r_var, var, var_filter, covariance_filter, require. rewrite Nat.eqb_refl.
  replace (length l =? 0)%nat with false by (symmetry; apply Nat.eqb_neq; destruct l; [contradiction|discriminate]). unfold pairwise_accumulate2, require. rewrite Nat.eqb_refl. cbn [bind].
  replace (combine l l) with (dup l) by (clear; induction l as [|x l IH]; [reflexivity|cbn; now rewrite IH]).
  pose proof (pairwise_inv L l Hl HL HF HN HM) as IV. destruct (pairwise_accumulate 64 _ _ (dup l)) as [[[m m'] c] k]. destruct IV as (_ & -> & _ & C0 & SE).
  destruct (Z.leb_spec (Z.of_nat (length l) - ddof) 0) as [?|_]; [lia|]. cbn [bind omap fst]. eexists. split; [reflexivity|].
  unfold fl_quot, fl_int. rewrite (Id _ Hnu). fold nu. assert (nu0 : 0 < nu) by (apply IZR_lt; lia). assert (I0 : 0 < / nu) by (now apply Rinv_0_lt_compat).
  assert (cn : 0 <= c / nu) by (unfold Rdiv; nra). split; [now apply rpos|].
  assert (E1 : Rabs (rnd (c / nu) - c / nu) <= (g 1 - 1) * (c / nu)) by (apply (rstep 0); [rewrite Rabs_pos_eq; lra|apply self; rewrite Rabs_pos_eq; lra]).
  pose proof (gge 1) as G1. pose proof (sqrt_err (g 1 - 1) (rnd (c / nu)) (c / nu) ltac:(lra) (rpos _ cn) cn E1) as E2.
  set (i := sqrt (/ nu)). assert (i0 : 0 <= i) by apply sqrt_pos. assert (Ei : forall z, 0 <= z -> sqrt (z / nu) = sqrt z * i) by (intros z Hz; unfold Rdiv, i; apply sqrt_mult; lra).
  assert (n0 : 0 < n) by (now apply len_pos). unfold sigma. rewrite (Ei c C0) in E2. rewrite (Ei (sdev2 l)) by apply dev2_pos. rewrite (Ei n) by lra.
  fold n in SE. set (sc := sqrt c) in *. set (ss := sqrt (sdev2 l)) in *. set (W := K L * (sqrt n * M)) in *.
  assert (E3 : Rabs (sc * i - ss * i) <= ((g (67 + 2 * L) - 1) * ss + W) * i). { rewrite <- Rmult_minus_distr_r, Rabs_mult, (Rabs_pos_eq i i0). now apply Rmult_le_compat_r. }
  replace (sqrt (rnd (c / nu)) - ss * i) with ((sqrt (rnd (c / nu)) - sc * i) + (sc * i - ss * i)) by ring. eapply Rle_trans; [apply Rabs_triang|].
  assert (B : sc * i <= ss * i + ((g (67 + 2 * L) - 1) * ss + W) * i) by (pose proof (Rle_abs (sc * i - ss * i)); lra).
  replace (68 + 2 * L)%nat with (1 + (67 + 2 * L))%nat by lia. rewrite (gplus 1). replace (g 1 * K L * (sqrt n * i * M)) with (g 1 * (W * i)) by (unfold W; ring). nra.
Qed.
Lemma std_err s v sigma k W : 0 <= v -> 0 <= sigma -> 0 <= W -> Rabs (sqrt v - sigma) <= (g k - 1) * sigma + W -> s = rnd (sqrt v) -> 0 <= s /\ Rabs (s - sigma) <= (g (S k) - 1) * sigma + g 1 * W.
Proof.
  intros Hv Hs HW H ->. pose proof (sqrt_pos v) as SV. split; [now apply rpos|]. pose proof (rnd_step _ _ _ _ RD k (sqrt v) sigma sigma W ltac:(rewrite Rabs_pos_eq; lra) HW H) as Q.
  rewrite Rplus_0_r in Q. replace (g 1) with (1 + u) by (unfold FloatArithFacts.g; ring). exact Q.
Qed.
End Facts.
