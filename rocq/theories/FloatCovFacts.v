(** Error analysis of the blocked covariance of two data sets (FloatVar.v), no underflow (eta = 0). *)
From Coq Require Import List Arith ZArith Reals Bool.
From Flocq Require Import Core.
From Verif Require Import Base Functional FunctionalProofs Numeric Stats StatsVar PairwiseError FloatArith FloatArithFacts FloatVar FloatVarFacts.
From Coq Require Import Lra Psatz Lia.
Import ListNotations.
Open Scope R_scope.

Definition xs (l : list (R * R)) := map fst l.
Definition ys (l : list (R * R)) := map snd l.
Definition codev (a b : R) (l : list (R * R)) : R := Rsum (map (fun z => (fst z - a) * (snd z - b)) l).
Definition codev_abs (a b : R) (l : list (R * R)) : R := Rsum (map (fun z => Rabs (fst z - a) * Rabs (snd z - b)) l).
Definition scodev (l : list (R * R)) : R := codev (avg (xs l)) (avg (ys l)) l.
Lemma codev_app a b k l : codev a b (k ++ l) = codev a b k + codev a b l.
Proof. unfold codev. rewrite map_app. apply Rsum_app'. Qed.
Lemma codev_shift a b c d l : codev a b l = codev c d l + (c - a) * (Rsum (ys l) - INR (length l) * d) + (d - b) * (Rsum (xs l) - INR (length l) * c) + INR (length l) * ((c - a) * (d - b)).
Proof. unfold codev, xs, ys, Rsum. induction l as [|x l IH]; cbn [map fold_right length]; [cbn; ring|]. rewrite S_INR, IH. ring. Qed.
Lemma xs_len l : length (xs l) = length l. Proof. apply map_length. Qed.
Lemma ys_len l : length (ys l) = length l. Proof. apply map_length. Qed.
Lemma xs_nil l : l <> [] -> xs l <> []. Proof. destruct l; [contradiction|discriminate]. Qed.
Lemma ys_nil l : l <> [] -> ys l <> []. Proof. destruct l; [contradiction|discriminate]. Qed.
Lemma xs_app a b : xs (a ++ b) = xs a ++ xs b. Proof. apply map_app. Qed.
Lemma ys_app a b : ys (a ++ b) = ys a ++ ys b. Proof. apply map_app. Qed.
Lemma plen_pos (l : list (R * R)) : l <> [] -> 0 < INR (length l). Proof. intros H. rewrite <- xs_len. apply len_pos. now apply xs_nil. Qed.
Lemma codev_avg a b l : l <> [] -> codev a b l = scodev l + INR (length l) * ((avg (xs l) - a) * (avg (ys l) - b)).
Proof.
  intros H. pose proof (plen_pos l H). unfold scodev. rewrite (codev_shift a b (avg (xs l)) (avg (ys l))). unfold avg at 4 6. rewrite xs_len, ys_len.
  replace (Rsum (ys l) - INR (length l) * (Rsum (ys l) / INR (length l))) with 0 by (field; lra). replace (Rsum (xs l) - INR (length l) * (Rsum (xs l) / INR (length l))) with 0 by (field; lra). ring.
Qed.
Lemma scodev_app a b : a <> [] -> b <> [] -> let n1 := INR (length a) in let n2 := INR (length b) in
  scodev (a ++ b) = scodev a + scodev b + n1 * n2 / (n1 + n2) * ((avg (xs a) - avg (xs b)) * (avg (ys a) - avg (ys b))).
Proof.
  intros Ha Hb n1 n2. pose proof (plen_pos a Ha). pose proof (plen_pos b Hb). unfold scodev at 1. rewrite codev_app, (codev_avg _ _ a Ha), (codev_avg _ _ b Hb), xs_app, ys_app.
  rewrite (avg_app (xs a) (xs b)) by now apply xs_nil. rewrite (avg_app (ys a) (ys b)) by now apply ys_nil. rewrite !xs_len, !ys_len. unfold n1, n2. field. lra.
Qed.
(** Cauchy-Schwarz for lists *)
Lemma codev_abs_pos a b l : 0 <= codev_abs a b l.
Proof. unfold codev_abs, Rsum. induction l as [|x l IH]; cbn [map fold_right]; [lra|]. pose proof (Rabs_pos (fst x - a)). pose proof (Rabs_pos (snd x - b)). nra. Qed.
Lemma codev_cauchy a b l : codev_abs a b l <= sqrt (dev2 a (xs l)) * sqrt (dev2 b (ys l)).
Proof.
  induction l as [|z l IH].
  - unfold codev_abs, dev2, Rsum. cbn. rewrite sqrt_0. lra.
  - unfold codev_abs, dev2, Rsum in *. cbn [map fold_right xs ys]. fold (xs l). fold (ys l).
    pose proof (dev2_pos a (xs l)) as P. pose proof (dev2_pos b (ys l)) as Q. unfold dev2, Rsum in P, Q. set (A := fold_right Rplus 0 (map _ (xs l))) in *. set (B := fold_right Rplus 0 (map _ (ys l))) in *. set (C := fold_right Rplus 0 (map _ l)) in *.
    pose proof (cauchy (Rabs (fst z - a)) (sqrt A) 0 (Rabs (snd z - b)) (sqrt B) 0) as H. rewrite (sq_sqrt A P), (sq_sqrt B Q), !Rmult_0_l, !Rplus_0_r in H.
    rewrite <- (Rabs_mult (fst z - a) (fst z - a)), <- (Rabs_mult (snd z - b) (snd z - b)) in H. rewrite (Rabs_pos_eq ((fst z - a) * (fst z - a))) in H by apply Rle_0_sqr. rewrite (Rabs_pos_eq ((snd z - b) * (snd z - b))) in H by apply Rle_0_sqr. lra.
Qed.
Lemma codev_le_abs a b l : Rabs (codev a b l) <= codev_abs a b l.
Proof. unfold codev, codev_abs, Rsum. induction l as [|z l IH]; cbn [map fold_right]; [rewrite Rabs_R0; lra|]. eapply Rle_trans; [apply Rabs_triang|]. rewrite Rabs_mult. lra. Qed.
(** the root of a sum of squared deviations about a wrong mean *)
Lemma dev2_root c l : l <> [] -> sqrt (dev2 c l) <= sqrt (sdev2 l) + sqrt (INR (length l)) * Rabs (c - avg l).
Proof.
  intros Hl. pose proof (len_pos l Hl) as LP. rewrite (dev2_avg c l Hl). set (e := Rabs (c - avg l)). assert (e0 : 0 <= e) by apply Rabs_pos.
  replace ((avg l - c) * (avg l - c)) with (e * e) by (unfold e; rewrite <- Rabs_mult; rewrite Rabs_pos_eq by apply Rle_0_sqr; ring).
  assert (SP : 0 <= sdev2 l) by apply dev2_pos. pose proof (sqrt_pos (sdev2 l)). pose proof (sqrt_pos (INR (length l))).
  pose proof (minkowski (sqrt (sdev2 l)) 0 0 0 (sqrt (INR (length l)) * e) 0) as MK. rewrite !Rplus_0_l, !Rplus_0_r, !Rmult_0_l, !Rplus_0_l, !Rplus_0_r in MK.
  rewrite (sqrt_square (sqrt (sdev2 l))) in MK by assumption. rewrite (sqrt_square (_ * e)) in MK by (now apply Rmult_le_pos). rewrite (sq_sqrt (sdev2 l) SP) in MK.
  replace (sqrt (INR (length l)) * e * (sqrt (INR (length l)) * e)) with (INR (length l) * (e * e)) in MK; [exact MK|]. rewrite <- (sq_sqrt (INR (length l))) at 1 by lra. ring.
Qed.
(** bilinear combination of three pairs *)
Lemma bilinear G s1 s2 s3 p1 p2 p3 t1 t2 t3 q1 q2 q3 p q : 1 <= G -> 0 <= s1 -> 0 <= s2 -> 0 <= s3 -> 0 <= t1 -> 0 <= t2 -> 0 <= t3 ->
  0 <= p1 -> 0 <= p2 -> 0 <= p3 -> 0 <= q1 -> 0 <= q2 -> 0 <= q3 ->
  sqrt (p1 * p1 + p2 * p2 + p3 * p3) <= p -> sqrt (q1 * q1 + q2 * q2 + q3 * q3) <= q ->
  let s := sqrt (s1 * s1 + s2 * s2 + s3 * s3) in let t := sqrt (t1 * t1 + t2 * t2 + t3 * t3) in
  (s1 + p1) * (t1 + q1) + (s2 + p2) * (t2 + q2) + (s3 + p3) * (t3 + q3) <= (s + p) * (t + q) /\
  (s1 * q1 + p1 * t1 + p1 * q1) + (s2 * q2 + p2 * t2 + p2 * q2) + (s3 * q3 + p3 * t3 + p3 * q3) <= s * q + p * t + p * q.
Proof.
  intros HG S1 S2 S3 T1 T2 T3 P1 P2 P3 Q1 Q2 Q3 HP HQ s t.
  assert (s0 : 0 <= s) by apply sqrt_pos. assert (t0 : 0 <= t) by apply sqrt_pos. set (pn := sqrt (p1 * p1 + p2 * p2 + p3 * p3)) in *. set (qn := sqrt (q1 * q1 + q2 * q2 + q3 * q3)) in *.
  assert (pn0 : 0 <= pn) by apply sqrt_pos. assert (qn0 : 0 <= qn) by apply sqrt_pos.
  pose proof (cauchy s1 s2 s3 q1 q2 q3) as C1. pose proof (cauchy p1 p2 p3 t1 t2 t3) as C2. pose proof (cauchy p1 p2 p3 q1 q2 q3) as C3. pose proof (cauchy s1 s2 s3 t1 t2 t3) as C0. fold s t pn qn in C0, C1, C2, C3.
  assert (B1 : s * qn <= s * q) by (now apply Rmult_le_compat_l). assert (B2 : pn * t <= p * t) by (now apply Rmult_le_compat_r). assert (B3 : pn * qn <= p * q) by (now apply Rmult_le_compat).
  split; lra.
Qed.

Section Facts.
Variables (u : R) (fmt : R -> Prop) (rnd : R -> R).
Hypothesis RD : rounding u 0 fmt rnd.
Variables nan inf : R.
Let Hu := u_pos _ _ _ _ RD.
Let Id := rd_id _ _ _ _ RD.
Notation g := (g u).
Notation mu := (mu u).
Variables Mx My : R.
Definition kap (d : nat) : R := sqrt (INR (S d)) * mu d.
Definition dx M d (l : list (R * R)) : R := kap d * (sqrt (INR (length l)) * M).
Definition sx l := sqrt (sdev2 (xs l)).
Definition sy l := sqrt (sdev2 (ys l)).
Definition errc (G s t p q : R) : R := (G - 1) * ((s + p) * (t + q)) + (s * q + p * t + p * q).
Definition inv2 (d : nat) (l : list (R * R)) (r : R * R * R * nat) : Prop := let '(m, m', c, n) := r in
  n = length l /\ Rabs (m - avg (xs l)) <= mu d * Mx /\ Rabs (m' - avg (ys l)) <= mu d * My /\
  Rabs (c - scodev l) <= errc (g (67 + 2 * d)) (sx l) (sy l) (dx Mx d l) (dx My d l).
Notation blockf := (cov_block 0 nan (fl_add rnd) (fl_sub rnd) (fl_mul rnd) (fl_quot rnd) (fun x => x) (fl_nat rnd) false f_all).
Notation combf := (cov_combine 1 (fl_add rnd) (fl_sub rnd) (fl_mul rnd) (fl_quot rnd) (fun x => x) (fl_nat rnd)).

Lemma block2_eq l : blockf l = let m := r_mean rnd nan (xs l) in let m' := r_mean rnd nan (ys l) in
  (m, m', fold_left (fun s z => fl_add rnd s (fl_mul rnd (fl_sub rnd (fst z) m) (fl_sub rnd (snd z) m'))) l 0, length l).
Proof.
  unfold cov_block. fold (xs l). fold (ys l). change (mean_filter 0 nan (fl_add rnd) (fl_quot rnd) (fl_nat rnd) false (xs l) f_all) with (r_mean rnd nan (xs l)).
  change (mean_filter 0 nan (fl_add rnd) (fl_quot rnd) (fl_nat rnd) false (ys l) f_all) with (r_mean rnd nan (ys l)).
  cbv zeta. set (m := r_mean rnd nan (xs l)). set (m' := r_mean rnd nan (ys l)).
  assert (F : forall r n, fold_left (fun (st : R * nat) (xy : R * R) => if f_all (fst xy) && f_all (snd xy) then (fl_add rnd (fst st) (fl_mul rnd (fl_sub rnd (fst xy) m) (fl_sub rnd (snd xy) m')), Datatypes.S (snd st)) else st) l (r, n)
    = (fold_left (fun s z => fl_add rnd s (fl_mul rnd (fl_sub rnd (fst z) m) (fl_sub rnd (snd z) m'))) l r, (n + length l)%nat)).
  { clearbody m m'. induction l as [|x l IH]; intros r n; [cbn; f_equal; lia|]. cbn [fold_left length]. change (f_all (fst x) && f_all (snd x)) with true. cbv iota. cbn [fst snd]. rewrite IH. f_equal. lia. }
  rewrite F. reflexivity.
Qed.
Lemma prod_err x y m m' : Rabs (fl_mul rnd (fl_sub rnd x m) (fl_sub rnd y m') - (x - m) * (y - m')) <= (g 3 - 1) * (Rabs (x - m) * Rabs (y - m')).
Proof.
  unfold fl_mul, fl_sub. assert (D : forall d, Rabs (rnd d - d) <= (g 1 - 1) * Rabs d) by (intros d; apply (rstep _ _ _ RD 0); [lra|apply (self _ _ _ RD); lra]).
  apply (rstep _ _ _ RD 2); [rewrite Rabs_mult; lra|]. apply (mul_err _ _ _ RD 1 1); auto; lra.
Qed.
Lemma fold2_err m m' l : forall r Q A j, (3 <= j)%nat -> Rabs Q <= A -> Rabs (r - Q) <= (g j - 1) * A ->
  Rabs (fold_left (fun s z => fl_add rnd s (fl_mul rnd (fl_sub rnd (fst z) m) (fl_sub rnd (snd z) m'))) l r - (Q + codev m m' l)) <= (g (j + length l) - 1) * (A + codev_abs m m' l).
Proof.
  induction l as [|z l IH]; intros r Q A j Hj HQ H.
  - cbn. unfold codev, codev_abs, Rsum. cbn. rewrite !Rplus_0_r, Nat.add_0_r. exact H.
  - cbn [fold_left length]. set (T := (fst z - m) * (snd z - m')). set (TA := Rabs (fst z - m) * Rabs (snd z - m')). pose proof (prod_err (fst z) (snd z) m m') as E. set (t := fl_mul rnd (fl_sub rnd (fst z) m) (fl_sub rnd (snd z) m')) in *. fold T TA in E.
    assert (HT : Rabs T <= TA) by (unfold T, TA; rewrite Rabs_mult; lra). assert (HA : 0 <= TA) by (pose proof (Rabs_pos T); lra).
    assert (QT : Rabs (Q + T) <= A + TA) by (eapply Rle_trans; [apply Rabs_triang|lra]).
    assert (N : Rabs (fl_add rnd r t - (Q + T)) <= (g (S j) - 1) * (A + TA)).
    { apply (rstep _ _ _ RD); [exact QT|]. replace (r + t - (Q + T)) with ((r - Q) + (t - T)) by ring. eapply Rle_trans; [apply Rabs_triang|]. apply (weaken _ _ _ RD 3 j) in E; [lra|exact Hj|exact HA]. }
    specialize (IH (fl_add rnd r t) (Q + T) (A + TA) (S j) ltac:(lia) QT N).
    replace (Q + codev m m' (z :: l)) with (Q + T + codev m m' l) by (unfold codev, Rsum, T; cbn [map fold_right]; ring).
    replace (A + codev_abs m m' (z :: l)) with (A + TA + codev_abs m m' l) by (unfold codev_abs, Rsum, TA; cbn [map fold_right]; ring).
    replace (j + S (length l))%nat with (S j + length l)%nat by lia. exact IH.
Qed.
Lemma kap_pos d : 0 <= kap d. Proof. unfold kap. apply Rmult_le_pos; [apply sqrt_pos|apply (mu_pos _ _ _ RD)]. Qed.
Lemma kap_mono d e : (d <= e)%nat -> kap d <= kap e.
Proof. intros H. unfold kap. apply Rmult_le_compat; [apply sqrt_pos|apply (mu_pos _ _ _ RD)|apply sqrt_le_1_alt, le_INR; lia|now apply (mu_mono _ _ _ RD)]. Qed.
Lemma dx_pos M d l : 0 <= M -> 0 <= dx M d l.
Proof. intros H. unfold dx. apply Rmult_le_pos; [apply kap_pos|apply Rmult_le_pos; [apply sqrt_pos|exact H]]. Qed.
Lemma dx_mono M d e l : 0 <= M -> (d <= e)%nat -> dx M d l <= dx M e l.
Proof. intros H L. unfold dx. apply Rmult_le_compat_r; [apply Rmult_le_pos; [apply sqrt_pos|exact H]|now apply kap_mono]. Qed.
Lemma errc_mono G H s t p q p' q' : 1 <= G -> G <= H -> 0 <= s -> 0 <= t -> 0 <= p <= p' -> 0 <= q <= q' -> errc G s t p q <= errc H s t p' q'.
Proof.
  intros G1 GH s0 t0 [p0 pp] [q0 qq]. unfold errc. apply Rplus_le_compat.
  - apply Rmult_le_compat; [lra|apply Rmult_le_pos; lra|lra|apply Rmult_le_compat; lra].
  - assert (s * q <= s * q') by (now apply Rmult_le_compat_l). assert (p * t <= p' * t) by (now apply Rmult_le_compat_r). assert (p * q <= p' * q') by (now apply Rmult_le_compat). lra.
Qed.
Lemma inv2_weaken d e l r : (d <= e)%nat -> 0 <= Mx -> 0 <= My -> inv2 d l r -> inv2 e l r.
Proof.
  intros H HX HY. destruct r as [[[m m'] c] n]. intros (E1 & E2 & E3 & E4). pose proof (mu_mono _ _ _ RD d e H). repeat split; auto.
  - eapply Rle_trans; [exact E2|]. now apply Rmult_le_compat_r.
  - eapply Rle_trans; [exact E3|]. now apply Rmult_le_compat_r.
  - eapply Rle_trans; [exact E4|]. apply errc_mono; [apply (gge _ _ _ RD)|apply (gmon _ _ _ RD); lia|apply sqrt_pos|apply sqrt_pos|split; [now apply dx_pos|now apply dx_mono]|split; [now apply dx_pos|now apply dx_mono]].
Qed.
Definition bounded (l : list (R * R)) : Prop := Forall (fun x => Rabs x <= Mx) (xs l) /\ Forall (fun x => Rabs x <= My) (ys l).
Lemma bounded_pos l : l <> [] -> bounded l -> 0 <= Mx /\ 0 <= My.
Proof.
  intros Hl [B1 B2]. destruct (avg_abs Mx (xs l) (xs_nil l Hl) B1) as [_ A1]. destruct (avg_abs My (ys l) (ys_nil l Hl) B2) as [_ A2].
  pose proof (Rabs_pos (avg (xs l))). pose proof (Rabs_pos (avg (ys l))). lra.
Qed.
Lemma block2_inv l : l <> [] -> (length l <= 64)%nat -> Forall fmt (xs l) -> Forall fmt (ys l) -> fmt (INR (length l)) -> bounded l -> inv2 0 l (blockf l).
Proof.
  intros Hl L64 HX HY HI HB. destruct (bounded_pos l Hl HB) as [M0 N0]. destruct HB as [BX BY]. rewrite block2_eq. cbv zeta. set (m := r_mean rnd nan (xs l)). set (m' := r_mean rnd nan (ys l)).
  assert (MM : forall M k, k <> [] -> length k = length l -> Forall fmt k -> Forall (fun x => Rabs x <= M) k -> 0 <= M -> Rabs (r_mean rnd nan k - avg k) <= mu 0 * M).
  { intros M k Hk Lk Fk Bk HM. destruct (avg_abs M k Hk Bk) as [A1 _]. pose proof (mean_err _ _ _ _ RD 0 nan k Hk ltac:(cbn; lia) Fk ltac:(now rewrite Lk)) as E. rewrite Rplus_0_r in E. eapply Rle_trans; [exact E|].
    unfold FloatVarFacts.mu. replace (65 + 4 * 0)%nat with (65 + 0)%nat by lia. apply Rmult_le_compat_l; [pose proof (gge _ _ _ RD (65 + 0)); lra|exact A1]. }
  assert (E1 : Rabs (m - avg (xs l)) <= mu 0 * Mx) by (apply MM; auto; [now apply xs_nil|apply xs_len]).
  assert (E2 : Rabs (m' - avg (ys l)) <= mu 0 * My) by (apply MM; auto; [now apply ys_nil|apply ys_len]).
  split; [reflexivity|split; [exact E1|split; [exact E2|]]].
  pose proof (fold2_err m m' l 0 0 0 3 ltac:(lia) ltac:(rewrite Rabs_R0; lra) ltac:(rewrite Rminus_0_r, Rabs_R0; lra)) as FE. set (c := fold_left _ l 0) in *. rewrite !Rplus_0_l in FE.
  pose proof (codev_abs_pos m m' l) as CP. apply (weaken _ _ _ RD (3 + length l) 67) in FE; [|lia|exact CP].
  pose proof (codev_cauchy m m' l) as CC. pose proof (dev2_root m (xs l) (xs_nil l Hl)) as R1. pose proof (dev2_root m' (ys l) (ys_nil l Hl)) as R2. rewrite xs_len in R1. rewrite ys_len in R2.
  change (67 + 2 * 0)%nat with 67%nat. set (N := sqrt (INR (length l))) in *. assert (n0 : 0 <= N) by apply sqrt_pos.
  assert (KE : kap 0 = mu 0) by (unfold kap; change (INR 1) with 1; rewrite sqrt_1; ring).
  assert (D1 : dx Mx 0 l = N * (mu 0 * Mx)) by (unfold dx; rewrite KE; fold N; ring). assert (D2 : dx My 0 l = N * (mu 0 * My)) by (unfold dx; rewrite KE; fold N; ring).
  set (ex := Rabs (m - avg (xs l))) in *. set (ey := Rabs (m' - avg (ys l))) in *. assert (ex0 : 0 <= ex) by apply Rabs_pos. assert (ey0 : 0 <= ey) by apply Rabs_pos.
  assert (P : N * ex <= dx Mx 0 l) by (rewrite D1; now apply Rmult_le_compat_l). assert (Q : N * ey <= dx My 0 l) by (rewrite D2; now apply Rmult_le_compat_l).
  pose proof (dx_pos Mx 0 l M0) as p0. pose proof (dx_pos My 0 l N0) as q0. set (p := dx Mx 0 l) in *. set (q := dx My 0 l) in *. fold (sx l) in R1. fold (sy l) in R2.
  assert (s0 : 0 <= sx l) by apply sqrt_pos. assert (t0 : 0 <= sy l) by apply sqrt_pos.
  assert (CB : codev_abs m m' l <= (sx l + p) * (sy l + q)). { eapply Rle_trans; [exact CC|]. apply Rmult_le_compat; try apply sqrt_pos; lra. }
  assert (X : codev m m' l - scodev l = INR (length l) * ((avg (xs l) - m) * (avg (ys l) - m'))) by (rewrite (codev_avg m m' l Hl); ring).
  assert (XE : Rabs (codev m m' l - scodev l) <= p * q).
  { rewrite X. rewrite !Rabs_mult, (Rabs_minus_sym (avg (xs l))), (Rabs_minus_sym (avg (ys l))). fold ex ey. rewrite (Rabs_pos_eq (INR _)) by apply pos_INR. rewrite <- (sq_sqrt (INR (length l))) by apply pos_INR. fold N.
    replace (N * N * (ex * ey)) with ((N * ex) * (N * ey)) by ring. apply Rmult_le_compat; auto; now apply Rmult_le_pos. }
  replace (c - scodev l) with ((c - codev m m' l) + (codev m m' l - scodev l)) by ring. eapply Rle_trans; [apply Rabs_triang|]. unfold errc.
  assert (B1 : (g 67 - 1) * codev_abs m m' l <= (g 67 - 1) * ((sx l + p) * (sy l + q))) by (apply Rmult_le_compat_l; [pose proof (gge _ _ _ RD 67); lra|exact CB]).
  assert (0 <= sx l * q) by (now apply Rmult_le_pos). assert (0 <= p * sy l) by (now apply Rmult_le_pos). lra.
Qed.
(** the correction of the combined covariance: the product of the differences of the means *)
Lemma cross_err d n1 n2 x1 x2 y1 y2 X1 X2 Y1 Y2 : 0 < n1 -> 0 < n2 -> 0 <= Mx -> 0 <= My ->
  Rabs (x1 - X1) <= mu d * Mx -> Rabs (x2 - X2) <= mu d * Mx -> Rabs (y1 - Y1) <= mu d * My -> Rabs (y2 - Y2) <= mu d * My ->
  let q := n1 * n2 / (n1 + n2) in
  let t := fl_mul rnd (fl_mul rnd (fl_quot rnd (fl_mul rnd n1 n2) (n1 + n2)) (fl_sub rnd y1 y2)) (fl_sub rnd x1 x2) in
  Rabs (t - q * ((X1 - X2) * (Y1 - Y2))) <= errc (g 6) (sqrt q * Rabs (X1 - X2)) (sqrt q * Rabs (Y1 - Y2)) (sqrt q * (2 * (mu d * Mx))) (sqrt q * (2 * (mu d * My))).
Proof.
  intros P1 P2 M0 N0 Hx1 Hx2 Hy1 Hy2 q t. destruct (q_err _ _ _ RD n1 n2 P1 P2) as (Q0 & Qp & QE & _). fold q in Qp, QE. set (qh := fl_quot rnd (fl_mul rnd n1 n2) (n1 + n2)) in *.
  set (Dx := x1 - x2). set (Dy := y1 - y2). set (ax := X1 - X2). set (ay := Y1 - Y2). pose proof (mu_pos _ _ _ RD d) as m0. set (ex := 2 * (mu d * Mx)). set (ey := 2 * (mu d * My)).
  assert (ex0 : 0 <= ex) by (unfold ex; apply Rmult_le_pos; [lra|now apply Rmult_le_pos]). assert (ey0 : 0 <= ey) by (unfold ey; apply Rmult_le_pos; [lra|now apply Rmult_le_pos]).
  assert (EX : Rabs (Dx - ax) <= ex). { unfold Dx, ax, ex. replace (x1 - x2 - (X1 - X2)) with ((x1 - X1) + - (x2 - X2)) by ring. eapply Rle_trans; [apply Rabs_triang|]. rewrite Rabs_Ropp. lra. }
  assert (EY : Rabs (Dy - ay) <= ey). { unfold Dy, ay, ey. replace (y1 - y2 - (Y1 - Y2)) with ((y1 - Y1) + - (y2 - Y2)) by ring. eapply Rle_trans; [apply Rabs_triang|]. rewrite Rabs_Ropp. lra. }
  assert (R1 : forall z, Rabs (rnd z - z) <= (g 1 - 1) * Rabs z) by (intros z; apply (rstep _ _ _ RD 0); [lra|apply (self _ _ _ RD); lra]).
  assert (ET : Rabs (t - q * Dy * Dx) <= (g 6 - 1) * (q * Rabs Dy * Rabs Dx)).
  { unfold t, fl_mul at 1. apply (rstep _ _ _ RD 5); [rewrite !Rabs_mult, (Rabs_pos_eq q); lra|]. apply (mul_err _ _ _ RD 4 1); [rewrite Rabs_mult, (Rabs_pos_eq q); lra|lra| |unfold fl_sub; fold Dx; apply R1].
    unfold fl_mul at 1. apply (rstep _ _ _ RD 3); [rewrite Rabs_mult, (Rabs_pos_eq q); lra|]. apply (mul_err _ _ _ RD 2 1); [rewrite Rabs_pos_eq; lra|lra|exact QE|unfold fl_sub; fold Dy; apply R1]. }
  assert (AX : Rabs Dx <= Rabs ax + ex) by (pose proof (Rabs_triang_inv Dx ax); lra). assert (AY : Rabs Dy <= Rabs ay + ey) by (pose proof (Rabs_triang_inv Dy ay); lra).
  pose proof (Rabs_pos ax) as ax0. pose proof (Rabs_pos ay) as ay0. pose proof (Rabs_pos Dx). pose proof (Rabs_pos Dy). pose proof (gge _ _ _ RD 6) as G6.
  assert (XY : Rabs (Dx * Dy - ax * ay) <= Rabs ax * ey + ex * Rabs ay + ex * ey).
  { replace (Dx * Dy - ax * ay) with ((Dx - ax) * (Dy - ay) + (Dx - ax) * ay + ax * (Dy - ay)) by ring. eapply Rle_trans; [apply Rabs_triang|]. eapply Rle_trans; [apply Rplus_le_compat_r, Rabs_triang|]. rewrite !Rabs_mult.
    pose proof (Rmult_le_compat _ _ _ _ (Rabs_pos (Dx - ax)) (Rabs_pos (Dy - ay)) EX EY). pose proof (Rmult_le_compat_r _ _ _ ay0 EX). pose proof (Rmult_le_compat_l _ _ _ ax0 EY). lra. }
  assert (SQ : sqrt q * sqrt q = q) by (apply sq_sqrt; lra). unfold errc.
  replace ((sqrt q * Rabs ax + sqrt q * ex) * (sqrt q * Rabs ay + sqrt q * ey)) with (q * ((Rabs ax + ex) * (Rabs ay + ey))) by (rewrite <- SQ at 1; ring).
  replace (sqrt q * Rabs ax * (sqrt q * ey) + sqrt q * ex * (sqrt q * Rabs ay) + sqrt q * ex * (sqrt q * ey)) with (q * (Rabs ax * ey + ex * Rabs ay + ex * ey)) by (rewrite <- SQ at 1; ring).
  replace (t - q * (ax * ay)) with ((t - q * Dy * Dx) + q * (Dx * Dy - ax * ay)) by ring. eapply Rle_trans; [apply Rabs_triang|]. rewrite (Rabs_mult q), (Rabs_pos_eq q) by lra. apply Rplus_le_compat.
  - eapply Rle_trans; [exact ET|]. apply Rmult_le_compat_l; [lra|]. rewrite Rmult_assoc. apply Rmult_le_compat_l; [lra|]. rewrite Rmult_comm. apply Rmult_le_compat; lra.
  - apply Rmult_le_compat_l; lra.
Qed.
Lemma errc_size G s t p q c C : 1 <= G -> 0 <= s -> 0 <= t -> 0 <= p -> 0 <= q -> Rabs C <= s * t -> Rabs (c - C) <= errc G s t p q -> Rabs c <= G * ((s + p) * (t + q)).
Proof. intros HG s0 t0 p0 q0 HC H. unfold errc in H. pose proof (Rabs_triang_inv c C). lra. Qed.
Lemma scodev_le l : Rabs (scodev l) <= sx l * sy l.
Proof. eapply Rle_trans; [apply codev_le_abs|]. apply codev_cauchy. Qed.
Lemma kap_step d : kap d * kap d + mu d * mu d <= kap (S d) * kap (S d).
Proof.
  unfold kap. pose proof (mu_pos _ _ _ RD d) as m0. pose proof (mu_mono _ _ _ RD d (S d) ltac:(lia)) as m1. assert (Q : forall k, sqrt (INR k) * sqrt (INR k) = INR k) by (intros k; apply sq_sqrt, pos_INR).
  replace (sqrt (INR (S d)) * mu d * (sqrt (INR (S d)) * mu d)) with ((sqrt (INR (S d)) * sqrt (INR (S d))) * (mu d * mu d)) by ring.
  replace (sqrt (INR (S (S d))) * mu (S d) * (sqrt (INR (S (S d))) * mu (S d))) with ((sqrt (INR (S (S d))) * sqrt (INR (S (S d)))) * (mu (S d) * mu (S d))) by ring. rewrite !Q, (S_INR (S d)). pose proof (pos_INR (S d)).
  assert (mu d * mu d <= mu (S d) * mu (S d)) by (apply Rmult_le_compat; lra). nra.
Qed.
Lemma dx_step M d a b q : 0 <= M -> 0 <= q -> 4 * q <= INR (length a) + INR (length b) ->
  sqrt (dx M d a * dx M d a + dx M d b * dx M d b + sqrt q * (2 * (mu d * M)) * (sqrt q * (2 * (mu d * M)))) <= dx M (S d) (a ++ b).
Proof.
  intros HM Hq H. rewrite <- (sqrt_square (dx M (S d) (a ++ b))) by (now apply dx_pos). apply sqrt_le_1_alt. unfold dx. rewrite app_length, plus_INR. set (n1 := INR (length a)) in *. set (n2 := INR (length b)) in *.
  assert (n10 : 0 <= n1) by apply pos_INR. assert (n20 : 0 <= n2) by apply pos_INR. assert (Q : forall z, 0 <= z -> forall k, (k * (sqrt z * M)) * (k * (sqrt z * M)) = z * (k * k * (M * M))) by (intros z Hz k; rewrite <- (sq_sqrt z Hz) at 3; ring).
  rewrite !Q by lra. replace (sqrt q * (2 * (mu d * M)) * (sqrt q * (2 * (mu d * M)))) with (sqrt q * sqrt q * 4 * (mu d * mu d) * (M * M)) by ring. rewrite (sq_sqrt q Hq).
  pose proof (kap_step d) as KS. assert (MM : 0 <= M * M) by nra. pose proof (mu_pos _ _ _ RD d) as m0. assert (mm : 0 <= mu d * mu d) by nra.
  assert (B : q * 4 * (mu d * mu d) * (M * M) <= (n1 + n2) * (mu d * mu d) * (M * M)) by (apply Rmult_le_compat_r; [exact MM|]; apply Rmult_le_compat_r; [exact mm|lra]).
  assert (C : (n1 + n2) * ((kap d * kap d + mu d * mu d) * (M * M)) <= (n1 + n2) * (kap (S d) * kap (S d) * (M * M))) by (apply Rmult_le_compat_l; [lra|]; apply Rmult_le_compat_r; [exact MM|exact KS]). lra.
Qed.
Lemma root3 S1 S2 q z : 0 <= S1 -> 0 <= S2 -> 0 <= q -> sqrt (sqrt S1 * sqrt S1 + sqrt S2 * sqrt S2 + sqrt q * Rabs z * (sqrt q * Rabs z)) = sqrt (S1 + S2 + q * (z * z)).
Proof.
  intros H1 H2 Hq. rewrite !sq_sqrt by assumption. f_equal. f_equal. replace (sqrt q * Rabs z * (sqrt q * Rabs z)) with ((sqrt q * sqrt q) * (Rabs z * Rabs z)) by ring. rewrite (sq_sqrt q Hq), <- Rabs_mult, (Rabs_pos_eq (z * z)) by apply Rle_0_sqr. reflexivity.
Qed.
Lemma combine2_inv d a b r1 r2 : a <> [] -> b <> [] -> fmt (INR (length a)) -> fmt (INR (length b)) -> fmt (INR (length a + length b)) ->
  bounded a -> bounded b -> inv2 d a r1 -> inv2 d b r2 -> inv2 (S d) (a ++ b) (combf r1 r2).
Proof.
  intros Ha Hb FA FB FN BA BB. destruct (bounded_pos a Ha BA) as [M0 N0]. destruct BA as [BXA BYA], BB as [BXB BYB]. destruct r1 as [[[x1 y1] c1] k1], r2 as [[[x2 y2] c2] k2]. intros (-> & Ex1 & Ey1 & C1) (-> & Ex2 & Ey2 & C2).
  unfold cov_combine, fl_nat. rewrite !(Id _ FA), !(Id _ FB), !(Id _ FN).
  destruct (avg_abs Mx (xs a) (xs_nil a Ha) BXA) as [_ AX1]. destruct (avg_abs Mx (xs b) (xs_nil b Hb) BXB) as [_ AX2]. destruct (avg_abs My (ys a) (ys_nil a Ha) BYA) as [_ AY1]. destruct (avg_abs My (ys b) (ys_nil b Hb) BYB) as [_ AY2].
  pose proof (plen_pos a Ha) as P1. pose proof (plen_pos b Hb) as P2.
  unfold inv2. split; [symmetry; apply app_length|]. rewrite plus_INR, xs_app, ys_app. rewrite (avg_app (xs a) (xs b)) by now apply xs_nil. rewrite (avg_app (ys a) (ys b)) by now apply ys_nil. rewrite !xs_len, !ys_len.
  split; [now apply (mean_combine _ _ _ RD)|]. split; [now apply (mean_combine _ _ _ RD)|].
  pose proof (scodev_app a b Ha Hb) as SA. cbv zeta in SA. rewrite SA. destruct (q_err _ _ _ RD _ _ P1 P2) as (_ & Qp & _ & Q4).
  pose proof (cross_err d _ _ x1 x2 y1 y2 _ _ _ _ P1 P2 M0 N0 Ex1 Ex2 Ey1 Ey2) as CE. cbv zeta in CE.
  pose proof (sdev2_app (xs a) (xs b) (xs_nil a Ha) (xs_nil b Hb)) as SX. pose proof (sdev2_app (ys a) (ys b) (ys_nil a Ha) (ys_nil b Hb)) as SY. cbv zeta in SX, SY. rewrite <- xs_app, !xs_len in SX. rewrite <- ys_app, !ys_len in SY.
  set (n1 := INR (length a)) in *. set (n2 := INR (length b)) in *. set (q := n1 * n2 / (n1 + n2)) in *. set (X := avg (xs a) - avg (xs b)) in *. set (Y := avg (ys a) - avg (ys b)) in *.
  set (t := fl_mul rnd (fl_mul rnd _ _) _) in *. set (G := g (67 + 2 * d)) in *. assert (G1 : 1 <= G) by apply (gge _ _ _ RD).
  set (s1 := sx a) in *. set (s2 := sx b) in *. set (t1 := sy a) in *. set (t2 := sy b) in *. set (p1 := dx Mx d a) in *. set (p2 := dx Mx d b) in *. set (q1 := dx My d a) in *. set (q2 := dx My d b) in *.
  set (s3 := sqrt q * Rabs X) in *. set (t3 := sqrt q * Rabs Y) in *. set (p3 := sqrt q * (2 * (mu d * Mx))) in *. set (q3 := sqrt q * (2 * (mu d * My))) in *.
  pose proof (mu_pos _ _ _ RD d) as mu0. pose proof (sqrt_pos q) as sq0.
  assert (z1 : 0 <= s1) by apply sqrt_pos. assert (z2 : 0 <= s2) by apply sqrt_pos. assert (z3 : 0 <= s3) by (apply Rmult_le_pos; [exact sq0|apply Rabs_pos]).
  assert (z4 : 0 <= t1) by apply sqrt_pos. assert (z5 : 0 <= t2) by apply sqrt_pos. assert (z6 : 0 <= t3) by (apply Rmult_le_pos; [exact sq0|apply Rabs_pos]).
  assert (z7 : 0 <= p1) by (now apply dx_pos). assert (z8 : 0 <= p2) by (now apply dx_pos). assert (z9 : 0 <= p3) by (apply Rmult_le_pos; [exact sq0|]; apply Rmult_le_pos; [lra|now apply Rmult_le_pos]).
  assert (w7 : 0 <= q1) by (now apply dx_pos). assert (w8 : 0 <= q2) by (now apply dx_pos). assert (w9 : 0 <= q3) by (apply Rmult_le_pos; [exact sq0|]; apply Rmult_le_pos; [lra|now apply Rmult_le_pos]).
  assert (CE' : Rabs (t - q * (X * Y)) <= errc G s3 t3 p3 q3) by (eapply Rle_trans; [exact CE|]; apply errc_mono; try lra; [apply (gge _ _ _ RD)|apply (gmon _ _ _ RD); lia]).
  pose proof (dx_step Mx d a b q M0 ltac:(lra) ltac:(unfold n1, n2 in *; lra)) as DX. pose proof (dx_step My d a b q N0 ltac:(lra) ltac:(unfold n1, n2 in *; lra)) as DY. fold p1 p2 p3 in DX. fold q1 q2 q3 in DY.
  set (p := dx Mx (S d) (a ++ b)) in *. set (qq := dx My (S d) (a ++ b)) in *.
  destruct (bilinear G s1 s2 s3 p1 p2 p3 t1 t2 t3 q1 q2 q3 p qq G1 z1 z2 z3 z4 z5 z6 z7 z8 z9 w7 w8 w9 DX DY) as [BL1 BL2]. cbv zeta in BL1, BL2.
  assert (RX : sqrt (s1 * s1 + s2 * s2 + s3 * s3) = sx (a ++ b)) by (unfold s1, s2, s3, sx; rewrite root3 by (apply dev2_pos || lra); now rewrite SX).
  assert (RY : sqrt (t1 * t1 + t2 * t2 + t3 * t3) = sy (a ++ b)) by (unfold t1, t2, t3, sy; rewrite root3 by (apply dev2_pos || lra); now rewrite SY).
  rewrite RX, RY in BL1, BL2. set (s := sx (a ++ b)) in *. set (tt := sy (a ++ b)) in *.
  assert (Z1 : Rabs c1 <= G * ((s1 + p1) * (t1 + q1))) by (apply (errc_size G s1 t1 p1 q1 c1 (scodev a)); auto; apply scodev_le).
  assert (Z2 : Rabs c2 <= G * ((s2 + p2) * (t2 + q2))) by (apply (errc_size G s2 t2 p2 q2 c2 (scodev b)); auto; apply scodev_le).
  assert (Z3 : Rabs t <= G * ((s3 + p3) * (t3 + q3))).
  { apply (errc_size G s3 t3 p3 q3 t (q * (X * Y))); auto. rewrite !Rabs_mult, (Rabs_pos_eq q) by lra. unfold s3, t3. rewrite <- (sq_sqrt q) at 1 by lra. apply Req_le. ring. }
  set (PQ1 := (s1 + p1) * (t1 + q1)) in *. set (PQ2 := (s2 + p2) * (t2 + q2)) in *. set (PQ3 := (s3 + p3) * (t3 + q3)) in *. set (PQ := (s + p) * (tt + qq)) in *.
  assert (o1 : 0 <= PQ1) by (apply Rmult_le_pos; lra). assert (o2 : 0 <= PQ2) by (apply Rmult_le_pos; lra). assert (o3 : 0 <= PQ3) by (apply Rmult_le_pos; lra).
  assert (R1 : forall z, Rabs (rnd z - z) <= u * Rabs z). { intros z. pose proof (rstep _ _ _ RD 0 z z (Rabs z) ltac:(lra) ltac:(apply (self _ _ _ RD); lra)) as Q. replace (g 1 - 1) with u in Q by (unfold FloatArithFacts.g; ring). exact Q. }
  unfold fl_add. set (e := rnd (c1 + c2)). pose proof (R1 (c1 + c2)) as E1. fold e in E1. pose proof (R1 (e + t)) as E2.
  assert (Y1 : Rabs (c1 + c2) <= G * (PQ1 + PQ2)) by (eapply Rle_trans; [apply Rabs_triang|]; lra).
  assert (Y2 : Rabs (e - (c1 + c2)) <= u * (G * (PQ1 + PQ2))) by (eapply Rle_trans; [exact E1|]; apply Rmult_le_compat_l; [apply Hu|exact Y1]).
  assert (Y3 : Rabs (e + t) <= (1 + u) * (G * (PQ1 + PQ2)) + G * PQ3).
  { replace (e + t) with ((e - (c1 + c2)) + (c1 + c2) + t) by ring. eapply Rle_trans; [apply Rabs_triang|]. eapply Rle_trans; [apply Rplus_le_compat_r, Rabs_triang|]. lra. }
  assert (u0 : 0 <= u) by apply Hu.
  assert (Y4 : Rabs (e + t) <= (1 + u) * (G * PQ)).
  { eapply Rle_trans; [exact Y3|]. assert (G * PQ3 <= (1 + u) * (G * PQ3)) by (assert (0 <= G * PQ3) by (apply Rmult_le_pos; lra); nra). assert ((1 + u) * (G * (PQ1 + PQ2 + PQ3)) <= (1 + u) * (G * PQ)) by (apply Rmult_le_compat_l; [lra|]; apply Rmult_le_compat_l; lra). lra. }
  assert (Y5 : Rabs (rnd (e + t) - (e + t)) <= u * ((1 + u) * (G * PQ))) by (eapply Rle_trans; [exact E2|]; now apply Rmult_le_compat_l).
  assert (Y6 : u * (G * (PQ1 + PQ2)) <= u * (G * PQ)) by (apply Rmult_le_compat_l; [exact u0|]; apply Rmult_le_compat_l; lra).
  replace (rnd (e + t) - (scodev a + scodev b + q * (X * Y))) with ((rnd (e + t) - (e + t)) + (e - (c1 + c2)) + (c1 - scodev a) + (c2 - scodev b) + (t - q * (X * Y))) by ring.
  eapply Rle_trans; [apply Rabs_triang|]. eapply Rle_trans; [apply Rplus_le_compat_r, Rabs_triang|]. eapply Rle_trans; [apply Rplus_le_compat_r, Rplus_le_compat_r, Rabs_triang|]. eapply Rle_trans; [apply Rplus_le_compat_r, Rplus_le_compat_r, Rplus_le_compat_r, Rabs_triang|].
  replace (67 + 2 * S d)%nat with (2 + (67 + 2 * d))%nat by lia. rewrite (gplus u 2). fold G. replace (g 2) with ((1 + u) * (1 + u)) by (unfold FloatArithFacts.g; ring).
  unfold errc in C1, C2, CE' |- *. fold PQ1 in C1. fold PQ2 in C2. fold PQ3 in CE'. fold PQ.
  assert (Y7 : (G - 1) * (PQ1 + PQ2 + PQ3) <= (G - 1) * PQ) by (apply Rmult_le_compat_l; lra).
  replace (((1 + u) * (1 + u) * G - 1) * PQ) with (u * ((1 + u) * (G * PQ)) + u * (G * PQ) + (G - 1) * PQ) by ring. lra.
Qed.
Lemma pairwise2_inv L : forall l, l <> [] -> (length l <= 64 * 2 ^ L)%nat -> Forall fmt (xs l) -> Forall fmt (ys l) -> (forall k, (k <= length l)%nat -> fmt (INR k)) -> bounded l ->
  inv2 L l (pairwise_accumulate 64 blockf combf l).
Proof.
  induction L as [|L IH]; intros l Hl HL HF HF' HN HB; destruct (bounded_pos l Hl HB) as [M0 N0];
    rewrite (pairwise_unfold 64 blockf combf l) by lia; destruct (Nat.leb_spec (length l) 64) as [H|H].
  - apply block2_inv; auto.
  - cbn in HL. lia.
  - apply (inv2_weaken 0); [lia|exact M0|exact N0|]. apply block2_inv; auto.
  - set (h := (length l / 2)%nat). pose proof (Nat.div_mod (length l) 2 ltac:(lia)) as DM. pose proof (Nat.mod_upper_bound (length l) 2 ltac:(lia)). fold h in DM. cbn [Nat.pow] in HL. clearbody h.
    rewrite <- (firstn_skipn h l) at 1. assert (L1 : length (firstn h l) = h) by (rewrite firstn_length; lia). assert (L2 : length (skipn h l) = (length l - h)%nat) by apply skipn_length.
    destruct HB as [HB1 HB2]. rewrite <- (firstn_skipn h l), xs_app in HF, HB1. rewrite <- (firstn_skipn h l), ys_app in HF', HB2. apply Forall_app in HF, HF', HB1, HB2. destruct HF as [F1 F2], HF' as [F3 F4], HB1 as [B1 B2], HB2 as [B3 B4].
    assert (N1 : firstn h l <> []) by (intros E; rewrite E in L1; cbn in L1; lia). assert (N2 : skipn h l <> []) by (intros E; rewrite E in L2; cbn in L2; lia).
    apply combine2_inv; auto; try (apply HN; rewrite ?L1, ?L2; lia); try (split; assumption).
    + apply IH; auto; [lia| |split; assumption]. intros k Hk. apply HN. lia.
    + apply IH; auto; [lia| |split; assumption]. intros k Hk. apply HN. lia.
Qed.
Lemma errc_scale G s t p q i : 0 <= i -> errc G s t p q * (i * i) = errc G (s * i) (t * i) (p * i) (q * i).
Proof. intros _. unfold errc. ring. Qed.
Lemma cov_err L ddof a b : length a = length b -> (0 < Z.of_nat (length a) - ddof)%Z -> (length a <= 64 * 2 ^ L)%nat -> a <> [] -> Forall fmt a -> Forall fmt b -> (forall k, (k <= length a)%nat -> fmt (INR k)) ->
  fmt (IZR (Z.of_nat (length a) - ddof)) -> Forall (fun x => Rabs x <= Mx) a -> Forall (fun x => Rabs x <= My) b ->
  let n := INR (length a) in let nu := IZR (Z.of_nat (length a) - ddof) in
  exists v, r_covariance rnd nan inf ddof a b = Ok v /\
    Rabs (v - scodev (combine a b) / nu) <= errc (g (68 + 2 * L)) (sqrt (sdev2 a / nu)) (sqrt (sdev2 b / nu)) (kap L * (sqrt (n / nu) * Mx)) (kap L * (sqrt (n / nu) * My)).
Proof.
  intros Hab Hd HL Ha FA FB HN Hnu BA BB n nu.
  assert (XA : xs (combine a b) = a). { unfold xs. clear -Hab. revert b Hab. induction a as [|x a IH]; intros [|y b] H; try discriminate; [reflexivity|]. cbn in *. f_equal. apply IH. lia. }
  assert (YB : ys (combine a b) = b). { unfold ys. clear -Hab. revert b Hab. induction a as [|x a IH]; intros [|y b] H; try discriminate; [reflexivity|]. cbn in *. f_equal. apply IH. lia. }
  assert (LC : length (combine a b) = length a) by (rewrite combine_length; lia).
  assert (CN : combine a b <> []) by (intros E; rewrite E in LC; destruct a; [contradiction|discriminate]).
  unfold r_covariance, covariance, covariance_filter, require. rewrite (proj2 (Nat.eqb_eq _ _) Hab). replace (length a =? 0)%nat with false by (symmetry; apply Nat.eqb_neq; destruct a; [contradiction|discriminate]).
  unfold pairwise_accumulate2, require. rewrite (proj2 (Nat.eqb_eq _ _) Hab). cbn [bind].
  pose proof (pairwise2_inv L (combine a b) CN ltac:(lia) ltac:(now rewrite XA) ltac:(now rewrite YB) ltac:(now rewrite LC) ltac:(split; [now rewrite XA|now rewrite YB])) as IV.
  destruct (pairwise_accumulate 64 _ _ (combine a b)) as [[[m m'] c] k]. destruct IV as (-> & _ & _ & CE). rewrite LC. destruct (Z.leb_spec (Z.of_nat (length a) - ddof) 0) as [?|_]; [lia|]. cbn [bind omap fst]. eexists. split; [reflexivity|].
  unfold fl_quot, fl_int. rewrite (Id _ Hnu). fold nu. assert (nu0 : 0 < nu) by (apply IZR_lt; lia). assert (I0 : 0 < / nu) by (now apply Rinv_0_lt_compat).
  unfold sx, sy, dx in CE. rewrite XA, YB, LC in CE. fold n in CE. set (i := sqrt (/ nu)). assert (i0 : 0 <= i) by apply sqrt_pos. assert (ii : i * i = / nu) by (apply sq_sqrt; lra). assert (Ei : forall z, 0 <= z -> sqrt (z / nu) = sqrt z * i) by (intros z Hz; unfold Rdiv, i; apply sqrt_mult; lra).
  assert (n0 : 0 <= n) by apply pos_INR. rewrite !Ei by (apply dev2_pos || exact n0). set (s := sqrt (sdev2 a)) in *. set (t := sqrt (sdev2 b)) in *. set (G := g (67 + 2 * L)) in *. assert (G1 : 1 <= G) by apply (gge _ _ _ RD).
  destruct (bounded_pos (combine a b) CN ltac:(split; [now rewrite XA|now rewrite YB])) as [M0 N0]. pose proof (kap_pos L) as K0.
  set (p := kap L * (sqrt n * Mx)) in *. set (q := kap L * (sqrt n * My)) in *. assert (p0 : 0 <= p) by (unfold p; apply Rmult_le_pos; [exact K0|apply Rmult_le_pos; [apply sqrt_pos|exact M0]]). assert (q0 : 0 <= q) by (unfold q; apply Rmult_le_pos; [exact K0|apply Rmult_le_pos; [apply sqrt_pos|exact N0]]).
  replace (kap L * (sqrt n * i * Mx)) with (p * i) by (unfold p; ring). replace (kap L * (sqrt n * i * My)) with (q * i) by (unfold q; ring).
  assert (s0 : 0 <= s) by apply sqrt_pos. assert (t0 : 0 <= t) by apply sqrt_pos. pose proof (scodev_le (combine a b)) as SC. unfold sx, sy in SC. rewrite XA, YB in SC. fold s t in SC.
  set (C := scodev (combine a b)) in *. pose proof (errc_size G s t p q c C G1 s0 t0 p0 q0 SC CE) as CS.
  assert (E1 : Rabs (rnd (c / nu) - c / nu) <= u * Rabs (c / nu)). { pose proof (rstep _ _ _ RD 0 (c / nu) (c / nu) (Rabs (c / nu)) ltac:(lra) ltac:(apply (self _ _ _ RD); lra)) as Q. replace (g 1 - 1) with u in Q by (unfold FloatArithFacts.g; ring). exact Q. }
  assert (u0 : 0 <= u) by apply Hu. assert (AB : forall z, Rabs (z / nu) = Rabs z * / nu) by (intros z; unfold Rdiv; rewrite Rabs_mult, (Rabs_pos_eq (/ nu)); lra).
  replace (rnd (c / nu) - C / nu) with ((rnd (c / nu) - c / nu) + (c - C) / nu) by (field; lra). eapply Rle_trans; [apply Rabs_triang|]. rewrite AB in E1. rewrite AB.
  rewrite <- errc_scale by exact i0. rewrite ii. replace (68 + 2 * L)%nat with (1 + (67 + 2 * L))%nat by lia. rewrite (gplus u 1). fold G. replace (g 1) with (1 + u) by (unfold FloatArithFacts.g; ring).
  assert (B1 : u * (Rabs c * / nu) <= u * (G * ((s + p) * (t + q)) * / nu)) by (apply Rmult_le_compat_l; [exact u0|]; apply Rmult_le_compat_r; lra).
  assert (B2 : Rabs (c - C) * / nu <= errc G s t p q * / nu) by (apply Rmult_le_compat_r; lra). unfold errc in *.
  replace ((((1 + u) * G - 1) * ((s + p) * (t + q)) + (s * q + p * t + p * q)) * / nu) with (u * (G * ((s + p) * (t + q)) * / nu) + ((G - 1) * ((s + p) * (t + q)) + (s * q + p * t + p * q)) * / nu) by ring. lra.
Qed.
End Facts.
