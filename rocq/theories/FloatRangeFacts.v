From Coq Require Import List Arith ZArith Reals Bool.
From Flocq Require Import Core.
From Verif Require Import Base Functional FunctionalProofs PairwiseError FloatArith FloatArithFacts.
From Coq Require Import Lra Psatz Lia.
Import ListNotations.
Open Scope nat_scope.

Section Facts.
Variables (u eta : R) (fmt : R -> Prop) (rnd : R -> R).
Hypothesis RD : rounding u eta fmt rnd.
Let Hu := u_pos _ _ _ _ RD.
Let He := eta_pos _ _ _ _ RD.
Local Open Scope R_scope.
Notation g := (g u).

(** *** iota *)
Lemma iota_length n : forall v, length (r_iota_from rnd v n) = n.
Proof. induction n; intros v; cbn; [reflexivity|now rewrite IHn]. Qed.
Lemma iota_exact_from n : forall s, (forall i, (i < s + n)%nat -> fmt (INR i)) -> r_iota_from rnd (INR s) n = map INR (seq s n).
Proof.
  induction n as [|n IH]; intros s H; [reflexivity|]. cbn [r_iota_from seq map]. f_equal. destruct n as [|n]; [reflexivity|].
  unfold fl_add. rewrite <- S_INR, (rd_id _ _ _ _ RD) by (apply H; lia). apply IH. intros i Hi. apply H. lia.
Qed.
Lemma iota_exact n : (forall i, (i < n)%nat -> fmt (INR i)) -> r_iota rnd n = map INR (seq 0 n).
Proof. intros H. unfold r_iota. exact (iota_exact_from n 0 H). Qed.
(** when adding 1 to M is lost, the values stop at M *)
Lemma iota_stuck M n : (forall i, (i <= M)%nat -> fmt (INR i)) -> rnd (INR M + 1) = INR M -> forall s, (s <= M)%nat ->
  r_iota_from rnd (INR s) n = map (fun i => INR (Nat.min i M)) (seq s n).
Proof.
  intros HF HM. induction n as [|n IH]; intros s Hs; [reflexivity|]. cbn [r_iota_from seq map]. rewrite (Nat.min_l s M) by exact Hs. f_equal. unfold fl_add.
  destruct (Nat.eq_dec s M) as [->|N].
  - rewrite HM, IH by lia. assert (Q : forall n a b, (M <= a)%nat -> (M <= b)%nat -> map (fun i => INR (Nat.min i M)) (seq a n) = map (fun i => INR (Nat.min i M)) (seq b n)).
    { clear. induction n as [|n IH]; intros a b Ha Hb; [reflexivity|]. cbn [seq map]. rewrite !Nat.min_r by assumption. f_equal. apply IH; lia. }
    apply Q; lia.
  - rewrite <- S_INR, (rd_id _ _ _ _ RD) by (apply HF; lia). apply IH. lia.
Qed.
(** the values never decrease and are not negative, whatever the length *)
Lemma iota_mono n : forall v, fmt v -> 0 <= v -> forall i x, nth_error (r_iota_from rnd v n) i = Some x -> v <= x /\ fmt x /\
  (forall y, nth_error (r_iota_from rnd v n) (S i) = Some y -> x <= y).
Proof.
  induction n as [|n IH]; intros v Fv Hv i x E; [destruct i; discriminate E|]. cbn [r_iota_from] in *.
  assert (V1 : v <= fl_add rnd v 1). { unfold fl_add. rewrite <- (rd_id _ _ _ _ RD v Fv) at 1. apply (rd_mono _ _ _ _ RD). lra. }
  destruct i as [|i]; cbn [nth_error] in *.
  - injection E as <-. split; [lra|]. split; [exact Fv|]. intros y Ey. destruct n as [|n]; [discriminate Ey|]. cbn in Ey. injection Ey as <-. exact V1.
  - destruct (IH (fl_add rnd v 1) (rd_fmt _ _ _ _ RD _) ltac:(lra) i x E) as (A & B & C). split; [lra|]. split; [exact B|exact C].
Qed.

(** *** linspace *)
Lemma linspace_length a b n : length (r_linspace rnd a b n) = n.
Proof. unfold r_linspace. destruct n as [|[|n]]; [reflexivity..|]. rewrite !transform1_map, !map_length. apply iota_length. Qed.
Lemma linspace_nth a b n i x : (2 <= n)%nat -> nth_error (r_linspace rnd a b n) i = Some x ->
  exists t, nth_error (r_iota rnd n) i = Some t /\ x = rnd (a + rnd (rnd (rnd (b - a) / rnd (INR (n - 1))) * t)).
Proof.
  intros H E. destruct n as [|[|n]]; try lia. unfold r_linspace in E. rewrite !transform1_map, !nth_error_map in E.
  destruct (nth_error (r_iota rnd (S (S n))) i) as [t|]; [|discriminate E]. exists t. split; [reflexivity|]. injection E as <-. reflexivity.
Qed.
Lemma linspace_first a b n : fmt a -> (1 <= n)%nat -> nth_error (r_linspace rnd a b n) 0 = Some a.
Proof.
  intros Fa Hn. destruct n as [|[|n]]; [lia|reflexivity|]. unfold r_linspace. rewrite !transform1_map. unfold r_iota. cbn [r_iota_from map nth_error]. unfold fl_add, fl_mul. rewrite Rmult_0_r.
  rewrite (rd_id _ _ _ _ RD 0 (rd_0 _ _ _ _ RD)), Rplus_0_r, (rd_id _ _ _ _ RD a Fa). reflexivity.
Qed.
Lemma rnd_nonneg x : 0 <= x -> 0 <= rnd x.
Proof. intros H. rewrite <- (rd_id _ _ _ _ RD 0 (rd_0 _ _ _ _ RD)). now apply (rd_mono _ _ _ _ RD). Qed.
Lemma rnd_nonpos x : x <= 0 -> rnd x <= 0.
Proof. intros H. rewrite <- (rd_id _ _ _ _ RD 0 (rd_0 _ _ _ _ RD)). now apply (rd_mono _ _ _ _ RD). Qed.
Lemma div_nonneg x y : 0 <= x -> 0 <= y -> 0 <= x / y.
Proof. intros Hx [Hy|<-]; unfold Rdiv; [pose proof (Rinv_0_lt_compat _ Hy); nra|rewrite Rinv_0; lra]. Qed.
Lemma linspace_mono a b n i x y : fmt a -> nth_error (r_linspace rnd a b n) i = Some x -> nth_error (r_linspace rnd a b n) (S i) = Some y ->
  (a <= b -> a <= x <= y) /\ (b <= a -> y <= x <= a).
Proof.
  intros Fa Ex Ey. assert (N2 : (S i < n)%nat) by (rewrite <- (linspace_length a b n); apply nth_error_Some; congruence).
  destruct (linspace_nth a b n i x ltac:(lia) Ex) as (t & It & ->). destruct (linspace_nth a b n (S i) y ltac:(lia) Ey) as (s & Is & ->).
  destruct (iota_mono n 0 (rd_0 _ _ _ _ RD) (Rle_refl 0) i t It) as (T0 & _ & TS). specialize (TS s Is).
  set (step := rnd (rnd (b - a) / rnd (INR (n - 1)))). pose proof (rnd_nonneg _ (pos_INR (n - 1))) as HN.
  assert (M := rd_mono _ _ _ _ RD). split; intros Hab.
  - assert (S0 : 0 <= step). { apply rnd_nonneg, div_nonneg; [apply rnd_nonneg; lra|exact HN]. }
    split; [|apply M, Rplus_le_compat_l, M; nra]. rewrite <- (rd_id _ _ _ _ RD a Fa) at 1. apply M. pose proof (rnd_nonneg (step * t)). nra.
  - assert (S0 : step <= 0).
    { apply rnd_nonpos. pose proof (rnd_nonpos (b - a) ltac:(lra)) as Q. pose proof (div_nonneg (- rnd (b - a)) (rnd (INR (n - 1))) ltac:(lra) HN) as D.
      unfold Rdiv in *. rewrite <- Ropp_mult_distr_l in D. lra. }
    split; [apply M, Rplus_le_compat_l, M; nra|]. rewrite <- (rd_id _ _ _ _ RD a Fa) at 2. apply M. pose proof (rnd_nonpos (step * t)). nra.
Qed.
Lemma linspace_err a b n i x : fmt a -> fmt b -> (2 <= n)%nat -> (forall j, (j < n)%nat -> fmt (INR j)) ->
  (forall c d, fmt c -> fmt d -> Rabs (rnd (c - d) - (c - d)) <= u * Rabs (c - d)) ->
  nth_error (r_linspace rnd a b n) i = Some x ->
  Rabs (x - (a + INR i / INR (n - 1) * (b - a))) <= (g 4 - 1) * (Rabs a + INR i / INR (n - 1) * Rabs (b - a)) + ((1 + u) * (1 + u) * INR i + (1 + u)) * eta.
Proof.
  intros Fa Fb H2 HF HS E. destruct (linspace_nth a b n i x H2 E) as (t & It & ->).
  assert (Hi : (i < n)%nat) by (rewrite <- (linspace_length a b n); apply nth_error_Some; congruence).
  rewrite iota_exact in It by exact HF. rewrite nth_error_map in It. rewrite (nth_error_nth' (seq 0 n) 0%nat) in It by (rewrite seq_length; exact Hi). rewrite seq_nth in It by exact Hi. cbn in It. injection It as <-.
  rewrite (rd_id _ _ _ _ RD (INR (n - 1))) by (apply HF; lia). set (N := INR (n - 1)). assert (HN : 0 < / N) by (apply Rinv_0_lt_compat, lt_0_INR; lia).
  pose proof (pos_INR i) as Ii. set (I := INR i) in *. set (D := b - a) in *.
  assert (E1 : Rabs (rnd D - D) <= (g 1 - 1) * Rabs D) by (unfold FloatArithFacts.g; cbn [pow]; replace ((1 + u) * 1 - 1) with u by ring; apply HS; assumption).
  assert (E2 : Rabs (rnd (rnd D / N) - D / N) <= (g 2 - 1) * Rabs (D / N) + eta).
  { eapply Rle_trans; [apply (rnd_step u eta fmt rnd RD 1 (rnd D / N) (D / N) (Rabs (D / N)) 0); [lra|lra|]|lra]. unfold Rdiv. rewrite <- Rmult_minus_distr_r, !Rabs_mult, (Rabs_right (/ N)) by lra.
    rewrite Rplus_0_r, <- Rmult_assoc. apply Rmult_le_compat_r; [lra|exact E1]. }
  set (q := rnd (rnd D / N)) in *.
  assert (E3 : Rabs (rnd (q * I) - I / N * D) <= (g 3 - 1) * (I / N * Rabs D) + (1 + u) * (I * eta) + eta).
  { replace (I / N * Rabs D) with (Rabs (I / N * D)) by (unfold Rdiv; rewrite !Rabs_mult, (Rabs_right I), (Rabs_right (/ N)) by lra; ring).
    apply (rnd_step u eta fmt rnd RD 2); [lra|nra|]. replace (q * I - I / N * D) with (I * (q - D / N)) by (unfold Rdiv; ring). rewrite Rabs_mult, (Rabs_right I) by lra.
    replace (I / N * D) with (I * (D / N)) by (unfold Rdiv; ring). rewrite Rabs_mult, (Rabs_right I) by lra. nra. }
  set (p := rnd (q * I)) in *. set (E' := (1 + u) * (I * eta) + eta) in *.
  assert (HE' : 0 <= E') by (unfold E'; pose proof (Rmult_le_pos I eta Ii He); pose proof (Rmult_le_pos (1 + u) (I * eta) ltac:(lra) ltac:(lra)); lra).
  set (A := Rabs a + I / N * Rabs D). assert (HX : Rabs (a + I / N * D) <= A).
  { unfold A. eapply Rle_trans; [apply Rabs_triang|]. rewrite Rabs_mult. unfold Rdiv. rewrite Rabs_mult, (Rabs_right I), (Rabs_right (/ N)) by lra. lra. }
  assert (E4 : Rabs (a + p - (a + I / N * D)) <= (g 3 - 1) * A + E').
  { replace (a + p - (a + I / N * D)) with (p - I / N * D) by ring. eapply Rle_trans; [exact E3|]. unfold A, E'. pose proof (g_ge u eta fmt rnd RD 3). pose proof (Rabs_pos a). nra. }
  pose proof (rd_add _ _ _ _ RD a p Fa (rd_fmt _ _ _ _ RD _)) as E5.
  assert (Hap : Rabs (a + p) <= g 3 * A + E'). { replace (a + p) with ((a + I / N * D) + (a + p - (a + I / N * D))) by ring. eapply Rle_trans; [apply Rabs_triang|]. lra. }
  replace (rnd (a + p) - (a + I / N * D)) with ((rnd (a + p) - (a + p)) + (a + p - (a + I / N * D))) by ring. eapply Rle_trans; [apply Rabs_triang|].
  pose proof (Rmult_le_compat_l u _ _ Hu Hap) as M. fold A. rewrite (gS u 3). unfold E' in *. nra.
Qed.

(** *** arange *)
Lemma arange_ok a b step : step <> 0 -> exists n, r_arange rnd a b step = Ok (map (fun x => rnd (x * step + a)) (r_iota rnd n)) /\
  ((a < b /\ step < 0) \/ (b < a /\ 0 < step) -> n = 0%nat) /\
  (~ ((a < b /\ step < 0) \/ (b < a /\ 0 < step)) -> INR n <= Rabs (rnd (rnd (b - a) / step)) < INR n + 1).
Proof.
  intros Hs. unfold r_arange. set (c := (_ || _)%bool).
  assert (C : c = true <-> (a < b /\ step < 0) \/ (b < a /\ 0 < step)).
  { unfold c. destruct (Rlt_dec a b), (Rlt_dec step 0), (Rlt_dec b a), (Rlt_dec 0 step); cbn; split; intros; try discriminate; try tauto; try lra. }
  destruct c.
  - exists 0%nat. split; [now rewrite transform1_map|]. split; [reflexivity|]. intros N. tauto.
  - destruct (Req_EM_T step 0); [contradiction|]. unfold fl_quot, fl_sub. set (q := Rabs _). exists (Z.to_nat (Ztrunc q)). split; [now rewrite transform1_map|].
    split; [intros H; apply C in H; discriminate H|]. intros _. assert (Q : 0 <= q) by apply Rabs_pos. rewrite Ztrunc_floor by exact Q.
    assert (F : (0 <= Zfloor q)%Z) by (apply Zfloor_lub; exact Q). rewrite INR_IZR_INZ, Z2Nat.id by exact F. pose proof (Zfloor_lb q). pose proof (Zfloor_ub q). lra.
Qed.
End Facts.
