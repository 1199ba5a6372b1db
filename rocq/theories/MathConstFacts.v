(** Facts about the Euler-Mascheroni constant (limit of 1 + 1/2 + ... + 1/n - ln n) and Apery's constant (sum of 1/n^3), for the
    constants of constants.hpp:22-27 modelled in Constants.v. *)
From Coq Require Import ZArith QArith Qreals Reals.
From Flocq Require Import Core.
From Verif Require Import Base Constants ConstFacts ConstFacts2 ConstFacts3.
From Coq Require Import Lra Psatz Lia.
Open Scope R_scope.
Set Implicit Arguments.

(** ** ln((1+u)/(1-u)) between its partial sums *)
Definition LA (u : R) : R := ln (1 + u) - ln (1 - u).
Fixpoint AS (J : nat) (u : R) : R := match J with O => 0 | S j => AS j u + 2 * u ^ (2 * j + 1) / INR (2 * j + 1) end.
Fixpoint DS (J : nat) (u : R) : R := match J with O => 0 | S j => DS j u + 2 * u ^ (2 * j) end.
Lemma DS_eq J u : u * u <> 1 -> DS J u = 2 * (1 - u ^ (2 * J)) / (1 - u * u).
Proof.
  intros H. induction J as [|j IH]; cbn [DS]; [cbn; field; lra|]. rewrite IH. replace (2 * S j)%nat with (S (S (2 * j))) by lia.
  cbn [pow]. field. lra.
Qed.
Lemma dAS J u : derivable_pt_lim (AS J) u (DS J u).
Proof.
  induction J as [|j IH]; cbn [AS DS]; [apply derivable_pt_lim_const|].
  apply (derivable_pt_lim_plus (AS j)); [exact IH|].
  assert (N : INR (2 * j + 1) <> 0) by (apply not_0_INR; lia).
  replace (2 * u ^ (2 * j)) with (2 / INR (2 * j + 1) * (INR (2 * j + 1) * u ^ Init.Nat.pred (2 * j + 1))) by (replace (Init.Nat.pred (2 * j + 1)) with (2 * j)%nat by lia; field; exact N).
  assert (D := derivable_pt_lim_scal (fun u => u ^ (2 * j + 1)) (2 / INR (2 * j + 1)) u _ (derivable_pt_lim_pow u (2 * j + 1))).
  unfold mult_real_fct in D. intros e He. destruct (D e He) as (dd & Hd). exists dd. intros h H1 H2. specialize (Hd h H1 H2).
  replace ((2 * (u + h) ^ (2 * j + 1) / INR (2 * j + 1) - 2 * u ^ (2 * j + 1) / INR (2 * j + 1)) / h) with
    ((2 / INR (2 * j + 1) * (u + h) ^ (2 * j + 1) - 2 / INR (2 * j + 1) * u ^ (2 * j + 1)) / h) by (unfold Rdiv; ring). exact Hd.
Qed.
Lemma dLA u : -1 < u < 1 -> derivable_pt_lim LA u (2 / (1 - u * u)).
Proof.
  intros H. replace (2 / (1 - u * u)) with (/ (1 + u) * (0 + 1) - / (1 - u) * (0 - 1)) by (field; nra).
  apply (derivable_pt_lim_minus (fun u => ln (1 + u)) (fun u => ln (1 - u))).
  - apply (derivable_pt_lim_comp (fun u => 1 + u) ln).
    + apply (derivable_pt_lim_plus (fun _ => 1) id); [apply derivable_pt_lim_const|apply derivable_pt_lim_id].
    + apply derivable_pt_lim_ln. lra.
  - apply (derivable_pt_lim_comp (fun u => 1 - u) ln).
    + apply (derivable_pt_lim_minus (fun _ => 1) id); [apply derivable_pt_lim_const|apply derivable_pt_lim_id].
    + apply derivable_pt_lim_ln. lra.
Qed.
Lemma AS_0 J : AS J 0 = 0.
Proof. induction J as [|j IH]; cbn [AS]; [reflexivity|]. rewrite IH, pow_i by lia. unfold Rdiv. ring. Qed.
Lemma LA_0 : LA 0 = 0.
Proof. unfold LA. rewrite Rplus_0_r, Rminus_0_r. ring. Qed.
Lemma LA_lower J v : 0 < v < 1 -> AS J v <= LA v.
Proof.
  intros H. destruct (MVT_cor2 (fun u => LA u - AS J u) (fun u => 2 / (1 - u * u) - DS J u) 0 v ltac:(lra)) as (c & E & Hc).
  - intros c Hc. apply (derivable_pt_lim_minus LA (AS J)); [apply dLA; lra|apply dAS].
  - rewrite AS_0, LA_0, DS_eq in E by nra. assert (Q : 0 <= 2 / (1 - c * c) - 2 * (1 - c ^ (2 * J)) / (1 - c * c)).
    { replace (2 / (1 - c * c) - 2 * (1 - c ^ (2 * J)) / (1 - c * c)) with (2 * c ^ (2 * J) * / (1 - c * c)) by (field; nra).
      apply Rmult_le_pos; [apply Rmult_le_pos; [lra|apply pow_le; lra]|]. left. apply Rinv_0_lt_compat. nra. }
    nra.
Qed.
Lemma LA_upper J v : 0 < v < 1 -> LA v <= AS J v + 2 * v ^ (2 * J + 1) / (INR (2 * J + 1) * (1 - v * v)).
Proof.
  intros H. set (k := / (1 - v * v)). assert (Pk : 0 < k) by (apply Rinv_0_lt_compat; nra).
  assert (N : INR (2 * J + 1) <> 0) by (apply not_0_INR; lia).
  destruct (MVT_cor2 (fun u => AS J u + k * (AS (S J) u - AS J u) - LA u) (fun u => DS J u + k * (DS (S J) u - DS J u) - 2 / (1 - u * u)) 0 v ltac:(lra)) as (c & E & Hc).
  - intros c Hc. apply (derivable_pt_lim_minus (fun u => AS J u + k * (AS (S J) u - AS J u)) LA); [|apply dLA; lra].
    apply (derivable_pt_lim_plus (AS J)); [apply dAS|]. apply (derivable_pt_lim_scal (fun u => AS (S J) u - AS J u)).
    apply (derivable_pt_lim_minus (AS (S J)) (AS J)); apply dAS.
  - rewrite !AS_0, LA_0 in E. cbn [DS AS] in E. rewrite DS_eq in E by nra.
    assert (Q : 0 <= 2 * (1 - c ^ (2 * J)) / (1 - c * c) + k * (2 * (1 - c ^ (2 * J)) / (1 - c * c) + 2 * c ^ (2 * J) - 2 * (1 - c ^ (2 * J)) / (1 - c * c)) - 2 / (1 - c * c)).
    { replace (2 * (1 - c ^ (2 * J)) / (1 - c * c) + k * (2 * (1 - c ^ (2 * J)) / (1 - c * c) + 2 * c ^ (2 * J) - 2 * (1 - c ^ (2 * J)) / (1 - c * c)) - 2 / (1 - c * c))
        with (2 * c ^ (2 * J) * (k - / (1 - c * c))) by (field; nra).
      apply Rmult_le_pos; [apply Rmult_le_pos; [lra|apply pow_le; lra]|]. assert (/ (1 - c * c) <= k) by (apply Rinv_le_contravar; nra). lra. }
    assert (Z : 2 * v ^ (2 * J + 1) / (INR (2 * J + 1) * (1 - v * v)) = k * (AS J v + 2 * v ^ (2 * J + 1) / INR (2 * J + 1) - AS J v)) by (unfold k; field; split; [exact N|nra]).
    rewrite Z. nra.
Qed.

(** ** The Euler-Mascheroni constant *)
Definition Hsum (n : nat) : R := sum_f_R0 (fun k => / INR (k + 1)) n.
Definition mid (n : nat) : R := INR n + 3 / 2.
Definition euler (g : R) : Prop := Un_cv (fun n => Hsum n - ln (INR (n + 1))) g.
Definition gL n := Hsum n - ln (mid n) - 1 / 24 * / mid n ^ 2 + 7 / 960 * / mid n ^ 4 - 31 / 8064 * / mid n ^ 6.
Definition gU n := gL n + 127 / 30720 * / mid n ^ 8.
Lemma mid_pos n : 0 < mid n.
Proof. unfold mid. pose proof (pos_INR n). lra. Qed.
Section Step.
Variable n : nat.
Let t := INR n + 2.
Let u := / (2 * t).
Lemma t_pos : 2 <= t. Proof. unfold t. pose proof (pos_INR n). lra. Qed.
Lemma u_pos : 0 < u <= 1 / 4.
Proof.
  pose proof t_pos. unfold u. split; [apply Rinv_0_lt_compat; lra|]. replace (1 / 4) with (/ (2 * 2)) by field. apply Rinv_le_contravar; lra.
Qed.
Lemma t_u : t = / (2 * u). Proof. unfold u. pose proof t_pos. field. lra. Qed.
Lemma mid_lo : mid n = (1 - u) / (2 * u).
Proof. unfold mid. pose proof u_pos. replace (INR n + 3 / 2) with (t - 1 / 2) by (unfold t; lra). rewrite t_u. field. lra. Qed.
Lemma mid_hi : mid (S n) = (1 + u) / (2 * u).
Proof. unfold mid. pose proof u_pos. rewrite S_INR. replace (INR n + 1 + 3 / 2) with (t + 1 / 2) by (unfold t; lra). rewrite t_u. field. lra. Qed.
Lemma Hsum_step : Hsum (S n) = Hsum n + 2 * u.
Proof.
  unfold Hsum. cbn [sum_f_R0]. f_equal. replace (INR (S n + 1)) with t by (unfold t; rewrite plus_INR, S_INR; cbn; lra). rewrite t_u. pose proof u_pos. field. lra.
Qed.
Lemma ln_step : ln (mid (S n)) - ln (mid n) = LA u.
Proof.
  pose proof u_pos. rewrite mid_lo, mid_hi. unfold Rdiv. rewrite !ln_mult by (try apply Rinv_0_lt_compat; lra). unfold LA. ring.
Qed.
Lemma pows w : 0 <= w <= 1 / 16 -> (0 <= w ^ 2 <= w / 16) /\ (0 <= w ^ 3 <= w / 16) /\ (0 <= w ^ 4 <= w / 16) /\ (0 <= w ^ 5 <= w / 16) /\ (0 <= w ^ 6 <= w / 16) /\ (0 <= w ^ 7 <= w / 16) /\ (0 <= w ^ 8 <= w / 16).
Proof.
  intros H. assert (A : forall k, 0 <= w ^ S k <= w).
  { induction k as [|k IH]; [cbn; lra|]. change (w ^ S (S k)) with (w * w ^ S k). nra. }
  assert (B : forall k, 0 <= w ^ S (S k) <= w / 16) by (intros k; change (w ^ S (S k)) with (w * w ^ S k); pose proof (A k); nra).
  repeat split; apply B.
Qed.
Lemma AS6 (v : R) : AS 6 v = 2 * v ^ 1 / 1 + 2 * v ^ 3 / 3 + 2 * v ^ 5 / 5 + 2 * v ^ 7 / 7 + 2 * v ^ 9 / 9 + 2 * v ^ 11 / 11.
Proof. cbn [AS]. rewrite !INR_IZR_INZ. cbn [Z.of_nat Nat.add Nat.mul Pos.of_succ_nat Pos.succ]. field. Qed.
Lemma pos_quot (a b k : R) : 0 < b -> 0 <= a -> 0 <= a / b.
Proof. intros Hb Ha. apply Rmult_le_pos; [exact Ha|]. left. now apply Rinv_0_lt_compat. Qed.
Lemma gL_poly : 0 <= 2 * u - (2 * u ^ 1 / 1 + 2 * u ^ 3 / 3 + 2 * u ^ 5 / 5 + 2 * u ^ 7 / 7 + 2 * u ^ 9 / 9 + 2 * u ^ 11 / 11 + 2 * u ^ 13 / (13 * (1 - u * u))) + (-1 / 24) * (/ ((1 + u) / (2 * u)) ^ 2 - / ((1 - u) / (2 * u)) ^ 2) + (7 / 960) * (/ ((1 + u) / (2 * u)) ^ 4 - / ((1 - u) / (2 * u)) ^ 4) + (-31 / 8064) * (/ ((1 + u) / (2 * u)) ^ 6 - / ((1 - u) / (2 * u)) ^ 6).
Proof.
  pose proof u_pos as Hu. set (w := u * u). assert (Hw : 0 <= w <= 1 / 16) by (unfold w; nra).
  match goal with |- 0 <= ?e => replace e with (u ^ 9 * ((254 / 15) * w ^ 0 + (-404 / 165) * w ^ 1 + (3958 / 3003) * w ^ 2 + (-2972 / 45045) * w ^ 3 + (1184 / 15015) * w ^ 4 + (-424 / 3003) * w ^ 5 + (128 / 1287) * w ^ 6 + (-4 / 143) * w ^ 7) / (1 - w) ^ 6) by (unfold w; field; repeat split; nra) end.
  apply pos_quot; [exact 0|apply pow_lt; lra|]. apply Rmult_le_pos; [apply pow_le; lra|]. destruct (pows Hw) as (A2 & A3 & A4 & A5 & A6 & A7 & A8).
  rewrite pow_O, pow_1. lra.
Qed.
Lemma gU_poly : 2 * u - (2 * u ^ 1 / 1 + 2 * u ^ 3 / 3 + 2 * u ^ 5 / 5 + 2 * u ^ 7 / 7 + 2 * u ^ 9 / 9 + 2 * u ^ 11 / 11) + (-1 / 24) * (/ ((1 + u) / (2 * u)) ^ 2 - / ((1 - u) / (2 * u)) ^ 2) + (7 / 960) * (/ ((1 + u) / (2 * u)) ^ 4 - / ((1 - u) / (2 * u)) ^ 4) + (-31 / 8064) * (/ ((1 + u) / (2 * u)) ^ 6 - / ((1 - u) / (2 * u)) ^ 6) + (127 / 30720) * (/ ((1 + u) / (2 * u)) ^ 8 - / ((1 - u) / (2 * u)) ^ 8) <= 0.
Proof.
  pose proof u_pos as Hu. set (w := u * u). assert (Hw : 0 <= w <= 1 / 16) by (unfold w; nra).
  match goal with |- ?e <= 0 => replace e with (- (u ^ 11 * (- ((-5110 / 33) * w ^ 0 + (-36664 / 385) * w ^ 1 + (-80252 / 3465) * w ^ 2 + (2356 / 495) * w ^ 3 + (-2846 / 495) * w ^ 4 + (20254 / 3465) * w ^ 5 + (-2494 / 693) * w ^ 6 + (122 / 99) * w ^ 7 + (-2 / 11) * w ^ 8)) / (1 - w) ^ 8)) by (unfold w; field; repeat split; nra) end.
  rewrite <- Ropp_0. apply Ropp_le_contravar. apply pos_quot; [exact 0|apply pow_lt; lra|]. apply Rmult_le_pos; [apply pow_le; lra|]. destruct (pows Hw) as (A2 & A3 & A4 & A5 & A6 & A7 & A8).
  rewrite pow_O, pow_1. lra.
Qed.
Lemma zL_poly : 0 <= 8 * u ^ 3 + (1 / 2) * (/ ((1 + u) / (2 * u)) ^ 2 - / ((1 - u) / (2 * u)) ^ 2) + (-1 / 8) * (/ ((1 + u) / (2 * u)) ^ 4 - / ((1 - u) / (2 * u)) ^ 4) + (7 / 96) * (/ ((1 + u) / (2 * u)) ^ 6 - / ((1 - u) / (2 * u)) ^ 6) + (-31 / 384) * (/ ((1 + u) / (2 * u)) ^ 8 - / ((1 - u) / (2 * u)) ^ 8).
Proof.
  pose proof u_pos as Hu. set (w := u * u). assert (Hw : 0 <= w <= 1 / 16) by (unfold w; nra).
  match goal with |- 0 <= ?e => replace e with (u ^ 11 * ((3048 / 1) * w ^ 0 + (1792 / 1) * w ^ 1 + (1520 / 3) * w ^ 2 + (-64 / 1) * w ^ 3 + (8 / 1) * w ^ 4) / (1 - w) ^ 8) by (unfold w; field; repeat split; nra) end.
  apply pos_quot; [exact 0|apply pow_lt; lra|]. apply Rmult_le_pos; [apply pow_le; lra|]. destruct (pows Hw) as (A2 & A3 & A4 & A5 & A6 & A7 & A8).
  rewrite pow_O, pow_1. lra.
Qed.
Lemma zU_poly : 8 * u ^ 3 + (1 / 2) * (/ ((1 + u) / (2 * u)) ^ 2 - / ((1 - u) / (2 * u)) ^ 2) + (-1 / 8) * (/ ((1 + u) / (2 * u)) ^ 4 - / ((1 - u) / (2 * u)) ^ 4) + (7 / 96) * (/ ((1 + u) / (2 * u)) ^ 6 - / ((1 - u) / (2 * u)) ^ 6) <= 0.
Proof.
  pose proof u_pos as Hu. set (w := u * u). assert (Hw : 0 <= w <= 1 / 16) by (unfold w; nra).
  match goal with |- ?e <= 0 => replace e with (- (u ^ 9 * (- ((-992 / 3) * w ^ 0 + (72 / 1) * w ^ 1 + (-48 / 1) * w ^ 2 + (8 / 1) * w ^ 3)) / (1 - w) ^ 6)) by (unfold w; field; repeat split; nra) end.
  rewrite <- Ropp_0. apply Ropp_le_contravar. apply pos_quot; [exact 0|apply pow_lt; lra|]. apply Rmult_le_pos; [apply pow_le; lra|]. destruct (pows Hw) as (A2 & A3 & A4 & A5 & A6 & A7 & A8).
  rewrite pow_O, pow_1. lra.
Qed.
Lemma gL_step : gL n <= gL (S n).
Proof.
  pose proof u_pos as Hu. pose proof gL_poly as P. pose proof (@LA_upper 6 u ltac:(lra)) as Q. rewrite AS6 in Q. pose proof ln_step as L.
  replace (INR (2 * 6 + 1)) with 13 in Q by (cbn; lra). unfold gL. rewrite Hsum_step, mid_hi, mid_lo in *. cbn [Nat.mul Nat.add] in Q. lra.
Qed.
Lemma gU_step : gU (S n) <= gU n.
Proof.
  pose proof u_pos as Hu. pose proof gU_poly as P. pose proof (@LA_lower 6 u ltac:(lra)) as Q. rewrite AS6 in Q. pose proof ln_step as L.
  unfold gU, gL. rewrite Hsum_step, mid_hi, mid_lo in *. lra.
Qed.
End Step.

Lemma mono_up (f : nat -> R) : (forall n, f n <= f (S n)) -> forall n k, f n <= f (n + k)%nat.
Proof. intros H n k. induction k as [|k IH]; [rewrite Nat.add_0_r; lra|]. rewrite Nat.add_succ_r. pose proof (H (n + k)%nat). lra. Qed.
(** a limit is at least what the sequence is up to K/(m+1) *)
Lemma lim_ge (D : nat -> R) g a K n : 0 <= K -> Un_cv D g -> (forall k, a <= D (n + k)%nat + K / INR (n + k + 1)) -> a <= g.
Proof.
  intros HK H P. destruct (Rle_or_lt a g) as [Q|Q]; [exact Q|exfalso]. set (e := (a - g) / 2). assert (He : 0 < e) by (unfold e; lra).
  destruct (H e He) as (N & HN). destruct (archimed (K / e)) as (U & _).
  set (M := Z.to_nat (up (K / e))). specialize (HN (n + (N + M))%nat ltac:(lia)). specialize (P (N + M)%nat).
  unfold R_dist in HN. apply Rabs_def2 in HN.
  assert (Z : K / INR (n + (N + M) + 1) <= e).
  { assert (G : K / e <= INR (n + (N + M) + 1)).
    { apply Rle_trans with (INR M); [|apply le_INR; lia]. unfold M. rewrite INR_IZR_INZ, Z2Nat.id; [lra|].
      apply le_IZR. apply Rle_trans with (K / e); [|lra]. apply Rmult_le_pos; [exact HK|left; now apply Rinv_0_lt_compat]. }
    assert (p : 0 < INR (n + (N + M) + 1)) by (apply lt_0_INR; lia).
    apply (Rmult_le_reg_r (INR (n + (N + M) + 1))); [exact p|]. unfold Rdiv. rewrite Rmult_assoc, Rinv_l, Rmult_1_r by lra.
    apply (Rmult_le_compat_l e) in G; [|lra]. unfold Rdiv in G. rewrite (Rmult_comm K), <- Rmult_assoc, Rinv_r in G by lra. lra. }
  unfold e in *. lra.
Qed.
Lemma ln_le_sub x : 0 < x -> ln x <= x - 1.
Proof.
  intros H. destruct (Req_dec x 1) as [->|N]; [rewrite ln_1; lra|]. pose proof (exp_ineq1 (ln x)) as Q.
  rewrite exp_ln in Q by exact H. assert (ln x <> 0) by (intros E; apply N; rewrite <- (exp_ln x H), E; apply exp_0). specialize (Q H0). lra.
Qed.
Lemma ln_div x y : 0 < x -> 0 < y -> ln (x / y) = ln x - ln y.
Proof. intros Hx Hy. unfold Rdiv. rewrite ln_mult, ln_Rinv by (try apply Rinv_0_lt_compat; assumption). ring. Qed.
Lemma ln_mono x y : 0 < x -> x <= y -> ln x <= ln y.
Proof. intros H [L|E]; [left; now apply ln_increasing|subst; lra]. Qed.
Lemma mid_inv m k : (1 <= k)%nat -> 0 <= / mid m ^ k <= 1 / INR (m + 1).
Proof.
  intros Hk. assert (M : 1 <= INR (m + 1)) by (apply (le_INR 1); lia). assert (L : INR (m + 1) <= mid m) by (unfold mid; rewrite plus_INR; cbn; lra).
  assert (P : INR (m + 1) <= mid m ^ k).
  { destruct k as [|k]; [lia|]. cbn [pow]. assert (1 <= mid m ^ k) by (apply pow_R1_Rle; lra). nra. }
  split; [left; apply Rinv_0_lt_compat; lra|]. unfold Rdiv. rewrite Rmult_1_l. apply Rinv_le_contravar; lra.
Qed.
Definition Dseq (n : nat) : R := Hsum n - ln (INR (n + 1)).
Lemma ln_mid m : 0 <= ln (mid m) - ln (INR (m + 1)) <= 1 / INR (m + 1).
Proof.
  assert (M : 1 <= INR (m + 1)) by (apply (le_INR 1); lia). assert (L : mid m = INR (m + 1) + 1 / 2) by (unfold mid; rewrite plus_INR; cbn; lra).
  split; [pose proof (@ln_mono (INR (m + 1)) (mid m) ltac:(lra) ltac:(lra)); lra|].
  rewrite <- ln_div by lra. eapply Rle_trans; [apply ln_le_sub; apply Rdiv_lt_0_compat; lra|]. rewrite L.
  replace ((INR (m + 1) + 1 / 2) / INR (m + 1) - 1) with (1 / 2 * (1 / INR (m + 1))) by (field; lra).
  assert (0 <= 1 / INR (m + 1)) by (left; apply Rdiv_lt_0_compat; lra). lra.
Qed.
Lemma euler_bounds g n : euler g -> gL n <= g <= gU n.
Proof.
  intros H. split.
  - apply (@lim_ge Dseq g (gL n) 1 n ltac:(lra) H). intros k. pose proof (mono_up gL gL_step n k) as M.
    set (m := (n + k)%nat) in *. unfold gL in M at 2. unfold Dseq. pose proof (ln_mid m). pose proof (@mid_inv m 2 ltac:(lia)).
    pose proof (@mid_inv m 4 ltac:(lia)). pose proof (@mid_inv m 6 ltac:(lia)). lra.
  - assert (Q : - gU n <= - g); [|lra].
    apply (@lim_ge (fun n => - Dseq n) (- g) (- gU n) 3 n ltac:(lra)).
    + apply (CV_opp Dseq g H).
    + intros k. pose proof (mono_up (fun n => - gU n) (fun n => Ropp_le_contravar _ _ (gU_step n)) n k) as M. cbn beta in M.
      set (m := (n + k)%nat) in *. assert (E : gU m = gU m) by reflexivity. unfold gU at 2 in E. unfold gL in E. unfold Dseq. pose proof (ln_mid m). pose proof (@mid_inv m 2 ltac:(lia)).
      pose proof (@mid_inv m 4 ltac:(lia)). pose proof (@mid_inv m 6 ltac:(lia)). pose proof (@mid_inv m 8 ltac:(lia)). lra.
Qed.
Lemma euler_exists : exists g, euler g.
Proof.
  destruct (decreasing_cv Dseq) as (g & Hg).
  - intros n. unfold Dseq, Hsum. cbn [sum_f_R0]. replace (S n + 1)%nat with (n + 2)%nat by lia.
    assert (A : 0 < INR (n + 1)) by (apply lt_0_INR; lia). assert (B : INR (n + 2) = INR (n + 1) + 1) by (rewrite !plus_INR; cbn; lra).
    pose proof (@ln_le_sub (INR (n + 1) / INR (n + 2)) ltac:(apply Rdiv_lt_0_compat; lra)) as Q. rewrite ln_div in Q by lra.
    replace (INR (n + 1) / INR (n + 2) - 1) with (- / INR (n + 2)) in Q by (rewrite B; field; lra). lra.
  - exists (- (gL 0 - 1)). intros x (n & ->). unfold opp_seq. pose proof (mono_up gL gL_step 0 n) as M. cbn [Nat.add] in M. unfold gL in M at 2. unfold Dseq.
    pose proof (ln_mid n). pose proof (@mid_inv n 2 ltac:(lia)). pose proof (@mid_inv n 4 ltac:(lia)). pose proof (@mid_inv n 6 ltac:(lia)).
    assert (1 / INR (n + 1) <= 1). { assert (1 <= INR (n + 1)) by (apply (le_INR 1); lia). unfold Rdiv. rewrite Rmult_1_l, <- Rinv_1. apply Rinv_le_contravar; lra. } lra.
  - now exists g.
Qed.

(** ** Apery's constant *)
Definition Zsum (n : nat) : R := sum_f_R0 (fun k => / INR (k + 1) ^ 3) n.
Definition apery (z : R) : Prop := infinite_sum (fun k => / INR (k + 1) ^ 3) z.
Definition zU n := Zsum n + 1 / 2 * / mid n ^ 2 - 1 / 8 * / mid n ^ 4 + 7 / 96 * / mid n ^ 6.
Definition zL n := zU n - 31 / 384 * / mid n ^ 8.
Lemma Zsum_step n : Zsum (S n) = Zsum n + 8 * (/ (2 * (INR n + 2))) ^ 3.
Proof.
  unfold Zsum. cbn [sum_f_R0]. f_equal. replace (INR (S n + 1)) with (INR n + 2) by (rewrite plus_INR, S_INR; cbn; lra). pose proof (pos_INR n). field. lra.
Qed.
Lemma zL_step n : zL n <= zL (S n).
Proof. pose proof (zL_poly n) as P. unfold zL, zU. rewrite Zsum_step, mid_hi, mid_lo in *. lra. Qed.
Lemma zU_step n : zU (S n) <= zU n.
Proof. pose proof (zU_poly n) as P. unfold zU. rewrite Zsum_step, mid_hi, mid_lo in *. lra. Qed.
Lemma apery_bounds z n : apery z -> zL n <= z <= zU n.
Proof.
  intros H. assert (H' : Un_cv Zsum z) by exact H. split.
  - apply (@lim_ge Zsum z (zL n) 1 n ltac:(lra) H'). intros k. pose proof (mono_up zL zL_step n k) as M.
    set (m := (n + k)%nat) in *. assert (E : zL m = zL m) by reflexivity. unfold zL at 2 in E. unfold zU in E. pose proof (@mid_inv m 2 ltac:(lia)).
    pose proof (@mid_inv m 4 ltac:(lia)). pose proof (@mid_inv m 6 ltac:(lia)). pose proof (@mid_inv m 8 ltac:(lia)). lra.
  - assert (Q : - zU n <= - z); [|lra].
    apply (@lim_ge (fun n => - Zsum n) (- z) (- zU n) 3 n ltac:(lra)).
    + apply (CV_opp Zsum z H').
    + intros k. pose proof (mono_up (fun n => - zU n) (fun n => Ropp_le_contravar _ _ (zU_step n)) n k) as M. cbn beta in M.
      set (m := (n + k)%nat) in *. unfold zU in M at 2. pose proof (@mid_inv m 2 ltac:(lia)).
      pose proof (@mid_inv m 4 ltac:(lia)). pose proof (@mid_inv m 6 ltac:(lia)). lra.
Qed.
Lemma apery_exists : exists z, apery z.
Proof.
  destruct (growing_cv Zsum) as (z & Hz).
  - intros n. rewrite Zsum_step. assert (0 < (/ (2 * (INR n + 2))) ^ 3) by (apply pow_lt, Rinv_0_lt_compat; pose proof (pos_INR n); lra). lra.
  - exists (zU 0 + 1). intros x (n & ->). pose proof (mono_up (fun n => - zU n) (fun n => Ropp_le_contravar _ _ (zU_step n)) 0 n) as M. cbn beta in M. cbn [Nat.add] in M.
    unfold zU in M at 2. pose proof (@mid_inv n 2 ltac:(lia)). pose proof (@mid_inv n 4 ltac:(lia)). pose proof (@mid_inv n 6 ltac:(lia)).
    assert (1 / INR (n + 1) <= 1). { assert (1 <= INR (n + 1)) by (apply (le_INR 1); lia). unfold Rdiv. rewrite Rmult_1_l, <- Rinv_1. apply Rinv_le_contravar; lra. } lra.
  - now exists z.
Qed.

(** ** Digits *)
Fixpoint hq (p : positive) (n : nat) : Q := match n with O => 1%Q | S m => Qred (hq p m + / inject_Z (Z.of_nat (S n) ^ Z.pos p))%Q end.
Lemma hq_R p n : Q2R (hq p n) = sum_f_R0 (fun k => / INR (k + 1) ^ Pos.to_nat p) n.
Proof.
  induction n as [|n IH]; [cbn [hq sum_f_R0 Nat.add INR]; rewrite pow1, Rinv_1; unfold Q2R; simpl; field|].
  cbn [hq sum_f_R0]. rewrite (Qeq_eqR _ _ (Qred_correct _)), Q2R_plus, IH. f_equal. replace (S n + 1)%nat with (S (S n)) by lia.
  assert (P : (0 < Z.of_nat (S (S n)) ^ Z.pos p)%Z) by (apply Z.pow_pos_nonneg; lia).
  rewrite Q2R_inv by (unfold Qeq, inject_Z; cbn [Qnum Qden]; lia). f_equal. unfold Q2R, inject_Z; cbn [Qnum Qden]. rewrite Rinv_1, Rmult_1_r.
  rewrite INR_IZR_INZ, pow_IZR. f_equal. now rewrite positive_nat_Z.
Qed.
Fixpoint qpow (u : Q) (n : nat) : Q := match n with O => 1%Q | S m => (u * qpow u m)%Q end.
Fixpoint asq (J : nat) (u : Q) : Q := match J with O => 0%Q | S j => Qred (asq j u + inject_Z 2 * qpow u (2 * j + 1) / inject_Z (Z.of_nat (2 * j + 1)))%Q end.
Lemma Q2R_Z z : Q2R (inject_Z z) = IZR z.
Proof. unfold Q2R, inject_Z; cbn [Qnum Qden]. rewrite Rinv_1. ring. Qed.
Lemma Q2R_pow u n : Q2R (qpow u n) = Q2R u ^ n.
Proof. induction n as [|n IH]; cbn [qpow pow]; [unfold Q2R; simpl; field|]. now rewrite Q2R_mult, IH. Qed.
Lemma asq_R J u : Q2R (asq J u) = AS J (Q2R u).
Proof.
  induction J as [|j IH]; cbn [asq AS]; [unfold Q2R; simpl; field|]. rewrite (Qeq_eqR _ _ (Qred_correct _)), Q2R_plus, IH. f_equal.
  assert (~ inject_Z (Z.of_nat (2 * j + 1)) == 0)%Q by (unfold Qeq, inject_Z; cbn [Qnum Qden]; lia).
  unfold Qdiv, Rdiv. rewrite Q2R_mult, Q2R_inv, Q2R_mult, !Q2R_Z, Q2R_pow, <- INR_IZR_INZ by assumption. reflexivity.
Qed.

Lemma mid120 : mid 120 = 243 / 2.
Proof. unfold mid. rewrite INR_IZR_INZ. cbn [Z.of_nat Pos.of_succ_nat Pos.succ]. lra. Qed.
Lemma ln_243 : 4 * AS 24 (/ 3) + 5 * AS 24 (/ 5) <= ln (243 / 2) <= 4 * AS 24 (/ 3) + 5 * AS 24 (/ 5) + / 1000000000000000000000.
Proof.
  assert (E : ln (243 / 2) = 4 * LA (/ 3) + 5 * LA (/ 5)).
  { unfold LA. replace (1 + / 3) with (2 * 2 / 3) by field. replace (1 - / 3) with (2 / 3) by field. replace (1 + / 5) with (2 * 3 / 5) by field. replace (1 - / 5) with (2 * 2 / 5) by field.
    replace 243 with (3 * 3 * 3 * 3 * 3) by ring. rewrite ?ln_div, ?ln_mult by lra. ring. }
  pose proof (@LA_lower 24 (/ 3) ltac:(lra)). pose proof (@LA_lower 24 (/ 5) ltac:(lra)).
  pose proof (@LA_upper 24 (/ 3) ltac:(lra)) as U3. pose proof (@LA_upper 24 (/ 5) ltac:(lra)) as U5.
  replace (INR (2 * 24 + 1)) with 49 in * by (rewrite INR_IZR_INZ; reflexivity). rewrite E. split; [lra|].
  replace (2 * (/ 3) ^ (2 * 24 + 1) / (49 * (1 - / 3 * / 3))) with (2 * / 3 ^ 49 * (9 / (49 * 8))) in U3 by (rewrite pow_inv; cbn [Nat.mul Nat.add]; field; apply pow_nonzero; lra).
  replace (2 * (/ 5) ^ (2 * 24 + 1) / (49 * (1 - / 5 * / 5))) with (2 * / 5 ^ 49 * (25 / (49 * 24))) in U5 by (rewrite pow_inv; cbn [Nat.mul Nat.add]; field; apply pow_nonzero; lra).
  rewrite !pow_IZR in U3, U5. change (3 ^ Z.of_nat 49)%Z with 239299329230617529590083%Z in U3. change (5 ^ Z.of_nat 49)%Z with 17763568394002504646778106689453125%Z in U5. lra.
Qed.
Lemma Q2R_le_dec p q : Qle_bool p q = true -> Q2R p <= Q2R q.
Proof. intros H. apply Qle_Rle. now apply Qle_bool_iff. Qed.
Definition gl_q : Q := (hq 1 120 - (inject_Z 4 * asq 24 (1 # 3) + inject_Z 5 * asq 24 (1 # 5)) - (1 # 24) * (4 # 59049) + (7 # 960) * (16 # 3486784401) - (31 # 8064) * (64 # 205891132094649))%Q.
Lemma gl_R : Q2R gl_q - / 1000000000000000000000 <= gL 120 <= Q2R gl_q.
Proof.
  pose proof ln_243 as L. unfold gL, gl_q. rewrite mid120.
  rewrite Q2R_minus, Q2R_plus, !Q2R_minus, Q2R_plus, !Q2R_mult, !Q2R_Z, !asq_R, hq_R.
  replace (sum_f_R0 (fun k => / INR (k + 1) ^ Pos.to_nat 1) 120) with (Hsum 120) by (apply sum_eq; intros i _; change (Pos.to_nat 1) with 1%nat; now rewrite pow_1).
  replace (Q2R (1 # 3)) with (/ 3) by (unfold Q2R; cbn [Qnum Qden]; lra). replace (Q2R (1 # 5)) with (/ 5) by (unfold Q2R; cbn [Qnum Qden]; lra).
  unfold Q2R. cbn [Qnum Qden].
  replace (/ (243 / 2) ^ 2) with (4 / 59049) by field. replace (/ (243 / 2) ^ 4) with (16 / 3486784401) by field. replace (/ (243 / 2) ^ 6) with (64 / 205891132094649) by field. lra.
Qed.
Lemma gl_digits : Qle_bool (5772156649015328605 # 10000000000000000000) gl_q = true /\ Qle_bool gl_q (5772156649015328607 # 10000000000000000000) = true.
Proof. vm_compute. split; reflexivity. Qed.
Lemma euler_digits g : euler g -> Rabs (g - 5772156649015328606 / 10000000000000000000) <= 1 / 1000000000000000000.
Proof.
  intros H. pose proof (euler_bounds 120 H) as [L U]. pose proof gl_R. destruct gl_digits as [A B]. apply Q2R_le_dec in A. apply Q2R_le_dec in B.
  unfold gU in U. rewrite mid120 in U. replace (/ (243 / 2) ^ 8) with (256 / 12157665459056928801) in U by field.
  unfold Q2R in A at 1, B at 2. cbn [Qnum Qden] in A, B. apply Rabs_le. lra.
Qed.
Definition zu_q : Q := (hq 3 120 + (1 # 2) * (4 # 59049) - (1 # 8) * (16 # 3486784401) + (7 # 96) * (64 # 205891132094649))%Q.
Lemma zu_R : zU 120 = Q2R zu_q.
Proof.
  unfold zU, zu_q. rewrite mid120, Q2R_plus, Q2R_minus, Q2R_plus, !Q2R_mult, hq_R.
  change (Pos.to_nat 3) with 3%nat. fold (Zsum 120). unfold Q2R. cbn [Qnum Qden].
  replace (/ (243 / 2) ^ 2) with (4 / 59049) by field. replace (/ (243 / 2) ^ 4) with (16 / 3486784401) by field. replace (/ (243 / 2) ^ 6) with (64 / 205891132094649) by field. lra.
Qed.
Lemma zu_digits : Qle_bool (12020569031595942870 # 10000000000000000000) zu_q = true /\ Qle_bool zu_q (12020569031595942872 # 10000000000000000000) = true.
Proof. vm_compute. split; reflexivity. Qed.
Lemma apery_digits z : apery z -> Rabs (z - 12020569031595942854 / 10000000000000000000) <= 3 / 1000000000000000000.
Proof.
  intros H. pose proof (apery_bounds 120 H) as [L U]. destruct zu_digits as [A B]. apply Q2R_le_dec in A. apply Q2R_le_dec in B. rewrite <- zu_R in A, B.
  unfold zL in L. rewrite mid120 in L. replace (/ (243 / 2) ^ 8) with (256 / 12157665459056928801) in L by field.
  unfold Q2R in A, B. cbn [Qnum Qden] in A, B. apply Rabs_le. lra.
Qed.
