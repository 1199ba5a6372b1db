(** The real numbers denoted by root_ratios. *)
From Verif Require Import Base Arith ArithFacts.
From Coq Require Import ZArith Znumtheory Zpow_facts Lia List Reals.
From Coq Require Import Lra Psatz.
Open Scope nat_scope.
Set Implicit Arguments.

(** (num / den) ^ (1 / root) *)
Definition rr_val (x : rr) : R := Rpower (IZR (rr_num x) / IZR (rr_den x)) (/ IZR (rr_root x)).

Lemma IZR_pos z : (0 < z)%Z -> (0 < IZR z)%R.
Proof. intros H. apply (IZR_lt 0). exact H. Qed.

Lemma Rdiv_pos a b : (0 < a)%R -> (0 < b)%R -> (0 < a / b)%R.
Proof. intros. apply Rmult_lt_0_compat; [assumption|apply Rinv_0_lt_compat; assumption]. Qed.

Lemma Rpower_1b a : (0 < a)%R -> Rpower a 1 = a.
Proof. apply Rpower_1. Qed.

Lemma Rpower_div_distr a b c : (0 < a)%R -> (0 < b)%R -> (Rpower (a / b) c = Rpower a c / Rpower b c)%R.
Proof.
  intros Ha Hb. unfold Rdiv.
  unfold Rpower. rewrite ln_mult by (try assumption; apply Rinv_0_lt_compat; assumption).
  rewrite ln_Rinv by assumption. rewrite <- exp_Ropp, <- exp_plus. f_equal. ring.
Qed.

Lemma IZR_pow_Rpower a k : (0 < a)%Z -> (0 <= k)%Z -> IZR (a ^ k) = Rpower (IZR a) (IZR k).
Proof.
  intros Ha Hk. rewrite <- (Z2Nat.id k) by assumption.
  rewrite <- pow_IZR, <- INR_IZR_INZ, Rpower_pow; [reflexivity|apply IZR_pos; assumption].
Qed.

Lemma mk_rr_wf a b r : (0 < a)%Z -> (0 < b)%Z -> (0 < r)%Z -> rr_wf (mk_rr a b r).
Proof.
  intros Ha Hb Hr. unfold mk_rr, rr_wf. cbn [rr_num rr_den rr_root].
  rewrite !Z.sgn_pos, !Z.abs_eq by lia. rewrite !Z.mul_1_l.
  pose proof (Z.gcd_nonneg a b). assert (G : (Z.gcd a b <> 0)%Z) by (intros E; apply Z.gcd_eq_0 in E; lia).
  destruct (Z.gcd_divide_l a b) as [p Hp]. destruct (Z.gcd_divide_r a b) as [q Hq].
  assert (Ep : (a / Z.gcd a b = p)%Z) by (rewrite Hp at 1; apply Z.div_mul; exact G).
  assert (Eq : (b / Z.gcd a b = q)%Z) by (rewrite Hq at 1; apply Z.div_mul; exact G).
  repeat split; try (rewrite ?Ep, ?Eq; nia).
  apply Z.gcd_div_gcd; [exact G|reflexivity].
Qed.

Lemma mk_rr_quotient a b r : (0 < a)%Z -> (0 < b)%Z ->
  (IZR (rr_num (mk_rr a b r)) / IZR (rr_den (mk_rr a b r)) = IZR a / IZR b)%R.
Proof.
  intros Ha Hb. unfold mk_rr. cbn [rr_num rr_den].
  rewrite !Z.sgn_pos, !Z.abs_eq by lia. rewrite !Z.mul_1_l.
  pose proof (Z.gcd_nonneg a b). assert (G : (Z.gcd a b <> 0)%Z) by (intros E; apply Z.gcd_eq_0 in E; lia).
  destruct (Z.gcd_divide_l a b) as [p Hp]. destruct (Z.gcd_divide_r a b) as [q Hq].
  set (g := Z.gcd a b) in *. clearbody g.
  rewrite Hp, Hq. rewrite !Z.div_mul by exact G. rewrite !mult_IZR.
  assert (0 < p)%Z by nia. assert (0 < q)%Z by nia.
  field. split; apply not_0_IZR; lia.
Qed.
Lemma mk_rr_val a b r : (0 < a)%Z -> (0 < b)%Z -> rr_val (mk_rr a b r) = Rpower (IZR a / IZR b) (/ IZR r).
Proof. intros Ha Hb. unfold rr_val. rewrite mk_rr_quotient by assumption. reflexivity. Qed.

Lemma prime_factors_root n fuel t k : (1 <= n)%Z -> (1 <= k)%Z -> prime_factors fuel n = Some (Ok t) ->
  is_exact_root t k = true -> (1 <= compute_root t k)%Z /\ (compute_root t k ^ k = n)%Z.
Proof.
  intros Hn Hk H E. destruct (prime_factors_sound _ Hn H) as [F [-> [G [S P]]]].
  pose proof (proj1 (is_exact_root_table n Hk G) E) as E2. rewrite compute_root_table by assumption.
  split; [apply root_prod_pos; assumption|]. rewrite root_prod_pow by assumption. exact P.
Qed.

Lemma rr_root_impl_val fuel x k z : rr_wf x -> (1 <= k)%Z -> rr_root_impl fuel x k = Some z ->
  rr_wf z /\ rr_val z = Rpower (rr_val x) (/ IZR k).
Proof.
  intros [W1 [W2 [W3 W4]]] Hk. unfold rr_root_impl.
  destruct (prime_factors fuel (rr_num x)) as [[qf| | |]|] eqn:EQ; try discriminate.
  destruct (prime_factors fuel (rr_den x)) as [[pf| | |]|] eqn:EP; try discriminate.
  assert (V : Rpower (rr_val x) (/ IZR k) = Rpower (IZR (rr_num x) / IZR (rr_den x)) (/ IZR (rr_root x * k))).
  { unfold rr_val. rewrite Rpower_mult. f_equal. rewrite mult_IZR, Rinv_mult. reflexivity. }
  rewrite V. clear V.
  destruct (is_exact_root qf (rr_root x * k) && is_exact_root pf (rr_root x * k)) eqn:E; intros [= <-].
  - apply andb_true_iff in E. destruct E as [E1 E2].
    destruct (@prime_factors_root (rr_num x) fuel qf (rr_root x * k)) as [A1 A2]; try assumption; try nia.
    destruct (@prime_factors_root (rr_den x) fuel pf (rr_root x * k)) as [B1 B2]; try assumption; try nia.
    split; [apply mk_rr_wf; lia|]. rewrite mk_rr_val by lia.
    rewrite <- A2, <- B2. rewrite !IZR_pow_Rpower by nia.
    rewrite <- Rpower_div_distr by (apply IZR_pos; lia).
    rewrite Rpower_mult. rewrite Rinv_r by (apply not_0_IZR; nia).
    replace (/ 1)%R with 1%R by lra. reflexivity.
  - split; [apply mk_rr_wf; nia|]. apply mk_rr_val; assumption.
Qed.

Lemma rr_multiply_val fuel x y z : rr_wf x -> rr_wf y -> rr_multiply fuel x y = Some z ->
  rr_wf z /\ rr_val z = (rr_val x * rr_val y)%R.
Proof.
  intros Wx Wy. destruct Wx as [W1 [W2 [W3 W4]]]. destruct Wy as [V1 [V2 [V3 V4]]]. unfold rr_multiply.
  destruct (Z.eqb_spec (rr_root x) 1) as [E1|E1]; [destruct (Z.eqb_spec (rr_root y) 1) as [E2|E2]|]; cbn [andb].
  { intros [= <-]. split; [apply mk_rr_wf; nia|]. rewrite mk_rr_val by nia. unfold rr_val. rewrite E1, E2.
    replace (/ 1)%R with 1%R by lra.
    rewrite !Rpower_1; try (apply Rdiv_pos; apply IZR_pos; nia). rewrite !mult_IZR. field.
    split; apply not_0_IZR; lia. }
  all: set (G := Z.gcd (rr_root x) (rr_root y)).
  all: assert (GP : (0 < G)%Z) by
    (pose proof (Z.gcd_nonneg (rr_root x) (rr_root y)); destruct (Z.eq_dec G 0) as [E|]; [apply Z.gcd_eq_0 in E; lia|fold G in H; lia]).
  all: destruct (Z.gcd_divide_l (rr_root x) (rr_root y)) as [r1 Hr1];
       destruct (Z.gcd_divide_r (rr_root x) (rr_root y)) as [r2 Hr2]; fold G in Hr1, Hr2.
  all: assert (Q1 : Z.quot (rr_root x) G = r1) by (rewrite Hr1; apply Z.quot_mul; lia).
  all: assert (Q2 : Z.quot (rr_root y) G = r2) by (rewrite Hr2; apply Z.quot_mul; lia).
  all: rewrite Q1, Q2; assert (P1 : (0 < r1)%Z) by nia; assert (P2 : (0 < r2)%Z) by nia.
  all: rewrite !ipower_eq by lia; intros H.
  all: assert (A1 : (0 < rr_num x ^ r2)%Z) by (apply Z.pow_pos_nonneg; lia);
       assert (A2 : (0 < rr_num y ^ r1)%Z) by (apply Z.pow_pos_nonneg; lia);
       assert (A3 : (0 < rr_den x ^ r2)%Z) by (apply Z.pow_pos_nonneg; lia);
       assert (A4 : (0 < rr_den y ^ r1)%Z) by (apply Z.pow_pos_nonneg; lia).
  all: apply rr_root_impl_val in H; [|apply mk_rr_wf; nia|lia].
  all: destruct H as [Wz Vz]; split; [exact Wz|]; rewrite Vz, mk_rr_val by nia.
  all: rewrite Rinv_1, Rpower_1 by (unfold Rpower; apply exp_pos).
  all: unfold rr_val; rewrite !mult_IZR, !IZR_pow_Rpower by lia.
  all: assert (N1 : (0 < IZR (rr_num x))%R) by (apply IZR_pos; lia);
       assert (N2 : (0 < IZR (rr_num y))%R) by (apply IZR_pos; lia);
       assert (N3 : (0 < IZR (rr_den x))%R) by (apply IZR_pos; lia);
       assert (N4 : (0 < IZR (rr_den y))%R) by (apply IZR_pos; lia).
  all: rewrite !Rpower_div_distr by (try assumption; apply Rmult_lt_0_compat; unfold Rpower; apply exp_pos).
  all: rewrite <- !Rpower_mult_distr by (unfold Rpower; apply exp_pos).
  all: rewrite !Rpower_mult.
  all: assert (X1 : (IZR r2 * / (IZR G * IZR r1 * IZR r2) = / IZR (rr_root x))%R) by
    (rewrite Hr1, mult_IZR; field; repeat split; apply not_0_IZR; lia).
  all: assert (X2 : (IZR r1 * / (IZR G * IZR r1 * IZR r2) = / IZR (rr_root y))%R) by
    (rewrite Hr2, mult_IZR; field; repeat split; apply not_0_IZR; lia).
  all: rewrite X1, X2; unfold Rdiv; rewrite Rinv_mult; ring.
Qed.

Lemma rr_val_pos x : (0 < rr_val x)%R.
Proof. unfold rr_val, Rpower. apply exp_pos. Qed.

Lemma rr_inv_val y : rr_wf y -> rr_wf (mk_rr (rr_den y) (rr_num y) (rr_root y)) /\
  rr_val (mk_rr (rr_den y) (rr_num y) (rr_root y)) = (/ rr_val y)%R.
Proof.
  intros [V1 [V2 [V3 V4]]]. split; [apply mk_rr_wf; assumption|]. rewrite mk_rr_val by assumption.
  unfold rr_val. rewrite !Rpower_div_distr by (apply IZR_pos; lia). field.
  split; unfold Rpower; apply Rgt_not_eq, exp_pos.
Qed.

Lemma rr_divide_val fuel x y z : rr_wf x -> rr_wf y -> rr_divide fuel x y = Some z ->
  rr_wf z /\ rr_val z = (rr_val x / rr_val y)%R.
Proof.
  intros Wx Wy H. destruct (rr_inv_val Wy) as [W V]. unfold rr_divide in H.
  apply rr_multiply_val in H; [|assumption|assumption]. rewrite V in H. exact H.
Qed.

Lemma rr_power_val fuel x N : rr_wf x -> forall z, rr_power fuel x N = Some z ->
  rr_wf z /\ rr_val z = (rr_val x ^ N)%R.
Proof.
  intros Wx. induction N as [|N IH]; cbn [rr_power pow]; intros z H.
  - change (Some (RR 1 1 1) = Some z) in H. assert (z = RR 1 1 1) by congruence. subst z. split; [repeat split; lia|].
    unfold rr_val. cbn [rr_num rr_den rr_root]. replace (1 / 1)%R with 1%R by lra. 
    replace (/ 1)%R with 1%R by lra. apply Rpower_1. lra.
  - destruct (rr_power fuel x N) as [y|] eqn:E; [|discriminate]. destruct (IH y eq_refl) as [Wy Vy].
    apply rr_multiply_val in H; [|assumption|assumption]. rewrite Vy in H. exact H.
Qed.

(** Same root, same value: same type. *)
Lemma rr_canonical x y : rr_wf x -> rr_wf y -> rr_root x = rr_root y -> rr_val x = rr_val y -> x = y.
Proof.
  intros [W1 [W2 [W3 W4]]] [V1 [V2 [V3 V4]]] ER EV.
  assert (N1 : (0 < IZR (rr_num x))%R) by (apply IZR_pos; lia).
  assert (N2 : (0 < IZR (rr_num y))%R) by (apply IZR_pos; lia).
  assert (N3 : (0 < IZR (rr_den x))%R) by (apply IZR_pos; lia).
  assert (N4 : (0 < IZR (rr_den y))%R) by (apply IZR_pos; lia).
  assert (N5 : (0 < IZR (rr_root x))%R) by (apply IZR_pos; lia).
  assert (E : (IZR (rr_num x) / IZR (rr_den x) = IZR (rr_num y) / IZR (rr_den y))%R).
  { unfold rr_val in EV. rewrite <- ER in EV. apply (f_equal (fun v => Rpower v (IZR (rr_root x)))) in EV.
    rewrite !Rpower_mult, !Rinv_l, !Rpower_1 in EV by (try apply Rdiv_pos; lra). exact EV. }
  assert (E2 : (rr_num x * rr_den y = rr_num y * rr_den x)%Z).
  { apply eq_IZR. rewrite !mult_IZR.
    apply (f_equal (fun v => (v * IZR (rr_den x) * IZR (rr_den y))%R)) in E. field_simplify in E; lra. }
  assert (D1 : (rr_num x | rr_num y)%Z).
  { apply (Z.gauss _ (rr_den x)); [exists (rr_den y); lia|exact W4]. }
  assert (D2 : (rr_num y | rr_num x)%Z).
  { apply (Z.gauss _ (rr_den y)); [exists (rr_den x); lia|exact V4]. }
  assert (EN : rr_num x = rr_num y) by (apply Z.divide_antisym_nonneg; auto; lia).
  assert (ED : rr_den x = rr_den y) by nia.
  destruct x, y; cbn in *; subst; reflexivity.
Qed.

(** ** Existence *)
Lemma rr_root_impl_total x k : rr_wf x -> (1 <= k)%Z ->
  (rr_num x < isqrt_imax * isqrt_imax)%Z -> (rr_den x < isqrt_imax * isqrt_imax)%Z ->
  forall fuel, (3 * rr_num x <= Z.of_nat fuel)%Z -> (3 * rr_den x <= Z.of_nat fuel)%Z ->
  exists z, rr_root_impl fuel x k = Some z.
Proof.
  intros [W1 [W2 _]] Hk L1 L2 fuel F1 F2. unfold rr_root_impl.
  destruct (@prime_factors_correct (rr_num x)) with (fuel := fuel) as [A [EA _]]; [lia|lia|].
  destruct (@prime_factors_correct (rr_den x)) with (fuel := fuel) as [B [EB _]]; [lia|lia|].
  rewrite EA, EB. eauto.
Qed.

Lemma mk_rr_le a b r : (0 < a)%Z -> (0 < b)%Z -> (rr_num (mk_rr a b r) <= a)%Z /\ (rr_den (mk_rr a b r) <= b)%Z.
Proof.
  intros Ha Hb. unfold mk_rr. cbn [rr_num rr_den].
  rewrite !Z.sgn_pos, !Z.abs_eq by lia. rewrite !Z.mul_1_l.
  pose proof (Z.gcd_nonneg a b). assert (G : (Z.gcd a b <> 0)%Z) by (intros E; apply Z.gcd_eq_0 in E; lia).
  split; apply Z.div_le_upper_bound; nia.
Qed.

Lemma rr_multiply_total x y : rr_wf x -> rr_wf y ->
  let g := Z.gcd (rr_root x) (rr_root y) in
  let num := (rr_num x ^ (rr_root y / g) * rr_num y ^ (rr_root x / g))%Z in
  let den := (rr_den x ^ (rr_root y / g) * rr_den y ^ (rr_root x / g))%Z in
  (num < isqrt_imax * isqrt_imax)%Z -> (den < isqrt_imax * isqrt_imax)%Z ->
  forall fuel, (3 * num <= Z.of_nat fuel)%Z -> (3 * den <= Z.of_nat fuel)%Z ->
  exists z, rr_multiply fuel x y = Some z.
Proof.
  intros [W1 [W2 [W3 W4]]] [V1 [V2 [V3 V4]]] g num den L1 L2 fuel F1 F2. unfold rr_multiply.
  destruct ((rr_root x =? 1) && (rr_root y =? 1))%Z; [eauto|].
  fold g.
  assert (GP : (0 < g)%Z) by
    (pose proof (Z.gcd_nonneg (rr_root x) (rr_root y)); destruct (Z.eq_dec g 0) as [E|]; [apply Z.gcd_eq_0 in E; lia|fold g in H; lia]).
  destruct (Z.gcd_divide_l (rr_root x) (rr_root y)) as [r1 Hr1].
  destruct (Z.gcd_divide_r (rr_root x) (rr_root y)) as [r2 Hr2]. fold g in Hr1, Hr2.
  rewrite !Z.quot_div_nonneg by lia.
  assert (D1 : (rr_root x / g = r1)%Z) by (rewrite Hr1; apply Z.div_mul; lia).
  assert (D2 : (rr_root y / g = r2)%Z) by (rewrite Hr2; apply Z.div_mul; lia).
  assert (P1 : (0 < r1)%Z) by nia. assert (P2 : (0 < r2)%Z) by nia.
  rewrite !ipower_eq by lia. fold num den.
  assert (0 < num)%Z by (apply Z.mul_pos_pos; apply Z.pow_pos_nonneg; lia).
  assert (0 < den)%Z by (apply Z.mul_pos_pos; apply Z.pow_pos_nonneg; lia).
  pose proof (@mk_rr_le num den (g * (rr_root x / g) * (rr_root y / g)) ltac:(assumption) ltac:(assumption)).
  apply rr_root_impl_total; [apply mk_rr_wf; try assumption; nia|lia|lia|lia|lia|lia].
Qed.

(** ** common_root_ratio *)
Lemma rr_val_pow x k : rr_wf x -> (0 < k)%Z ->
  (rr_val x ^ Z.to_nat (rr_root x * k) = IZR (rr_num x ^ k) / IZR (rr_den x ^ k))%R.
Proof.
  intros [W1 [W2 [W3 W4]]] Hk. rewrite <- Rpower_pow by apply rr_val_pos.
  rewrite INR_IZR_INZ, Z2Nat.id by nia. unfold rr_val. rewrite Rpower_mult.
  assert (0 < IZR (rr_root x))%R by (apply IZR_pos; lia).
  replace (/ IZR (rr_root x) * IZR (rr_root x * k))%R with (IZR k) by (rewrite mult_IZR; field; lra).
  rewrite Rpower_div_distr by (apply IZR_pos; lia). rewrite !IZR_pow_Rpower by lia. reflexivity.
Qed.

Lemma gcd_pow_1 a b k : (0 <= k)%Z -> Z.gcd a b = 1%Z -> Z.gcd (a ^ k) (b ^ k) = 1%Z.
Proof.
  intros Hk H. apply Zgcd_1_rel_prime. apply rel_prime_Zpower; try assumption.
  apply Zgcd_1_rel_prime. exact H.
Qed.

Lemma rel_prime_mult_l a b c : rel_prime a c -> rel_prime b c -> rel_prime (a * b) c.
Proof. intros H1 H2. apply rel_prime_sym, rel_prime_mult; apply rel_prime_sym; assumption. Qed.

Lemma rel_prime_factors a b c d : rel_prime (a * b) (c * d) -> rel_prime a c.
Proof.
  intros H. apply rel_prime_sym, (rel_prime_div (c * d)); [apply rel_prime_sym|exists d; ring].
  apply (rel_prime_div (a * b)); [exact H|exists b; ring].
Qed.

Lemma rr_common_val fuel x y c : rr_wf x -> rr_wf y -> rr_common fuel x y = Some c ->
  let R := Z.to_nat (rr_root x * rr_root y) in
  rr_wf c /\ exists m n, (1 <= m)%Z /\ (1 <= n)%Z /\ Z.gcd m n = 1%Z /\
    (rr_val x ^ R = IZR m * rr_val c ^ R)%R /\ (rr_val y ^ R = IZR n * rr_val c ^ R)%R.
Proof.
  intros Wx Wy H R. pose proof Wx as [W1 [W2 [W3 W4]]]. pose proof Wy as [V1 [V2 [V3 V4]]].
  unfold rr_common in H. rewrite !ipower_eq in H by lia.
  assert (Vx := rr_val_pow (k := rr_root y) Wx V3). assert (Vy := rr_val_pow (k := rr_root x) Wy W3).
  rewrite (Z.mul_comm (rr_root y)) in Vy. fold R in Vx, Vy. rewrite Vx, Vy. clear Vx Vy.
  assert (C1 := @gcd_pow_1 _ _ (rr_root y) ltac:(lia) W4). assert (C2 := @gcd_pow_1 _ _ (rr_root x) ltac:(lia) V4).
  assert (A1 : (0 < rr_num x ^ rr_root y)%Z) by (apply Z.pow_pos_nonneg; lia).
  assert (A2 : (0 < rr_num y ^ rr_root x)%Z) by (apply Z.pow_pos_nonneg; lia).
  assert (A3 : (0 < rr_den x ^ rr_root y)%Z) by (apply Z.pow_pos_nonneg; lia).
  assert (A4 : (0 < rr_den y ^ rr_root x)%Z) by (apply Z.pow_pos_nonneg; lia).
  set (q1 := (rr_num x ^ rr_root y)%Z) in *. set (q2 := (rr_num y ^ rr_root x)%Z) in *.
  set (p1 := (rr_den x ^ rr_root y)%Z) in *. set (p2 := (rr_den y ^ rr_root x)%Z) in *.
  clearbody q1 q2 p1 p2.
  assert (GQ0 : (Z.gcd q1 q2 <> 0)%Z) by (intros E; apply Z.gcd_eq_0 in E; lia).
  assert (GP0 : (Z.gcd p1 p2 <> 0)%Z) by (intros E; apply Z.gcd_eq_0 in E; lia).
  pose proof (Z.gcd_nonneg q1 q2). pose proof (Z.gcd_nonneg p1 p2).
  assert (GQ1 := Z.gcd_div_gcd q1 q2 _ GQ0 eq_refl). assert (GP1 := Z.gcd_div_gcd p1 p2 _ GP0 eq_refl).
  destruct (Z.gcd_divide_l q1 q2) as [u1 U1]. destruct (Z.gcd_divide_r q1 q2) as [u2 U2].
  destruct (Z.gcd_divide_l p1 p2) as [v1 V1']. destruct (Z.gcd_divide_r p1 p2) as [v2 V2'].
  set (gq := Z.gcd q1 q2) in *. set (gp := Z.gcd p1 p2) in *. clearbody gq gp.
  rewrite Z.quot_div_nonneg in H by lia.
  rewrite U1, U2 in GQ1. rewrite !Z.div_mul in GQ1 by assumption.
  rewrite V1', V2' in GP1. rewrite !Z.div_mul in GP1 by assumption.
  assert (E1 : (p1 / gp = v1)%Z) by (rewrite V1'; apply Z.div_mul; assumption). rewrite E1 in H.
  assert (0 < u1)%Z by nia. assert (0 < u2)%Z by nia. assert (0 < v1)%Z by nia. assert (0 < v2)%Z by nia.
  assert (PP : (0 < v1 * p2)%Z) by nia. assert (RP : (0 < rr_root x * rr_root y)%Z) by nia.
  apply rr_root_impl_val in H; [|apply mk_rr_wf; lia|lia]. destruct H as [Wc Vc]. split; [exact Wc|].
  rewrite Rinv_1, Rpower_1 in Vc by apply rr_val_pos. rewrite mk_rr_val in Vc by lia.
  assert (Vp : (rr_val c ^ R = IZR gq / IZR (v1 * p2))%R).
  { rewrite <- Rpower_pow by apply rr_val_pos. rewrite Vc, Rpower_mult. unfold R.
    rewrite INR_IZR_INZ, Z2Nat.id by lia. rewrite Rinv_l by (apply not_0_IZR; lia).
    apply Rpower_1. apply Rdiv_pos; apply IZR_pos; lia. }
  rewrite Vp.
  exists (u1 * v2)%Z, (u2 * v1)%Z. split; [nia|]. split; [nia|]. split.
  - apply Zgcd_1_rel_prime in C1, C2, GQ1, GP1. apply Zgcd_1_rel_prime.
    rewrite U1, V1' in C1. rewrite U2, V2' in C2.
    assert (K1 : rel_prime u1 v1) by (apply (@rel_prime_factors u1 gq v1 gp); exact C1).
    assert (K2 : rel_prime u2 v2) by (apply (@rel_prime_factors u2 gq v2 gp); exact C2).
    apply rel_prime_mult_l; apply rel_prime_mult; try assumption; apply rel_prime_sym; assumption.
  - rewrite U1, U2, V1', V2', !mult_IZR.
    assert (IZR gq <> 0)%R by (apply not_0_IZR; assumption). assert (IZR gp <> 0)%R by (apply not_0_IZR; assumption).
    assert (IZR u1 <> 0)%R by (apply not_0_IZR; lia). assert (IZR u2 <> 0)%R by (apply not_0_IZR; lia).
    assert (IZR v1 <> 0)%R by (apply not_0_IZR; lia). assert (IZR v2 <> 0)%R by (apply not_0_IZR; lia).
    split; field; auto.
Qed.
