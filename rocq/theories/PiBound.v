(** Rational bounds on pi, from the standard library's Machin formula. *)
From Coq Require Import ZArith QArith Qreals Reals Machin Lia Lra.
Open Scope nat_scope.

Definition qterm (n : nat) : Q :=
  ((if Nat.even n then 1 else - (1)) *
   ((2 * (1 # 3) ^ Z.of_nat (2 * n + 1) + (1 # 7) ^ Z.of_nat (2 * n + 1)) / inject_Z (Z.of_nat (2 * n + 1))))%Q.
Fixpoint qsum (n : nat) : Q := match n with 0 => qterm 0 | S m => Qred (qsum m + qterm (S m))%Q end.

Lemma Q2R_power x n : Q2R (x ^ Z.of_nat n) = (Q2R x ^ n)%R.
Proof.
  induction n as [|n IH].
  - cbn. unfold Q2R. cbn. lra.
  - rewrite Nat2Z.inj_succ. cbn [pow]. rewrite <- IH, <- Q2R_mult. apply Qeq_eqR.
    destruct (Qeq_dec x 0) as [E|E].
    + rewrite E. rewrite (Qpower.Qpower_0 (Z.succ (Z.of_nat n))) by lia. ring.
    + unfold Z.succ. rewrite Qpower.Qpower_plus by exact E. change (x ^ 1)%Q with x. ring.
Qed.

Lemma pow_m1 n : ((-1) ^ n)%R = Q2R (if Nat.even n then 1 else - (1)).
Proof.
  induction n as [|n IH]; [cbn; unfold Q2R; cbn; lra|]. cbn [pow]. rewrite IH, Nat.even_succ, <- Nat.negb_even.
  destruct (Nat.even n); cbn [negb]; unfold Q2R; cbn; lra.
Qed.

Lemma qterm_R n : Q2R (qterm n) = tg_alt PI_2_3_7_tg n.
Proof.
  unfold qterm, tg_alt, PI_2_3_7_tg, Ratan_seq. rewrite Q2R_mult, pow_m1. f_equal.
  assert (N : ~ (inject_Z (Z.of_nat (2 * n + 1)) == 0)%Q) by (unfold Qeq, inject_Z; cbn [Qnum Qden]; lia).
  rewrite Q2R_div by exact N. rewrite Q2R_plus, Q2R_mult, !Q2R_power.
  replace (Q2R 2) with 2%R by (unfold Q2R; cbn; lra).
  replace (Q2R (1 # 3)) with (/ 3)%R by (unfold Q2R; cbn; lra). replace (Q2R (1 # 7)) with (/ 7)%R by (unfold Q2R; cbn; lra).
  replace (Q2R (inject_Z (Z.of_nat (2 * n + 1)))) with (INR (2 * n + 1)).
  - unfold Rdiv. ring.
  - rewrite INR_IZR_INZ. unfold Q2R, inject_Z. cbn [Qnum Qden]. rewrite Rinv_1. ring.
Qed.

Lemma qsum_R n : Q2R (qsum n) = sum_f_R0 (tg_alt PI_2_3_7_tg) n.
Proof.
  induction n as [|n IH]; [apply qterm_R|]. cbn [qsum sum_f_R0]. rewrite (Qeq_eqR _ _ (Qred_correct _)), Q2R_plus, IH, qterm_R. reflexivity.
Qed.

Lemma pi_lower (q : Q) (N : nat) : Qle_bool q (4 * qsum (S (2 * N))) = true -> (Q2R q <= PI)%R.
Proof.
  intros H. apply Qle_bool_iff, Qle_Rle in H. rewrite Q2R_mult, qsum_R in H. pose proof (proj1 (PI_2_3_7_ineq N)) as P.
  replace (Q2R 4) with 4%R in H by (unfold Q2R; cbn; lra). lra.
Qed.
Lemma pi_upper (q : Q) (N : nat) : Qle_bool (4 * qsum (2 * N)) q = true -> (PI <= Q2R q)%R.
Proof.
  intros H. apply Qle_bool_iff, Qle_Rle in H. rewrite Q2R_mult, qsum_R in H. pose proof (proj2 (PI_2_3_7_ineq N)) as P.
  replace (Q2R 4) with 4%R in H by (unfold Q2R; cbn; lra). lra.
Qed.

Definition pi_q : Q := 21053343141 # 6701487259.
Lemma pi_q_lower : (Q2R pi_q <= PI)%R.
Proof. apply (pi_lower _ 12). vm_compute. reflexivity. Qed.
Lemma pi_q_upper : (PI <= Q2R pi_q + 3 / 10000000000000000000000)%R.
Proof.
  replace (Q2R pi_q + 3 / 10000000000000000000000)%R with (Q2R (pi_q + (3 # 10000000000000000000000))).
  - apply (pi_upper _ 12). vm_compute. reflexivity.
  - rewrite Q2R_plus. f_equal.
Qed.
