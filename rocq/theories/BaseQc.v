(** Exact rationals with Leibniz equality (stdlib [Qc]), boolean comparisons and a [lra] for them. *)
From Coq Require Export QArith Qcanon Lqa.
From Verif Require Import Base.
Open Scope Qc_scope.

Lemma Qc_eq_iff (x y : Qc) : x = y <-> (this x == this y)%Q.
Proof. split; [intros ->; reflexivity|apply Qc_is_canon]. Qed.
Lemma this_add x y : (this (x + y) == this x + this y)%Q.
Proof. apply Qred_correct. Qed.
Lemma this_mul x y : (this (x * y) == this x * this y)%Q.
Proof. apply Qred_correct. Qed.
Lemma this_opp x : (this (- x) == - this x)%Q.
Proof. apply Qred_correct. Qed.
Lemma this_inv x : (this (/ x) == / this x)%Q.
Proof. apply Qred_correct. Qed.
Lemma this_sub x y : (this (x - y) == this x - this y)%Q.
Proof. unfold Qcminus. rewrite this_add, this_opp. reflexivity. Qed.
Lemma this_Q2Qc q : (this (Q2Qc q) == q)%Q.
Proof. apply Qred_correct. Qed.
Lemma Qc_neq_iff (x y : Qc) : x <> y <-> ~ (this x == this y)%Q.
Proof. now rewrite Qc_eq_iff. Qed.

Ltac qc_push H :=
  repeat first [ rewrite this_add in H | rewrite this_mul in H | rewrite this_sub in H
               | rewrite this_opp in H | rewrite this_Q2Qc in H ].
Ltac qc_hyps :=
  repeat match goal with
  | H : @eq Qc ?x ?y |- _ => apply Qc_eq_iff in H; qc_push H
  | H : ~ (@eq Qc ?x ?y) |- _ => apply Qc_neq_iff in H; qc_push H
  | H : ~ (Qclt ?x ?y) |- _ => apply Qcnot_lt_le in H
  | H : ~ (Qcle ?x ?y) |- _ => apply Qcnot_le_lt in H
  | H : Qcle ?x ?y |- _ => unfold Qcle in H; qc_push H
  | H : Qclt ?x ?y |- _ => unfold Qclt in H; qc_push H
  end.
Ltac qc_goal :=
  try match goal with
  | |- @eq Qc ?x ?y => apply Qc_is_canon
  | |- Qcle ?x ?y => unfold Qcle
  | |- Qclt ?x ?y => unfold Qclt
  end;
  repeat first [ rewrite this_add | rewrite this_mul | rewrite this_sub
               | rewrite this_opp | rewrite this_Q2Qc ].
Ltac qc_to_q := try unfold Qcdiv in *; qc_hyps; qc_goal.
Ltac qc_lra := qc_to_q; lra.
Ltac qc_nra := qc_to_q; nra.

Definition qltb (x y : Qc) : bool := match (x ?= y)%Qc with Lt => true | _ => false end.
Definition qleb (x y : Qc) : bool := match (x ?= y)%Qc with Gt => false | _ => true end.
Definition qeqb (x y : Qc) : bool := match (x ?= y)%Qc with Eq => true | _ => false end.

Lemma qltb_spec x y : reflect (x < y) (qltb x y).
Proof.
  unfold qltb. destruct (x ?= y) eqn:E; constructor; unfold Qccompare in E.
  - apply Qeq_alt in E. unfold Qclt. lra.
  - apply Qlt_alt in E. exact E.
  - apply Qgt_alt in E. unfold Qclt. lra.
Qed.
Lemma qleb_spec x y : reflect (x <= y) (qleb x y).
Proof.
  unfold qleb. destruct (x ?= y) eqn:E; constructor; unfold Qccompare in E.
  - apply Qeq_alt in E. unfold Qcle. lra.
  - apply Qlt_alt in E. unfold Qcle. lra.
  - apply Qgt_alt in E. unfold Qcle. lra.
Qed.
Lemma qeqb_spec x y : reflect (x = y) (qeqb x y).
Proof.
  unfold qeqb. destruct (x ?= y) eqn:E; constructor; unfold Qccompare in E.
  - apply Qeq_alt in E. now apply Qc_is_canon.
  - apply Qlt_alt in E. intros ->. lra.
  - apply Qgt_alt in E. intros ->. lra.
Qed.

Lemma qltb_lt x y : qltb x y = true <-> x < y.
Proof. destruct (qltb_spec x y); split; auto; discriminate. Qed.
Lemma qleb_le x y : qleb x y = true <-> x <= y.
Proof. destruct (qleb_spec x y); split; auto; discriminate. Qed.
Lemma qeqb_eq x y : qeqb x y = true <-> x = y.
Proof. destruct (qeqb_spec x y); split; auto; discriminate. Qed.

(** number of elements as a rational *)
Definition qn (n : nat) : Qc := Q2Qc (inject_Z (Z.of_nat n)).
Definition qz (z : Z) : Qc := Q2Qc (inject_Z z).
Lemma this_qz z : (this (qz z) == inject_Z z)%Q.
Proof. apply this_Q2Qc. Qed.
Lemma this_qn n : (this (qn n) == inject_Z (Z.of_nat n))%Q.
Proof. apply this_Q2Qc. Qed.
Lemma qz_add a b : qz (a + b) = qz a + qz b.
Proof. apply Qc_is_canon. rewrite this_add, !this_qz, inject_Z_plus. reflexivity. Qed.
Lemma qz_mul a b : qz (a * b) = qz a * qz b.
Proof. apply Qc_is_canon. rewrite this_mul, !this_qz, inject_Z_mult. reflexivity. Qed.
Lemma qz_opp a : qz (- a) = - qz a.
Proof. apply Qc_is_canon. rewrite this_opp, !this_qz, inject_Z_opp. reflexivity. Qed.
Lemma qz_le a b : (a <= b)%Z <-> qz a <= qz b.
Proof. unfold Qcle. rewrite !this_qz, <- Zle_Qle. reflexivity. Qed.
Lemma qz_lt a b : (a < b)%Z <-> qz a < qz b.
Proof. unfold Qclt. rewrite !this_qz, <- Zlt_Qlt. reflexivity. Qed.
Lemma qz_inj a b : qz a = qz b <-> a = b.
Proof. rewrite Qc_eq_iff, !this_qz. unfold Qeq; simpl. lia. Qed.
Lemma qn_qz n : qn n = qz (Z.of_nat n).
Proof. reflexivity. Qed.
Lemma qn_add a b : qn (a + b) = qn a + qn b.
Proof. rewrite !qn_qz, Nat2Z.inj_add. apply qz_add. Qed.
Lemma qn_mul a b : qn (a * b) = qn a * qn b.
Proof. rewrite !qn_qz, Nat2Z.inj_mul. apply qz_mul. Qed.
Lemma qn_0 : qn 0 = 0. Proof. reflexivity. Qed.
Lemma qn_1 : qn 1 = 1. Proof. reflexivity. Qed.
Lemma qn_S n : qn (S n) = qn n + 1.
Proof. replace (S n) with (n + 1)%nat by lia. rewrite qn_add, qn_1. reflexivity. Qed.
Lemma qn_le a b : (a <= b)%nat <-> qn a <= qn b.
Proof. rewrite !qn_qz, <- qz_le. lia. Qed.
Lemma qn_lt a b : (a < b)%nat <-> qn a < qn b.
Proof. rewrite !qn_qz, <- qz_lt. lia. Qed.
Lemma qn_inj a b : qn a = qn b <-> a = b.
Proof. rewrite !qn_qz, qz_inj. lia. Qed.
Lemma qn_nonneg n : 0 <= qn n.
Proof. rewrite <- qn_0, <- qn_le. lia. Qed.
Lemma qn_neq0 n : (n <> 0)%nat -> qn n <> 0.
Proof. intros H E. rewrite <- qn_0, qn_inj in E. contradiction. Qed.
Lemma qn_sub a b : (b <= a)%nat -> qn (a - b) = qn a - qn b.
Proof. intros H. replace a with ((a - b) + b)%nat at 2 by lia. rewrite qn_add. ring. Qed.

Lemma Qc_mul_inv x : x <> 0 -> x * / x = 1.
Proof. intros H. apply Qcmult_inv_r. exact H. Qed.
Lemma Qclt_neq x y : x < y -> x <> y.
Proof. intros H ->. apply (Qclt_not_eq _ _ H). reflexivity. Qed.
Lemma Qcinv_pos x : 0 < x -> 0 < / x.
Proof. intros H. unfold Qclt in *. rewrite this_inv. rewrite this_Q2Qc in *. now apply Qinv_lt_0_compat. Qed.

Fixpoint qsum (l : list Qc) : Qc := match l with [] => 0 | x :: r => x + qsum r end.
Lemma qsum_app a b : qsum (a ++ b) = qsum a + qsum b.
Proof. induction a as [|x a IH]; simpl; [ring|]. rewrite IH. ring. Qed.

Definition Qcfield := Qcft.
Example qc_lra_test (x y : Qc) : x < y -> 0 <= x -> x + x < y * Q2Qc 2 /\ 0 <= y.
Proof. intros H H0. split; qc_lra. Qed.
