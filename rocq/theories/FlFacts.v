(** Order and monoid facts for the idealised doubles of BaseFl.v *)
From Verif Require Import Base BaseFl Spec.
Open Scope Qc_scope.

Definition is_num (x : fl) : Prop := x <> NaN.
Lemma not_nan_iff x : not_nan x = true <-> is_num x.
Proof. unfold not_nan, is_num. destruct x; simpl; split; congruence. Qed.

Lemma flt_swo : strict_weak_order_on is_num flt.
Proof.
  constructor.
  - intros [x| | |] H; simpl; try reflexivity. destruct (qltb_spec x x) as [E|E]; [|reflexivity].
    exfalso. qc_lra.
  - intros [x| | |] [y| | |] [z| | |] Hx Hy Hz; simpl; try congruence.
    rewrite !qltb_lt. intros; qc_lra.
  - intros [x| | |] [y| | |] [z| | |] Hx Hy Hz; simpl; try congruence; unfold is_num in *; try congruence.
    destruct (qltb_spec x y), (qltb_spec y z), (qltb_spec x z); try congruence.
    exfalso. apply Qcnot_lt_le in n, n0. qc_lra.
Qed.
Lemma fgt_swo : strict_weak_order_on is_num (fun u v => flt v u).
Proof.
  destruct flt_swo as [Hi Ht Hn]. constructor.
  - exact Hi.
  - intros x y z Hx Hy Hz H1 H2. apply (Ht z y x); auto.
  - intros x y z Hx Hy Hz H1 H2. apply (Hn z y x); auto.
Qed.

Lemma fmul_comm a b : fmul a b = fmul b a.
Proof. destruct a, b; simpl; try reflexivity. f_equal; ring. Qed.
Lemma Qcsgn x : (x ?= 0) = Eq /\ x = 0 \/ (x ?= 0) = Gt /\ 0 < x \/ (x ?= 0) = Lt /\ x < 0.
Proof.
  unfold Qccompare, Qclt. destruct (this x ?= this 0)%Q eqn:E.
  - left. split; [reflexivity|]. apply Qc_is_canon. now apply Qeq_alt.
  - right; right. split; [reflexivity|]. now apply Qlt_alt.
  - right; left. split; [reflexivity|]. now apply Qgt_alt.
Qed.
Lemma cmp_Gt x : 0 < x -> (x ?= 0) = Gt.
Proof. intros H. destruct (Qcsgn x) as [[_ ->]|[[-> _]|[_ H2]]]; auto; exfalso; qc_lra. Qed.
Lemma cmp_Lt x : x < 0 -> (x ?= 0) = Lt.
Proof. intros H. destruct (Qcsgn x) as [[_ ->]|[[_ H2]|[-> _]]]; auto; exfalso; qc_lra. Qed.
Lemma Qcmul_pos x y : 0 < x -> 0 < y -> 0 < x * y.
Proof. intros; qc_nra. Qed.
Lemma Qcmul_pn x y : 0 < x -> y < 0 -> x * y < 0.
Proof. intros; qc_nra. Qed.
Lemma Qcmul_np x y : x < 0 -> 0 < y -> x * y < 0.
Proof. intros; qc_nra. Qed.
Lemma Qcmul_nn x y : x < 0 -> y < 0 -> 0 < x * y.
Proof. intros; qc_nra. Qed.
Lemma inf_times_0 b : inf_times b 0 = NaN. Proof. reflexivity. Qed.

Ltac sgn x := let E := fresh "E" in let H := fresh "H" in
  destruct (Qcsgn x) as [[E H]|[[E H]|[E H]]]; [subst x| |].

Lemma fmul_assoc a b c : fmul a (fmul b c) = fmul (fmul a b) c.
Proof.
  assert (Hz1 : forall x : Qc, 0 * x = 0) by (intros; ring).
  assert (Hz2 : forall x : Qc, x * 0 = 0) by (intros; ring).
  destruct a as [x| | |], b as [y| | |], c as [z| | |]; try reflexivity;
  unfold fmul, inf_times; try (f_equal; ring);
  repeat match goal with
  | x : Qc |- _ => lazymatch goal with
                   | H : (x ?= 0) = _ |- _ => fail
                   | _ => sgn x
                   end
  end; rewrite ?Hz1, ?Hz2;
  repeat match goal with
  | H : (?x ?= 0) = _ |- _ => rewrite H
  end; try reflexivity;
  repeat match goal with
  | H1 : 0 < ?x, H2 : 0 < ?y |- context [?x * ?y ?= 0] => rewrite (cmp_Gt _ (Qcmul_pos _ _ H1 H2))
  | H1 : 0 < ?x, H2 : ?y < 0 |- context [?x * ?y ?= 0] => rewrite (cmp_Lt _ (Qcmul_pn _ _ H1 H2))
  | H1 : ?x < 0, H2 : 0 < ?y |- context [?x * ?y ?= 0] => rewrite (cmp_Lt _ (Qcmul_np _ _ H1 H2))
  | H1 : ?x < 0, H2 : ?y < 0 |- context [?x * ?y ?= 0] => rewrite (cmp_Gt _ (Qcmul_nn _ _ H1 H2))
  end; rewrite ?Hz1, ?Hz2; try reflexivity;
  repeat match goal with |- context [0 ?= 0] => change (0 ?= 0) with Eq end; reflexivity.
Qed.
Lemma fmul_1_l a : fmul f1 a = a.
Proof. destruct a; try reflexivity. simpl. f_equal; ring. Qed.
Lemma fmul_1_r a : fmul a f1 = a.
Proof. rewrite fmul_comm. apply fmul_1_l. Qed.

Lemma bigop_nan_add l : In NaN l -> bigop fadd f0 l = NaN.
Proof.
  induction l as [|x l IH]; simpl; [intros []|]. intros [->|H]; [reflexivity|]. rewrite (IH H). now destruct x.
Qed.
Lemma bigop_nan_mul l : In NaN l -> bigop fmul f1 l = NaN.
Proof.
  induction l as [|x l IH]; simpl; [intros []|]. intros [->|H]; [reflexivity|]. rewrite (IH H). now destruct x.
Qed.
Lemma bigop_fin_add l : bigop fadd f0 (map Fin l) = Fin (bigop Qcplus 0 l).
Proof. induction l as [|x l IH]; simpl; [reflexivity|]. rewrite IH. reflexivity. Qed.
Lemma bigop_fin_mul l : bigop fmul f1 (map Fin l) = Fin (bigop Qcmult 1 l).
Proof. induction l as [|x l IH]; simpl; [reflexivity|]. rewrite IH. reflexivity. Qed.
Lemma Fin_inj x y : Fin x = Fin y -> x = y.
Proof. intros H. exact (f_equal (fun f => match f with Fin z => z | _ => x end) H). Qed.
Lemma flt_fin x y : flt (Fin x) (Fin y) = qltb x y. Proof. reflexivity. Qed.
Lemma flt_not_nan a b : flt a b = true -> is_num a /\ is_num b.
Proof. unfold is_num. destruct a, b; simpl; try congruence; split; congruence. Qed.
Lemma fle_negb_lt a b : is_num a -> is_num b -> fle a b = negb (flt b a).
Proof.
  unfold is_num, fle. destruct a as [x| | |], b as [y| | |]; simpl; try congruence.
  intros _ _. destruct (qltb_spec x y) as [H1|H1], (qltb_spec y x) as [H2|H2], (qeqb_spec x y) as [H3|H3];
    simpl; try reflexivity; exfalso.
  all: try (subst; qc_lra).
  all: apply H3; apply Qcle_antisym; qc_lra.
Qed.
