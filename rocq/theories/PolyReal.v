(** Calculus over R: what polyder and polyint compute. *)
From Coq Require Import ZArith Reals RealField.
From Verif Require Import Base Functional FunctionalProofs Spec SumLib Numeric Convolve ConvolveFacts Polynomial PolynomialFacts PolynomialField.
From Coq Require Import Lra.
Open Scope nat_scope.

Definition Rth : ring_theory 0%R 1%R Rplus Rmult Rminus Ropp eq := F_R Rfield.
Definition rpolyval (x : R) (P : list R) : R := polyval 0%R Rplus Rmult x P.
Definition rpolyder (P : list R) (m : Z) := polyder Rmult INR P m.
Definition rpolyint (P : list R) (m : Z) := polyint 0%R Rdiv INR P m.
Notation rderiv := (deriv (rO := 0%R) (rmul := Rmult) INR).
Notation rantideriv := (antideriv (rO := 0%R) (rdiv := Rdiv) INR).
Notation rcoef := (@coef R 0%R).

Lemma rpolyval_cons x c P : rpolyval x (c :: P) = (rpolyval x P * x + c)%R.
Proof. apply (polyval_cons (radd := Rplus)). Qed.
Lemma rpolyval_deriv_cons x c P : rpolyval x (rderiv (c :: P)) = (rpolyval x P + x * rpolyval x (rderiv P))%R.
Proof.
  unfold rpolyval. rewrite !(polyval_eval Rth). unfold SumLib.evalf.
  rewrite !deriv_length. cbn [length]. replace (S (length P) - 1) with (length P) by lia.
  set (n := length P).
  transitivity (nsum 0%R Rplus (fun i => rcoef P i * rpow 1 Rmult x i)%R n +
                nsum 0%R Rplus (fun i => INR i * rcoef P i * rpow 1 Rmult x i)%R n)%R.
  - rewrite <- (sum_add Rth). apply sum_ext. intros k Hk. rewrite deriv_coef. cbn [length]. fold n.
    destruct (Nat.ltb_spec k (S n - 1)); [|lia]. change (rcoef (c :: P) (S k)) with (rcoef P k). rewrite S_INR. ring.
  - f_equal. destruct n as [|m] eqn:En; [simpl; ring|]. rewrite (sum_first Rth). change (INR 0) with 0%R. replace (S m - 1) with m by lia.
    rewrite <- (sum_scale_l Rth). rewrite Rmult_0_l, Rmult_0_l, Rplus_0_l. apply sum_ext. intros k Hk. rewrite deriv_coef.
    unfold n in En. rewrite En. destruct (Nat.ltb_spec k (S m - 1)); [|lia]. cbn [rpow]. ring.
Qed.
Lemma rpolyval_derivative P x : derivable_pt_lim (fun t => rpolyval t P) x (rpolyval x (rderiv P)).
Proof.
  induction P as [|c P IH].
  - change (rpolyval x (rderiv [])) with 0%R. apply derivable_pt_lim_const.
  - rewrite rpolyval_deriv_cons.
    replace (rpolyval x P + x * rpolyval x (rderiv P))%R with (rpolyval x (rderiv P) * x + rpolyval x P * 1 + 0)%R by ring.
    assert (D : derivable_pt_lim (fun t => rpolyval t P * t + c)%R x (rpolyval x (rderiv P) * x + rpolyval x P * 1 + 0)%R).
    { apply (derivable_pt_lim_plus (fun t => rpolyval t P * t)%R (fun _ => c)).
      - apply (derivable_pt_lim_mult (fun t => rpolyval t P) (fun t => t)); [exact IH|apply derivable_pt_lim_id].
      - apply derivable_pt_lim_const. }
    intros eps He. destruct (D eps He) as [d Hd]. exists d. intros h H1 H2. rewrite !rpolyval_cons. now apply Hd.
Qed.
Lemma INR_pos n : INR (S n) <> 0%R.
Proof. apply not_0_INR. lia. Qed.
(** polyint: an antiderivative vanishing at 0 *)
Lemma rpolyint_spec P : P <> [] -> exists Q, rpolyint P 1 = Ok Q /\ length Q = S (length P) /\ rpolyval 0 Q = 0%R /\
  forall x, derivable_pt_lim (fun t => rpolyval t Q) x (rpolyval x P).
Proof.
  intros H. exists (rantideriv P). unfold rpolyint. change 1%Z with (Z.of_nat 1). rewrite polyint_spec by exact H. split; [reflexivity|].
  split; [unfold antideriv; cbn [length]; now rewrite map_length, seq_length|]. split.
  - unfold antideriv. rewrite rpolyval_cons. ring.
  - intros x. pose proof (rpolyval_derivative (rantideriv P) x) as D. rewrite (deriv_antideriv Rfield INR P INR_pos) in D. exact D.
Qed.
Lemma rpolyint_iter P m n : P <> [] -> (do Q <- rpolyint P (Z.of_nat m); rpolyint Q (Z.of_nat n)) = rpolyint P (Z.of_nat (m + n)).
Proof.
  intros H. unfold rpolyint. rewrite !polyint_spec by exact H. cbn [bind].
  assert (G : forall k Q, Q <> [] -> antideriv_n (rO := 0%R) (rdiv := Rdiv) INR k Q <> []).
  { induction k as [|k IH]; intros Q HQ; cbn [antideriv_n]; [exact HQ|]. apply IH. discriminate. }
  rewrite polyint_spec by (now apply G). f_equal. clear H. revert P.
  induction m as [|m IH]; intros P; cbn [Nat.add antideriv_n]; [reflexivity|]. apply IH.
Qed.
(** polyder: the derivative of the polynomial whose coefficients are read from the highest degree down *)
Lemma rpolyder_spec P : exists Q, rpolyder P 1 = Ok Q /\ length Q = length P - 1 /\
  forall x, derivable_pt_lim (fun t => rpolyval t (rev P)) x (rpolyval x (rev Q)).
Proof.
  exists (rev (rderiv (rev P))). unfold rpolyder. change 1%Z with (Z.of_nat 1). rewrite (polyder_spec Rfield).
  split; [reflexivity|]. split; [now rewrite rev_length, deriv_length, rev_length|]. intros x. rewrite rev_involutive. apply rpolyval_derivative.
Qed.
Lemma deriv_n_add {T} (rO : T) (rmul : T -> T -> T) ofnat m n : forall P : list T,
  deriv_n (rO := rO) (rmul := rmul) ofnat n (deriv_n (rO := rO) (rmul := rmul) ofnat m P) = deriv_n (rO := rO) (rmul := rmul) ofnat (m + n) P.
Proof. induction m as [|m IH]; intros P; cbn [Nat.add deriv_n]; [reflexivity|]. apply IH. Qed.
Lemma rpolyder_iter P m n : (do Q <- rpolyder P (Z.of_nat m); rpolyder Q (Z.of_nat n)) = rpolyder P (Z.of_nat (m + n)).
Proof.
  unfold rpolyder. rewrite !(polyder_spec Rfield). cbn [bind]. rewrite (polyder_spec Rfield), rev_involutive, deriv_n_add. reflexivity.
Qed.
