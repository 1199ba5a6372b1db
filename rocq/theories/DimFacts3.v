(** Dimensions with integer exponents never keep a root, whatever roots were taken on the way. *)
From Verif Require Import Base Arith ArithFacts ArithFacts2 ArithNewton ArithValue Quantity QuantityFacts DimFacts UnitsSpec DimFacts2.
From Coq Require Import ZArith Znumtheory Zpow_facts Lia List QArith Qreals Reals Lra.
Open Scope nat_scope.
Set Implicit Arguments.

(** The root cannot be removed. *)
Definition reduced (z : rr) : Prop := rr_root z = 1%Z \/
  ~ exists q p, (1 <= q)%Z /\ (1 <= p)%Z /\ rr_num z = (q ^ rr_root z)%Z /\ rr_den z = (p ^ rr_root z)%Z.

Lemma prime_factors_root_iff n fuel t k : (1 <= n)%Z -> (1 <= k)%Z -> prime_factors fuel n = Some (Ok t) ->
  (is_exact_root t k = true <-> exists m, (1 <= m)%Z /\ n = (m ^ k)%Z).
Proof.
  intros Hn Hk H. destruct (prime_factors_sound _ Hn H) as [F [-> [G [S P]]]].
  rewrite (is_exact_root_table n Hk G). rewrite exact_root_iff by (auto using sorted_NoDup). rewrite P. reflexivity.
Qed.

Lemma rr_root_impl_reduced fuel x k z : rr_wf x -> (1 <= k)%Z -> rr_root_impl fuel x k = Some z -> reduced z.
Proof.
  intros [W1 [W2 [W3 W4]]] Hk. unfold rr_root_impl.
  destruct (prime_factors fuel (rr_num x)) as [[qf| | |]|] eqn:EQ; try discriminate.
  destruct (prime_factors fuel (rr_den x)) as [[pf| | |]|] eqn:EP; try discriminate.
  destruct (is_exact_root qf (rr_root x * k) && is_exact_root pf (rr_root x * k)) eqn:E.
  - intros H. left. assert (z = mk_rr (compute_root qf (rr_root x * k)) (compute_root pf (rr_root x * k)) 1) as -> by congruence. reflexivity.
  - intros H. assert (z = mk_rr (rr_num x) (rr_den x) (rr_root x * k)) as -> by congruence. clear H. right.
    assert (EN : mk_rr (rr_num x) (rr_den x) (rr_root x * k) = RR (rr_num x) (rr_den x) (rr_root x * k)).
    { unfold mk_rr. rewrite W4, !Z.sgn_pos, !Z.abs_eq, !Z.div_1_r, !Z.mul_1_l by lia. reflexivity. }
    rewrite EN. cbn [rr_num rr_den rr_root]. intros [q [p [Hq [Hp [Eq Ep]]]]].
    assert (A : is_exact_root qf (rr_root x * k) = true).
    { apply (@prime_factors_root_iff (rr_num x) fuel qf (rr_root x * k)); [lia|nia|exact EQ|]. exists q. auto. }
    assert (B : is_exact_root pf (rr_root x * k) = true).
    { apply (@prime_factors_root_iff (rr_den x) fuel pf (rr_root x * k)); [lia|nia|exact EP|]. exists p. auto. }
    rewrite A, B in E. discriminate.
Qed.

Lemma rr_multiply_reduced fuel x y z : rr_wf x -> rr_wf y -> rr_multiply fuel x y = Some z -> reduced z.
Proof.
  intros Wx Wy. pose proof Wx as [W1 [W2 [W3 W4]]]. pose proof Wy as [V1 [V2 [V3 V4]]]. unfold rr_multiply.
  destruct ((rr_root x =? 1)%Z && (rr_root y =? 1)%Z).
  - intros H. left. assert (z = mk_rr (rr_num x * rr_num y) (rr_den x * rr_den y) 1) as -> by congruence. reflexivity.
  - pose proof (Z.gcd_nonneg (rr_root x) (rr_root y)).
    assert (G : (Z.gcd (rr_root x) (rr_root y) <> 0)%Z) by (intros E; apply Z.gcd_eq_0 in E; lia).
    destruct (Z.gcd_divide_l (rr_root x) (rr_root y)) as [p Hp]. destruct (Z.gcd_divide_r (rr_root x) (rr_root y)) as [q Hq].
    set (g := Z.gcd (rr_root x) (rr_root y)) in *. clearbody g.
    assert (E1 : (Z.quot (rr_root x) g = p)%Z) by (rewrite Hp; apply Z.quot_mul; exact G).
    assert (E2 : (Z.quot (rr_root y) g = q)%Z) by (rewrite Hq; apply Z.quot_mul; exact G).
    rewrite E1, E2. assert (0 < p)%Z by nia. assert (0 < q)%Z by nia.
    rewrite !ipower_eq by lia.
    apply rr_root_impl_reduced; [|lia]. apply mk_rr_wf; try apply Z.mul_pos_pos; try (apply Z.pow_pos_nonneg; lia); nia.
Qed.

Lemma rr_divide_reduced fuel x y z : rr_wf x -> rr_wf y -> rr_divide fuel x y = Some z -> reduced z.
Proof. intros Wx Wy. unfold rr_divide. apply rr_multiply_reduced; [exact Wx|]. apply rr_inv_val, Wy. Qed.

Lemma rr_power_reduced fuel x n z : rr_wf x -> rr_power fuel x n = Some z -> reduced z.
Proof.
  intros Wx. destruct n as [|n]; cbn [rr_power].
  - intros H. left. assert (z = mk_rr 1 1 1) as -> by congruence. reflexivity.
  - destruct (rr_power fuel x n) as [y|] eqn:E; [|discriminate]. apply rr_multiply_reduced; [exact Wx|].
    apply (rr_power_val fuel n Wx E).
Qed.

Lemma dim_of_reduced fuel roots u e : dim_of fuel roots u e -> reduced (u_dim u).
Proof.
  induction 1 as [I s o u HI Ws Wo HB|a b c e f Da _ Db _ H|a b c e f Da _ Db _ H
    |a c e Da _ H|n a c e Da _ H|k a c e HR Hk Da _ H|a b c e f Da IHa Db _ H].
  - unfold base_quantity in HB. destruct (base_dimension fuel 11 I) as [d|] eqn:E; [|discriminate].
    injection HB as <-. destruct (base_dimension_ids _ _ E) as [_ Hd]. left. cbn [u_dim]. rewrite Hd. reflexivity.
  - destruct (dim_of_val Da) as [[Wa _] _]. destruct (dim_of_val Db) as [[Wb _] _]. unfold ty_mul in H.
    destruct (ratio_eqb _ _); [|discriminate]. destruct (rr_multiply fuel (u_dim a) (u_dim b)) as [d|] eqn:E; [|discriminate].
    destruct (rr_multiply fuel (u_scale a) (u_scale b)); [|discriminate]. injection H as <-. exact (rr_multiply_reduced _ Wa Wb E).
  - destruct (dim_of_val Da) as [[Wa _] _]. destruct (dim_of_val Db) as [[Wb _] _]. unfold ty_div in H.
    destruct (ratio_eqb _ _); [|discriminate]. destruct (rr_divide fuel (u_dim a) (u_dim b)) as [d|] eqn:E; [|discriminate].
    destruct (rr_divide fuel (u_scale a) (u_scale b)); [|discriminate]. injection H as <-. exact (rr_divide_reduced _ Wa Wb E).
  - destruct (dim_of_val Da) as [[Wa _] _]. unfold ty_inv in H.
    destruct (rr_divide fuel one_rr (u_dim a)) as [d|] eqn:E; [|discriminate].
    destruct (rr_divide fuel one_rr (u_scale a)); [|discriminate]. injection H as <-. exact (rr_divide_reduced _ one_rr_wf Wa E).
  - destruct (dim_of_val Da) as [[Wa _] _]. unfold ty_pow in H.
    destruct (rr_power fuel (u_dim a) n) as [d|] eqn:E; [|discriminate].
    destruct (rr_power fuel (u_scale a) n); [|discriminate]. injection H as <-. exact (rr_power_reduced _ _ Wa E).
  - destruct (dim_of_val Da) as [[Wa _] _]. unfold ty_root in H.
    destruct (rr_root_impl fuel (u_dim a) k) as [d|] eqn:E; [|discriminate].
    destruct (rr_root_impl fuel (u_scale a) k); [|discriminate]. injection H as <-. exact (rr_root_impl_reduced _ Wa Hk E).
  - destruct (dim_of_val Da) as [Wa _]. destruct (dim_of_val Db) as [Wb _].
    destruct (ty_common_val fuel Wa Wb H) as [_ [_ [-> _]]]. exact IHa.
Qed.

(** Integer exponents: the value of the dimension is a ratio of integers. *)
Lemma lvec_int_ratio e : (forall i, 1 <= i <= 10 -> exists z, (e i == inject_Z z)%Q) ->
  exists n d, (1 <= n)%Z /\ (1 <= d)%Z /\ lvec e = (ln (IZR n) - ln (IZR d))%R.
Proof.
  intros H. unfold lvec.
  assert (G : forall l, (forall i, In i l -> 1 <= i <= 10) -> exists n d, (1 <= n)%Z /\ (1 <= d)%Z /\
     qlsum (map (fun i => (nth i ids 1%Z, e i)) l) = (ln (IZR n) - ln (IZR d))%R).
  { induction l as [|i l IH]; intros Hl.
    - exists 1%Z, 1%Z. split; [lia|]. split; [lia|]. cbn. ring.
    - destruct IH as [n [d [Hn [Hd E]]]]; [intros j Hj; apply Hl; right; exact Hj|].
      destruct (H i) as [z Hz]; [apply Hl; left; reflexivity|].
      set (p := nth i ids 1%Z).
      assert (P : (1 <= p)%Z).
      { unfold p. specialize (Hl i (or_introl eq_refl)).
        assert (C : i = 1 \/ i = 2 \/ i = 3 \/ i = 4 \/ i = 5 \/ i = 6 \/ i = 7 \/ i = 8 \/ i = 9 \/ i = 10) by lia.
        repeat (destruct C as [->|C]; [cbn; lia|]). subst i. cbn. lia. }
      pose proof (Z.pow_pos_nonneg p (Z.max z 0) ltac:(lia) ltac:(lia)).
      pose proof (Z.pow_pos_nonneg p (Z.max (- z) 0) ltac:(lia) ltac:(lia)).
      exists (p ^ Z.max z 0 * n)%Z, (p ^ Z.max (- z) 0 * d)%Z.
      split; [nia|]. split; [nia|]. unfold qlsum. cbn [map fold_right fst snd].
      fold (qlsum (map (fun i => (nth i ids 1%Z, e i)) l)). rewrite E. fold p.
      rewrite !mult_IZR, !ln_mult, !IZR_pow_Rpower by (try lia; apply IZR_pos; lia).
      unfold Rpower. rewrite !ln_exp. rewrite (Qeq_eqR _ _ Hz). unfold Q2R. cbn [inject_Z Qnum Qden].
      replace (IZR z) with (IZR (Z.max z 0) - IZR (Z.max (- z) 0))%R by (rewrite <- minus_IZR; f_equal; lia).
      rewrite Rinv_1. ring. }
  apply G. intros i Hi. apply in_seq in Hi. lia.
Qed.

(** A reduced root ratio with a rational value has root 1. *)
Lemma reduced_rational z n d : rr_wf z -> reduced z -> (1 <= n)%Z -> (1 <= d)%Z ->
  rr_val z = (IZR n / IZR d)%R -> rr_root z = 1%Z.
Proof.
  intros Wz [R|R] Hn Hd V; [exact R|]. exfalso. apply R. clear R. pose proof Wz as [W1 [W2 [W3 W4]]].
  set (y := mk_rr n d 1). assert (Wy : rr_wf y) by (apply mk_rr_wf; lia).
  assert (Vy : rr_val z = (IZR (rr_num y) / IZR (rr_den y))%R) by (rewrite V; symmetry; apply mk_rr_quotient; lia).
  destruct Wy as [Y1 [Y2 [_ Y4]]]. exists (rr_num y), (rr_den y). split; [lia|]. split; [lia|].
  pose proof (rr_val_pow (k := 1) Wz ltac:(lia)) as P. rewrite Z.mul_1_r, !Z.pow_1_r in P. rewrite Vy in P.
  set (k := rr_root z) in *.
  assert (E : (rr_num y ^ k * rr_den z = rr_num z * rr_den y ^ k)%Z).
  { apply eq_IZR. rewrite !mult_IZR. rewrite !IZR_pow_Rpower by lia.
    assert (IZR (rr_den y) <> 0)%R by (apply not_0_IZR; lia). assert (IZR (rr_den z) <> 0)%R by (apply not_0_IZR; lia).
    rewrite <- (Z2Nat.id k) by lia. rewrite <- !INR_IZR_INZ, !Rpower_pow by (apply IZR_pos; lia).
    unfold Rdiv in P. rewrite Rpow_mult_distr, pow_inv in P.
    assert (IZR (rr_den y) ^ Z.to_nat k <> 0)%R by (apply pow_nonzero; assumption).
    apply (Rmult_eq_reg_r (/ (IZR (rr_den z) * IZR (rr_den y) ^ Z.to_nat k))); [|apply Rinv_neq_0_compat, Rmult_integral_contrapositive; tauto].
    transitivity (IZR (rr_num y) ^ Z.to_nat k * / IZR (rr_den y) ^ Z.to_nat k)%R; [field; tauto|]. rewrite P. field; tauto. }
  assert (C : Z.gcd (rr_num y ^ k) (rr_den y ^ k) = 1%Z) by (apply gcd_pow_1; [lia|exact Y4]).
  pose proof (Z.pow_pos_nonneg (rr_num y) k ltac:(lia) ltac:(lia)). pose proof (Z.pow_pos_nonneg (rr_den y) k ltac:(lia) ltac:(lia)).
  assert (D1 : (rr_num z | rr_num y ^ k)%Z).
  { apply (Gauss _ (rr_den z)); [exists (rr_den y ^ k)%Z; rewrite Z.mul_comm, E; ring|]. apply Zgcd_1_rel_prime. exact W4. }
  assert (D2 : (rr_num y ^ k | rr_num z)%Z).
  { apply (Gauss _ (rr_den y ^ k)); [exists (rr_den z); rewrite Z.mul_comm, <- E; ring|]. apply Zgcd_1_rel_prime. exact C. }
  assert (EN : rr_num z = (rr_num y ^ k)%Z) by (apply Z.divide_antisym_nonneg; auto; lia).
  split; [exact EN|]. rewrite EN in E. apply Z.mul_cancel_l in E; [exact E|lia].
Qed.

Lemma dim_of_integer fuel roots u e : dim_of fuel roots u e ->
  (forall i, 1 <= i <= 10 -> exists z, (e i == inject_Z z)%Q) -> rr_root (u_dim u) = 1%Z.
Proof.
  intros D HI. destruct (dim_of_val D) as [[W _] [L _]]. pose proof (dim_of_reduced D) as RD.
  destruct (lvec_int_ratio _ HI) as [n [d [Hn [Hd E]]]].
  apply (@reduced_rational (u_dim u) n d); auto.
  apply ln_inv; [apply rr_val_pos|apply Rdiv_pos; apply IZR_pos; lia|].
  rewrite ln_div by (apply IZR_pos; lia). congruence.
Qed.

Lemma dim_of_complete fuel fuel' r r' u v e f : dim_of fuel r u e -> dim_of fuel' r' v f -> same_expo e f ->
  rr_root (u_dim u) = rr_root (u_dim v) -> u_dim u = u_dim v.
Proof.
  intros Du Dv S R. destruct (dim_of_val Du) as [[Wu _] [Lu _]]. destruct (dim_of_val Dv) as [[Wv _] [Lv _]].
  apply rr_canonical; auto. apply ln_inv; try apply rr_val_pos. rewrite Lu, Lv. apply lvec_ext, S.
Qed.

Lemma dim_of_sound fuel fuel' r r' u v e f : dim_of fuel r u e -> dim_of fuel' r' v f -> u_dim u = u_dim v -> same_expo e f.
Proof.
  intros Du Dv E. destruct (dim_of_val Du) as [_ [Lu _]]. destruct (dim_of_val Dv) as [_ [Lv _]].
  apply lvec_inj. congruence.
Qed.
