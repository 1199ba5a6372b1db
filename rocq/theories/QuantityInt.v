(** Quantities with an integer representation. *)
From Verif Require Import Base Arith ArithFacts ArithFacts2 ArithNewton ArithValue Quantity QuantityFacts.
From Coq Require Import ZArith Znumtheory Lia Reals Lra.
Open Scope nat_scope.
Set Implicit Arguments.

Definition castZ (fuel : nat) (a b : uty) (v : Z) : option Z :=
  quantity_cast Z.add Z.mul Z.quot (fun z => z) (eval_Z fuel) (fun x : Z => x) (fun x : Z => x) fuel a b v.

Lemma eval_Z_root1 fuel x : rr_wf x -> rr_root x = 1%Z -> eval_Z fuel x = Some (rr_num x / rr_den x)%Z.
Proof.
  intros [A [B [C D]]] E. unfold eval_Z, ct_root. rewrite E. rewrite Z.quot_div_nonneg by lia.
  pose proof (Z.div_pos (rr_num x) (rr_den x) ltac:(lia) ltac:(lia)).
  destruct (Z.ltb_spec (rr_num x / rr_den x) 0); [lia|]. reflexivity.
Qed.

Lemma rr_val_integer z m : rr_wf z -> rr_root z = 1%Z -> rr_val z = IZR m -> rr_num z = m /\ rr_den z = 1%Z.
Proof.
  intros W E V. rewrite rr_val_root1 in V by assumption. destruct W as [A [B [C D]]].
  assert (H : rr_num z = (m * rr_den z)%Z).
  { apply eq_IZR. rewrite mult_IZR, <- V. field. apply not_0_IZR. lia. }
  rewrite H in D. rewrite Z.mul_comm, Z.gcd_comm, Z.gcd_mul_diag_l in D by lia. rewrite D in *. split; lia.
Qed.

Lemma rr_divide_root1_root fuel x y z : rr_root x = 1%Z -> rr_root y = 1%Z -> rr_divide fuel x y = Some z -> rr_root z = 1%Z.
Proof.
  intros E1 E2. unfold rr_divide, rr_multiply. cbn [rr_root mk_rr]. rewrite E1, E2. cbn [Z.eqb Pos.eqb andb].
  intros H. injection H as <-. reflexivity.
Qed.

Lemma ratio_subtract_same x : ratio_wf x -> ratio_subtract x x = Ratio 0 1.
Proof.
  intros W. unfold ratio_wf in W. unfold ratio_subtract, mk_ratio. rewrite Z.sub_diag, Z.gcd_0_l, Z.sgn_pos, Z.abs_eq by nia.
  rewrite Z.div_same by nia. reflexivity.
Qed.

(** The cast multiplies by the integer part of the ratio of the scales. *)
Lemma castZ_val fuel a b v : uty_wf a -> uty_wf b -> u_dim a = u_dim b -> u_off a = u_off b ->
  rr_root (u_scale a) = 1%Z -> rr_root (u_scale b) = 1%Z ->
  exists q, castZ fuel a b v = Some (q * v)%Z /\ (0 <= q)%Z /\
    (IZR q * rr_val (u_scale b) <= rr_val (u_scale a) < (IZR q + 1) * rr_val (u_scale b))%R.
Proof.
  intros [_ [Sa Oa]] [_ [Sb Ob]] ED EO Ra Rb. unfold castZ, quantity_cast. rewrite (proj2 (rr_eqb_eq _ _) ED), EO.
  destruct (rr_divide_root1_some fuel _ _ Ra Rb) as [z Ez]. rewrite Ez.
  destruct (rr_divide_val fuel Sa Sb Ez) as [Wz Vz]. pose proof (rr_divide_root1_root _ _ _ Ra Rb Ez) as Rz.
  rewrite (eval_Z_root1 _ Wz Rz). rewrite (ratio_subtract_same Ob). cbv zeta. cbn [r_num r_den].
  exists (rr_num z / rr_den z)%Z. split; [f_equal; rewrite Z.quot_0_l by lia; lia|].
  rewrite (rr_val_root1 Wz Rz) in Vz. destruct Wz as [A [B _]]. split; [apply Z.div_pos; lia|].
  pose proof (rr_val_pos (u_scale b)) as Pb. pose proof (Z.div_mod (rr_num z) (rr_den z) ltac:(lia)) as DM.
  pose proof (Z.mod_pos_bound (rr_num z) (rr_den z) ltac:(lia)) as MB.
  assert (Ea : rr_val (u_scale a) = (IZR (rr_num z) / IZR (rr_den z) * rr_val (u_scale b))%R) by (rewrite Vz; field; lra).
  assert (Bp : (0 < IZR (rr_den z))%R) by (apply IZR_pos; lia).
  rewrite Ea. split.
  - apply Rmult_le_compat_r; [lra|]. apply (Rmult_le_reg_r (IZR (rr_den z))); [assumption|].
    unfold Rdiv. rewrite Rmult_assoc, Rinv_l, Rmult_1_r, <- mult_IZR by lra. apply IZR_le. lia.
  - apply Rmult_lt_compat_r; [lra|]. apply (Rmult_lt_reg_r (IZR (rr_den z))); [assumption|].
    unfold Rdiv. rewrite Rmult_assoc, Rinv_l, Rmult_1_r, <- plus_IZR, <- mult_IZR by lra. apply IZR_lt. lia.
Qed.

Lemma castZ_multiple fuel a b v m : uty_wf a -> uty_wf b -> u_dim a = u_dim b -> u_off a = u_off b ->
  rr_root (u_scale a) = 1%Z -> rr_root (u_scale b) = 1%Z -> (rr_val (u_scale a) = IZR m * rr_val (u_scale b))%R ->
  castZ fuel a b v = Some (m * v)%Z.
Proof.
  intros Wa Wb ED EO Ra Rb Hm. destruct (castZ_val fuel v Wa Wb ED EO Ra Rb) as [q [E [_ [H1 H2]]]].
  rewrite E. do 2 f_equal. pose proof (rr_val_pos (u_scale b)). rewrite Hm in H1, H2.
  apply Rmult_le_reg_r in H1; [|assumption]. apply Rmult_lt_reg_r in H2; [|assumption].
  apply le_IZR in H1. rewrite <- plus_IZR in H2. apply lt_IZR in H2. lia.
Qed.

Lemma is_harmonic_iff t f : rr_wf t -> rr_wf f -> rr_root t = 1%Z -> rr_root f = 1%Z ->
  is_harmonic t f = true <-> exists m, (1 <= m)%Z /\ (rr_val f = IZR m * rr_val t)%R.
Proof.
  intros Wt Wf Rt Rf. rewrite !rr_val_root1 by assumption. unfold is_harmonic. rewrite Z.eqb_eq.
  destruct Wt as [A [B _]]. destruct Wf as [C [D _]].
  set (n := (rr_num f * rr_den t)%Z). set (d := (rr_den f * rr_num t)%Z).
  assert (Hd : (0 < d)%Z) by (unfold d; nia). assert (Hn : (0 < n)%Z) by (unfold n; nia).
  assert (EQ : (IZR (rr_num f) / IZR (rr_den f) = IZR n / IZR d * (IZR (rr_num t) / IZR (rr_den t)))%R).
  { unfold n, d. rewrite !mult_IZR. field. repeat split; apply not_0_IZR; lia. }
  assert (TP : (0 < IZR (rr_num t) / IZR (rr_den t))%R) by (apply Rdiv_pos; apply IZR_pos; lia).
  rewrite EQ. destruct (@mk_ratio_val n d Hd) as [W V]. split.
  - intros E. exists (r_num (mk_ratio n d)). rewrite <- V. unfold ratio_val. rewrite E. unfold Rdiv. rewrite Rinv_1, Rmult_1_r.
    split; [|reflexivity]. unfold ratio_val in V. rewrite E in V. unfold Rdiv in V at 1. rewrite Rinv_1, Rmult_1_r in V.
    assert (0 < IZR (r_num (mk_ratio n d)))%R by (rewrite V; apply Rdiv_pos; apply IZR_pos; lia).
    apply (lt_IZR 0) in H. lia.
  - intros [m [Hm E]]. apply Rmult_eq_reg_r in E; [|lra].
    assert (F : n = (m * d)%Z).
    { apply eq_IZR. rewrite mult_IZR, <- E. field. apply not_0_IZR. lia. }
    unfold mk_ratio. cbn [r_den]. rewrite F. rewrite (Z.mul_comm m), Z.gcd_comm, Z.gcd_mul_diag_l, Z.abs_eq, Z.div_same by lia. reflexivity.
Qed.

Lemma rr_common_root1 fuel x y c : rr_wf x -> rr_wf y -> rr_root x = 1%Z -> rr_root y = 1%Z ->
  rr_common fuel x y = Some c -> rr_wf c /\ rr_root c = 1%Z /\
  exists m n, (1 <= m)%Z /\ (1 <= n)%Z /\ (rr_val x = IZR m * rr_val c)%R /\ (rr_val y = IZR n * rr_val c)%R.
Proof.
  intros Wx Wy Rx Ry H. destruct (rr_common_val fuel Wx Wy H) as [Wc [m [n [Hm [Hn [_ [E1 E2]]]]]]].
  split; [exact Wc|]. split.
  - unfold rr_common in H. rewrite Rx, Ry in H. unfold rr_root_impl in H. cbn [mk_rr rr_root] in H. change (1 * 1 * 1)%Z with 1%Z in H.
    match type of H with context [prime_factors fuel ?a] => destruct (prime_factors fuel a) as [[qf| | |]|]; try discriminate end.
    match type of H with context [prime_factors fuel ?a] => destruct (prime_factors fuel a) as [[pf| | |]|]; try discriminate end.
    assert (I : forall t, is_exact_root t 1 = true).
    { intros t. unfold is_exact_root. apply forallb_forall. intros f _. rewrite Z.rem_1_r. reflexivity. }
    rewrite !I in H. cbn [andb] in H. injection H as <-. reflexivity.
  - rewrite Rx, Ry in E1, E2. change (Z.to_nat (1 * 1)) with 1 in E1, E2. rewrite !pow_1 in E1, E2. eauto 10.
Qed.

Lemma q_plus_Z op fuel a b c x y z : uty_wf a -> uty_wf b ->
  rr_root (u_scale a) = 1%Z -> rr_root (u_scale b) = 1%Z ->
  q_plus Z.add Z.mul Z.quot (fun w => w) (eval_Z fuel) fuel op false a b x y = Some (c, z) ->
  u_dim c = u_dim a /\ u_off b = u_off a /\ u_off c = u_off a /\ exists m n,
  (rr_val (u_scale a) = IZR m * rr_val (u_scale c))%R /\ (rr_val (u_scale b) = IZR n * rr_val (u_scale c))%R /\
  z = op (m * x)%Z (n * y)%Z.
Proof.
  intros Wa Wb Ra Rb. unfold q_plus, convert.
  destruct (ty_common fuel a b) as [c'|] eqn:E; [|discriminate].
  destruct (ty_common_val fuel Wa Wb E) as [Wc [D1 [D2 [O1 [O2 HC]]]]].
  pose proof Wa as [_ [Sa _]]. pose proof Wb as [_ [Sb _]].
  destruct (rr_common_root1 _ Sa Sb Ra Rb HC) as [_ [Rc [m [n [Hm [Hn [E1 E2]]]]]]].
  fold (castZ fuel a c' x). fold (castZ fuel b c' y).
  rewrite (@castZ_multiple fuel a c' x m) by (auto; congruence).
  rewrite (@castZ_multiple fuel b c' y n) by (auto; congruence).
  destruct (is_implicitly_convertible false false c' a); [|discriminate].
  destruct (is_implicitly_convertible false false c' b); [|discriminate].
  intros H. injection H as <- <-. repeat (split; [congruence|]). eauto.
Qed.

(** Integer sums of compatible units always compile when the common scale does. *)
Lemma q_plus_Z_some op fuel a b c x y : uty_wf a -> uty_wf b ->
  rr_root (u_scale a) = 1%Z -> rr_root (u_scale b) = 1%Z -> ty_common fuel a b = Some c ->
  exists z, q_plus Z.add Z.mul Z.quot (fun w => w) (eval_Z fuel) fuel op false a b x y = Some (c, z).
Proof.
  intros Wa Wb Ra Rb E. unfold q_plus, convert. rewrite E.
  destruct (ty_common_val fuel Wa Wb E) as [Wc [D1 [D2 [O1 [O2 HC]]]]].
  pose proof Wa as [_ [Sa _]]. pose proof Wb as [_ [Sb _]]. pose proof Wc as [_ [Sc _]].
  destruct (rr_common_root1 _ Sa Sb Ra Rb HC) as [_ [Rc [m [n [Hm [Hn [E1 E2]]]]]]].
  fold (castZ fuel a c x). fold (castZ fuel b c y).
  rewrite (@castZ_multiple fuel a c x m) by (auto; congruence).
  rewrite (@castZ_multiple fuel b c y n) by (auto; congruence).
  unfold is_implicitly_convertible. cbn [orb negb andb].
  rewrite (proj2 (is_harmonic_iff Sc Sa Rc Ra)) by eauto. rewrite (proj2 (is_harmonic_iff Sc Sb Rc Rb)) by eauto. eauto.
Qed.
