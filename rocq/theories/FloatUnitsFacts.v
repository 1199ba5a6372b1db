(** Facts about FloatUnits.v. *)
From Coq Require Import ZArith Reals Bool.
From Verif Require Import Base Arith ArithFacts ArithValue Quantity QuantityFacts QuantityInt FloatArith FloatArithFacts FloatVarFacts FloatWindowsFacts FloatUnits.
From Coq Require Import Lra Psatz Lia.
Open Scope R_scope.

Lemma rltb_iff x y : RltbR x y = true <-> x < y.
Proof. apply RltbR_iff. Qed.
Lemma ratio_sub_self o : (0 < r_den o)%Z -> r_num (ratio_subtract o o) = 0%Z.
Proof. intros H. unfold ratio_subtract, mk_ratio. cbn [r_num]. rewrite Z.sub_diag. rewrite Z.quot_0_l; [lia|]. intros E. apply Z.gcd_eq_0_r in E. nia. Qed.
Lemma mk_rr_self a : (0 < a)%Z -> mk_rr a a 1 = RR 1 1 1.
Proof. intros H. unfold mk_rr. rewrite Z.gcd_diag, Z.sgn_pos, Z.div_same by lia. reflexivity. Qed.
(** addition of quantities is symmetric in the types *)
Lemma rr_common_comm fuel x y : rr_wf x -> rr_wf y -> rr_common fuel x y = rr_common fuel y x.
Proof.
  intros (A1 & A2 & A3 & _) (B1 & B2 & B3 & _). unfold rr_common.
  set (p := ipower (rr_den x) (rr_root y)). set (q := ipower (rr_den y) (rr_root x)).
  assert (Hp : (0 < p)%Z) by (unfold p; rewrite ipower_eq by lia; apply Z.pow_pos_nonneg; lia).
  assert (Hq : (0 < q)%Z) by (unfold q; rewrite ipower_eq by lia; apply Z.pow_pos_nonneg; lia).
  assert (E : (Z.quot p (Z.gcd p q) * q = Z.quot q (Z.gcd q p) * p)%Z).
  { rewrite (Z.gcd_comm q p). pose proof (Z.gcd_divide_l p q) as [a Ha]. pose proof (Z.gcd_divide_r p q) as [b Hb].
    assert (G : (0 < Z.gcd p q)%Z). { pose proof (Z.gcd_nonneg p q). destruct (Z.eq_dec (Z.gcd p q) 0) as [Z|Z]; [rewrite Z in Ha; lia|lia]. }
    set (d := Z.gcd p q) in *. rewrite Ha at 1. rewrite Hb at 2. rewrite !Z.quot_mul by lia. rewrite Ha, Hb at 1. ring. }
  rewrite E, (Z.gcd_comm (ipower (rr_num x) _)), (Z.mul_comm (rr_root x)). reflexivity.
Qed.
Lemma ty_common_comm fuel a b : uty_wf a -> uty_wf b -> ty_common fuel a b = ty_common fuel b a.
Proof.
  intros (_ & A & _) (_ & B & _). unfold ty_common. rewrite (rr_common_comm fuel _ _ A B).
  destruct (rr_eqb (u_dim a) (u_dim b)) eqn:E1.
  - apply rr_eqb_eq in E1. rewrite E1. assert (rr_eqb (u_dim b) (u_dim b) = true) as -> by now apply rr_eqb_eq.
    destruct (ratio_eqb (u_off a) (u_off b)) eqn:E2.
    + apply ratio_eqb_eq in E2. rewrite E2. assert (ratio_eqb (u_off b) (u_off b) = true) as -> by now apply ratio_eqb_eq. reflexivity.
    + destruct (ratio_eqb (u_off b) (u_off a)) eqn:E3; [|reflexivity]. apply ratio_eqb_eq in E3. rewrite E3 in E2.
      assert (ratio_eqb (u_off a) (u_off a) = true) by now apply ratio_eqb_eq. congruence.
  - destruct (rr_eqb (u_dim b) (u_dim a)) eqn:E3; [|reflexivity]. apply rr_eqb_eq in E3. rewrite E3 in E1.
    assert (rr_eqb (u_dim a) (u_dim a) = true) by now apply rr_eqb_eq. congruence.
Qed.

Section Bounds.
Variables (u : R) (fmt : R -> Prop) (rnd : R -> R).
Hypothesis RD : rounding u 0 fmt rnd.
Hypothesis Hinv : forall x, Rabs (rnd x - x) <= u * Rabs (rnd x).
Hypothesis F1 : fmt 1.
Let Id := rd_id _ _ _ _ RD.
Let Mono := rd_mono _ _ _ _ RD.
Notation g := (g u).
Notation rel := (rel u).
Notation acc := (acc u).
Variable nan : R.
Lemma rnd_0 : rnd 0 = 0. Proof. apply Id, (rd_0 _ _ _ _ RD). Qed.
Lemma rel_pos k x X : rel k x X -> 0 < X -> 0 < x.
Proof. intros (r & [R1 _] & ->) HX. pose proof (gi u fmt rnd RD k). apply Rmult_lt_0_compat; lra. Qed.
Lemma rel_sign0 k x X : rel k x X -> X = 0 -> x = 0.
Proof. intros (r & _ & ->) ->. ring. Qed.

(** the conversion factor and the conversion offset *)
Lemma eval_root1 fuel x : rr_root x = 1%Z -> (0 < rr_num x)%Z -> (0 < rr_den x)%Z ->
  exists s, fl_eval rnd nan fuel x = Some s /\ rel 3 s (IZR (rr_num x) / IZR (rr_den x)) /\ 0 < s /\ (rr_num x = rr_den x -> s = 1) /\ (rr_den x = 1%Z -> fmt (IZR (rr_num x)) -> s = IZR (rr_num x)).
Proof.
  intros Hr Hn Hd. set (s := rnd (rnd (IZR (rr_num x)) / rnd (IZR (rr_den x)))).
  assert (Rl : rel 3 s (IZR (rr_num x) / IZR (rr_den x))).
  { apply (rel_rnd u fmt rnd RD Hinv 2). apply (rel_div u fmt rnd RD 1 1); apply (rel_rnd1 u fmt rnd RD Hinv). }
  assert (P : 0 < s). { apply (rel_pos 3 _ _ Rl). apply Rdiv_lt_0_compat; now apply IZR_lt. }
  exists s. split; [|split; [exact Rl|split; [exact P|split]]].
  - unfold fl_eval, ct_root, fl_quot, fl_Z. fold s. destruct (RltbR s 0) eqn:E; [apply rltb_iff in E; lra|]. rewrite Hr. reflexivity.
  - intros E. unfold s. rewrite E. pose proof (rel_pos 1 _ _ (rel_rnd1 u fmt rnd RD Hinv (IZR (rr_den x))) (IZR_lt _ _ Hd)).
    unfold Rdiv. rewrite Rinv_r by lra. now apply Id.
  - intros E F. unfold s. rewrite E. rewrite (Id 1 F1), (Id _ F). unfold Rdiv. rewrite Rinv_1, Rmult_1_r. now apply Id.
Qed.
Lemma off_rel o : (0 < r_den o)%Z -> rel 3 (rnd (rnd (IZR (r_num o)) / rnd (IZR (r_den o)))) (ratio_val o).
Proof.
  intros Hd. apply (rel_rnd u fmt rnd RD Hinv 2). apply (rel_div u fmt rnd RD 1 1); apply (rel_rnd1 u fmt rnd RD Hinv).
Qed.
Lemma cast_form fuel a b : uty_wf a -> uty_wf b -> rr_root (u_scale a) = 1%Z -> rr_root (u_scale b) = 1%Z -> u_dim a = u_dim b ->
  exists s o, (forall v, fl_cast rnd nan fuel a b v = Some (rnd (rnd (s * v) + o))) /\ 0 < s /\
    rel 3 s (rr_val (u_scale a) / rr_val (u_scale b)) /\ rel 3 o (ratio_val (u_off a) - ratio_val (u_off b)) /\
    (u_off a = u_off b -> o = 0) /\ (u_scale a = u_scale b -> s = 1) /\
    (forall n, rr_val (u_scale a) = IZR n * rr_val (u_scale b) -> fmt (IZR n) -> s = IZR n).
Proof.
  intros Wa Wb Ra Rb D. pose proof Wa as (_ & Sa & Oa). pose proof Wb as (_ & Sb & Ob).
  assert (EQ : exists q, rr_divide fuel (u_scale a) (u_scale b) = Some q /\ rr_root q = 1%Z).
  { unfold rr_divide, rr_multiply. cbn [rr_root mk_rr]. rewrite Ra, Rb. cbn [Z.eqb Pos.eqb andb]. eexists. split; [reflexivity|reflexivity]. }
  destruct EQ as (q & Eq & Rq). destruct (rr_divide_val fuel Sa Sb Eq) as [Wq Vq]. pose proof Wq as (Q1 & Q2 & Q3 & Q4).
  destruct (eval_root1 fuel q Rq Q1 Q2) as (s & Es & Rs & Ps & Ss & Sz).
  pose proof (rr_val_root1 Wq Rq) as V. rewrite V in Vq.
  destruct (ratio_subtract_val Oa Ob) as [Od Ov].
  exists s, (rnd (rnd (IZR (r_num (ratio_subtract (u_off a) (u_off b)))) / rnd (IZR (r_den (ratio_subtract (u_off a) (u_off b)))))).
  split; [|split; [exact Ps|split; [now rewrite <- Vq|split; [rewrite <- Ov; apply off_rel; apply Od|split; [|split]]]]].
  - intros v. unfold fl_cast, quantity_cast. assert (rr_eqb (u_dim a) (u_dim b) = true) as -> by now apply rr_eqb_eq. rewrite Eq, Es. reflexivity.
  - intros E. rewrite E, ratio_sub_self by exact Ob. rewrite rnd_0. unfold Rdiv. rewrite Rmult_0_l. apply rnd_0.
  - intros E. apply Ss. assert (K : IZR (rr_num q) / IZR (rr_den q) = 1).
    { rewrite Vq, E. unfold Rdiv. apply Rinv_r. pose proof (rr_val_pos (u_scale b)). lra. }
    apply eq_IZR. apply (Rmult_eq_reg_r (/ IZR (rr_den q))); [|apply Rinv_neq_0_compat, not_0_IZR; lia]. unfold Rdiv in K. rewrite K. rewrite Rinv_r; [reflexivity|apply not_0_IZR; lia].
  - intros n E F. assert (K : IZR (rr_num q) / IZR (rr_den q) = IZR n).
    { rewrite Vq, E. pose proof (rr_val_pos (u_scale b)). field. lra. }
    assert (K2 : (rr_num q = n * rr_den q)%Z).
    { apply eq_IZR. rewrite mult_IZR, <- K. field. apply not_0_IZR. lia. }
    assert (K3 : rr_den q = 1%Z).
    { rewrite K2, Z.mul_comm, Z.gcd_comm, Z.gcd_mul_diag_l in Q4 by lia. exact Q4. }
    rewrite K3, Z.mul_1_r in K2. rewrite <- K2. apply Sz; [exact K3|]. now rewrite K2.
Qed.

(** comparisons of units with the same offset and integer factors of the format *)
Variables a b : uty.
Hypothesis Wa : uty_wf a.
Hypothesis Wb : uty_wf b.
Hypothesis EO : u_off a = u_off b.
Let F := (rr_num (u_scale a) * rr_den (u_scale b) * r_den (u_off a) * r_den (u_off b))%Z.
Let G := (rr_num (u_scale b) * rr_den (u_scale a) * r_den (u_off b) * r_den (u_off a))%Z.
Hypothesis FF : fmt (IZR F).
Hypothesis FG : fmt (IZR G).
Let o := rnd (IZR (r_num (u_off a) * rr_den (u_scale b) * rr_den (u_scale a) * r_den (u_off b))).
Lemma lt_form x y : fl_lt rnd a b x y = RltbR (rnd (rnd (IZR F * x) + o)) (rnd (rnd (IZR G * y) + o)).
Proof.
  unfold fl_lt, q_lt, fl_Z, fl_mul, fl_add. fold F G. rewrite (Id _ FF), (Id _ FG). unfold o. do 4 f_equal. rewrite EO. f_equal. ring.
Qed.
Lemma eq_form x y : fl_eq rnd a b x y = ReqbR (rnd (rnd (IZR F * x) + o)) (rnd (rnd (IZR G * y) + o)).
Proof.
  unfold fl_eq, q_eq, fl_Z, fl_mul, fl_add. fold F G. rewrite (Id _ FF), (Id _ FG). unfold o. do 4 f_equal. rewrite EO. f_equal. ring.
Qed.
Hypothesis Ra : rr_root (u_scale a) = 1%Z.
Hypothesis Rb : rr_root (u_scale b) = 1%Z.
(** the two factors are a common positive multiple of the scales *)
Lemma factors : exists c, 0 < c /\ IZR F = c * rr_val (u_scale a) /\ IZR G = c * rr_val (u_scale b).
Proof.
  destruct Wa as (_ & Sa & Oa). destruct Wb as (_ & Sb & Ob). rewrite (rr_val_root1 Sa Ra), (rr_val_root1 Sb Rb).
  destruct Sa as (A1 & A2 & _). destruct Sb as (B1 & B2 & _).
  exists (IZR (rr_den (u_scale a) * rr_den (u_scale b) * r_den (u_off a) * r_den (u_off b))). unfold F, G. rewrite !mult_IZR.
  pose proof (IZR_lt _ _ A2). pose proof (IZR_lt _ _ B2). pose proof (IZR_lt _ _ Oa). pose proof (IZR_lt _ _ Ob).
  split; [repeat apply Rmult_lt_0_compat; assumption|]. split; field; lra.
Qed.
Lemma key_mono x y : rr_val (u_scale a) * x <= rr_val (u_scale b) * y -> rnd (rnd (IZR F * x) + o) <= rnd (rnd (IZR G * y) + o).
Proof.
  destruct factors as (c & Hc & -> & ->). intros H. apply Mono, Rplus_le_compat_r, Mono. rewrite !Rmult_assoc. apply Rmult_le_compat_l; lra.
Qed.
Lemma key_mono' x y : rr_val (u_scale b) * y <= rr_val (u_scale a) * x -> rnd (rnd (IZR G * y) + o) <= rnd (rnd (IZR F * x) + o).
Proof.
  destruct factors as (c & Hc & -> & ->). intros H. apply Mono, Rplus_le_compat_r, Mono. rewrite !Rmult_assoc. apply Rmult_le_compat_l; lra.
Qed.
Lemma eq_close x y : r_num (u_off a) = 0%Z -> fl_eq rnd a b x y = true -> Rabs (rr_val (u_scale a) * x - rr_val (u_scale b) * y) <= 2 * u * (1 + u) * Rabs (rr_val (u_scale a) * x).
Proof.
  intros Z E. rewrite eq_form in E. unfold ReqbR in E. destruct (Req_EM_T _ _) as [E'|]; [clear E; rename E' into E|discriminate].
  assert (O : o = 0) by (unfold o; rewrite Z, !Z.mul_0_l; apply rnd_0). rewrite O, !Rplus_0_r in E. rewrite !(Id (rnd _) (rd_fmt _ _ _ _ RD _)) in E.
  destruct factors as (c & Hc & EF & EG). rewrite EF, EG in E. set (X := rr_val (u_scale a) * x) in *. set (Y := rr_val (u_scale b) * y) in *.
  replace (c * rr_val (u_scale a) * x) with (c * X) in E by (unfold X; ring). replace (c * rr_val (u_scale b) * y) with (c * Y) in E by (unfold Y; ring).
  pose proof (Hinv (c * X)) as H1. pose proof (Hinv (c * Y)) as H2. rewrite <- E in H2. set (r := rnd (c * X)) in *.
  pose proof (rd_err _ _ _ _ RD (c * X)) as H3. fold r in H3. rewrite Rplus_0_r in H3.
  assert (H4 : Rabs r <= (1 + u) * Rabs (c * X)). { replace r with ((r - c * X) + c * X) by ring. eapply Rle_trans; [apply Rabs_triang|]. lra. }
  assert (H5 : Rabs (c * (X - Y)) <= 2 * u * Rabs r).
  { replace (c * (X - Y)) with ((r - c * Y) - (r - c * X)) by ring. eapply Rle_trans; [apply Rabs_triang|]. rewrite Rabs_Ropp. lra. }
  pose proof (u_pos _ _ _ _ RD) as Hu. rewrite Rabs_mult in H5, H4. rewrite (Rabs_pos_eq c) in H5, H4 by lra.
  apply (Rmult_le_reg_l c); [exact Hc|]. eapply Rle_trans; [exact H5|]. pose proof (Rmult_le_compat_l (2 * u) _ _ ltac:(lra) H4). lra.
Qed.
End Bounds.
