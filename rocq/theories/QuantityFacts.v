(** Facts about Quantity.v over exact reals and over integers. *)
From Verif Require Import Base Arith ArithFacts ArithFacts2 ArithNewton ArithValue Quantity.
From Coq Require Import ZArith Znumtheory Lia Reals Lra.
Open Scope nat_scope.
Set Implicit Arguments.

Definition ratio_wf (x : ratio) : Prop := (0 < r_den x)%Z.
Definition ratio_val (x : ratio) : R := (IZR (r_num x) / IZR (r_den x))%R.
Definition uty_wf (u : uty) : Prop := rr_wf (u_dim u) /\ rr_wf (u_scale u) /\ ratio_wf (u_off u).

(** The number of base units of v units u (the README's meaning of eval()). *)
Definition phys (u : uty) (v : R) : R := (rr_val (u_scale u) * v + ratio_val (u_off u))%R.

Lemma rr_eqb_eq x y : rr_eqb x y = true <-> x = y.
Proof.
  destruct x, y. unfold rr_eqb. cbn. rewrite !Bool.andb_true_iff, !Z.eqb_eq. split.
  - intros [[-> ->] ->]. reflexivity.
  - intros [= -> -> ->]. auto.
Qed.
Lemma ratio_eqb_eq x y : ratio_eqb x y = true <-> x = y.
Proof.
  destruct x, y. unfold ratio_eqb. cbn. rewrite !Bool.andb_true_iff, !Z.eqb_eq. split.
  - intros [-> ->]. reflexivity.
  - intros [= -> ->]. auto.
Qed.

Lemma mk_ratio_val a b : (0 < b)%Z -> ratio_wf (mk_ratio a b) /\ ratio_val (mk_ratio a b) = (IZR a / IZR b)%R.
Proof.
  intros Hb. unfold mk_ratio, ratio_wf, ratio_val. cbn [r_num r_den].
  rewrite Z.sgn_pos, Z.abs_eq, Z.mul_1_l by lia.
  pose proof (Z.gcd_nonneg a b). assert (G : (Z.gcd a b <> 0)%Z) by (intros E; apply Z.gcd_eq_0 in E; lia).
  destruct (Z.gcd_divide_l a b) as [p Hp]. destruct (Z.gcd_divide_r a b) as [q Hq].
  set (g := Z.gcd a b) in *. clearbody g. rewrite Hp, Hq. rewrite Z.quot_mul, Z.div_mul by exact G.
  assert (0 < q)%Z by nia. split; [assumption|]. rewrite !mult_IZR. field. split; apply not_0_IZR; lia.
Qed.

Lemma ratio_subtract_val x y : ratio_wf x -> ratio_wf y ->
  ratio_wf (ratio_subtract x y) /\ ratio_val (ratio_subtract x y) = (ratio_val x - ratio_val y)%R.
Proof.
  intros Wx Wy. unfold ratio_wf in *. unfold ratio_subtract.
  destruct (@mk_ratio_val (r_num x * r_den y - r_num y * r_den x) (r_den x * r_den y)) as [A B]; [nia|].
  split; [exact A|]. rewrite B. unfold ratio_val. rewrite minus_IZR, !mult_IZR. field.
  split; apply not_0_IZR; lia.
Qed.

Lemma mk_rr_self x : rr_wf x -> mk_rr (rr_num x) (rr_den x) (rr_root x) = x.
Proof.
  intros [A [B [C D]]]. unfold mk_rr. rewrite D, !Z.sgn_pos, !Z.abs_eq, !Z.div_1_r, !Z.mul_1_l by lia.
  destruct x. reflexivity.
Qed.

Lemma rr_val_root1 x : rr_wf x -> rr_root x = 1%Z -> rr_val x = (IZR (rr_num x) / IZR (rr_den x))%R.
Proof.
  intros [A [B [C D]]] E. unfold rr_val. rewrite E. replace (/ 1)%R with 1%R by lra.
  apply Rpower_1, Rdiv_pos; apply IZR_pos; assumption.
Qed.

Lemma rr_divide_root1_some fuel x y : rr_root x = 1%Z -> rr_root y = 1%Z -> exists z, rr_divide fuel x y = Some z.
Proof.
  intros E1 E2. unfold rr_divide, rr_multiply. cbn [rr_root mk_rr]. rewrite E1, E2. cbn [Z.eqb Pos.eqb andb]. eauto.
Qed.
Lemma rr_multiply_root1_some fuel x y : rr_root x = 1%Z -> rr_root y = 1%Z ->
  exists z, rr_multiply fuel x y = Some z /\ rr_root z = 1%Z.
Proof. intros E1 E2. unfold rr_multiply. rewrite E1, E2. cbn [Z.eqb Pos.eqb andb]. eauto. Qed.

(** ** The real instance *)
Definition evR (x : rr) : option R := Some (rr_val x).
Definition castR := quantity_cast Rplus Rmult Rdiv IZR evR (fun x : R => x) (fun x : R => x).

Lemma castR_val fuel a b v w : uty_wf a -> uty_wf b -> castR fuel a b v = Some w ->
  u_dim a = u_dim b /\
  (w = rr_val (u_scale a) / rr_val (u_scale b) * v + (ratio_val (u_off a) - ratio_val (u_off b)))%R.
Proof.
  intros [_ [Sa Oa]] [_ [Sb Ob]]. unfold castR, quantity_cast.
  destruct (rr_eqb (u_dim a) (u_dim b)) eqn:E; [|discriminate]. apply rr_eqb_eq in E.
  destruct (rr_divide fuel (u_scale a) (u_scale b)) as [qs|] eqn:D; [|discriminate]. unfold evR.
  destruct (rr_divide_val fuel Sa Sb D) as [_ V].
  cbv zeta. intros H. split; [exact E|].
  assert (EW : w = (rr_val qs * v + ratio_val (ratio_subtract (u_off a) (u_off b)))%R) by (unfold ratio_val; congruence).
  rewrite EW, V. clear H EW.
  rewrite (proj2 (ratio_subtract_val Oa Ob)). reflexivity.
Qed.

Lemma castR_phys fuel a b v w : uty_wf a -> uty_wf b -> castR fuel a b v = Some w ->
  (phys b w = phys a v + (rr_val (u_scale b) - 1) * (ratio_val (u_off a) - ratio_val (u_off b)))%R.
Proof.
  intros Wa Wb H. destruct (castR_val fuel v Wa Wb H) as [_ ->]. unfold phys.
  pose proof (rr_val_pos (u_scale b)). field. lra.
Qed.

Lemma castR_some fuel a b v : u_dim a = u_dim b -> rr_root (u_scale a) = 1%Z -> rr_root (u_scale b) = 1%Z ->
  exists w, castR fuel a b v = Some w.
Proof.
  intros E R1 R2. unfold castR, quantity_cast. rewrite (proj2 (rr_eqb_eq _ _) E).
  destruct (rr_divide_root1_some fuel _ _ R1 R2) as [z ->]. unfold evR. eauto.
Qed.

Definition ReqbR (x y : R) : bool := if Req_EM_T x y then true else false.
Definition RltbR (x y : R) : bool := if Rlt_dec x y then true else false.
Lemma ReqbR_iff x y : ReqbR x y = true <-> x = y.
Proof. unfold ReqbR. destruct (Req_EM_T x y); split; congruence. Qed.
Lemma RltbR_iff x y : RltbR x y = true <-> (x < y)%R.
Proof. unfold RltbR. destruct (Rlt_dec x y); split; congruence. Qed.

Section Cmp.
  Variables (a b : uty).
  Hypothesis Wa : uty_wf a.
  Hypothesis Wb : uty_wf b.
  Hypothesis Ra : rr_root (u_scale a) = 1%Z.
  Hypothesis Rb : rr_root (u_scale b) = 1%Z.

  (** The common positive denominator of both sides of the comparisons. *)
  Let D := (IZR (rr_den (u_scale a)) * IZR (rr_den (u_scale b)) * IZR (r_den (u_off a)) * IZR (r_den (u_off b)))%R.

  Lemma D_pos : (0 < D)%R.
  Proof.
    destruct Wa as [_ [[_ [A _]] B]]. destruct Wb as [_ [[_ [C _]] E]]. unfold D, ratio_wf in *.
    repeat apply Rmult_lt_0_compat; apply IZR_pos; assumption.
  Qed.
  Lemma cmp_lhs x :
    (IZR (rr_num (u_scale a) * rr_den (u_scale b) * r_den (u_off a) * r_den (u_off b)) * x +
     IZR (r_num (u_off a) * rr_den (u_scale b) * rr_den (u_scale a) * r_den (u_off b)) = phys a x * D)%R.
  Proof.
    destruct Wa as [_ [WS WO]]. unfold phys. rewrite rr_val_root1 by assumption.
    destruct WS as [_ [P _]]. unfold ratio_wf, ratio_val, D in *. rewrite !mult_IZR. field.
    split; apply not_0_IZR; lia.
  Qed.
  Lemma cmp_rhs y :
    (IZR (rr_num (u_scale b) * rr_den (u_scale a) * r_den (u_off b) * r_den (u_off a)) * y +
     IZR (r_num (u_off b) * rr_den (u_scale a) * rr_den (u_scale b) * r_den (u_off a)) = phys b y * D)%R.
  Proof.
    destruct Wb as [_ [WS WO]]. unfold phys. rewrite rr_val_root1 by assumption.
    destruct WS as [_ [P _]]. unfold ratio_wf, ratio_val, D in *. rewrite !mult_IZR. field.
    split; apply not_0_IZR; lia.
  Qed.

  Lemma q_eq_R x y : q_eq Rplus Rmult IZR ReqbR a b x y = true <-> phys a x = phys b y.
  Proof.
    unfold q_eq. rewrite ReqbR_iff, cmp_lhs, cmp_rhs. pose proof D_pos. split.
    - intros EE. apply (Rmult_eq_reg_r D); [exact EE|lra].
    - intros ->. reflexivity.
  Qed.
  Lemma q_lt_R x y : q_lt Rplus Rmult IZR RltbR a b x y = true <-> (phys a x < phys b y)%R.
  Proof.
    unfold q_lt. rewrite RltbR_iff, cmp_lhs, cmp_rhs. pose proof D_pos. split.
    - intros EE. apply (Rmult_lt_reg_r D); assumption.
    - intros EE. apply Rmult_lt_compat_r; assumption.
  Qed.
  Lemma q_eq_Z x y : q_eq Z.add Z.mul (fun z => z) Z.eqb a b x y = true <-> phys a (IZR x) = phys b (IZR y).
  Proof.
    rewrite <- q_eq_R. unfold q_eq. rewrite ReqbR_iff, Z.eqb_eq, <- !mult_IZR, <- !plus_IZR. split.
    - intros ->. reflexivity.
    - apply eq_IZR.
  Qed.
  Lemma q_lt_Z x y : q_lt Z.add Z.mul (fun z => z) Z.ltb a b x y = true <-> (phys a (IZR x) < phys b (IZR y))%R.
  Proof.
    rewrite <- q_lt_R. unfold q_lt. rewrite RltbR_iff, Z.ltb_lt, <- !mult_IZR, <- !plus_IZR. split.
    - apply IZR_lt.
    - apply lt_IZR.
  Qed.
End Cmp.

(** ** Addition *)
Lemma ty_common_val fuel a b c : uty_wf a -> uty_wf b -> ty_common fuel a b = Some c ->
  uty_wf c /\ u_dim a = u_dim b /\ u_dim c = u_dim a /\ u_off a = u_off b /\ u_off c = u_off a /\
  rr_common fuel (u_scale a) (u_scale b) = Some (u_scale c).
Proof.
  intros Wa Wb. pose proof Wa as [Da [Sa Oa]]. pose proof Wb as [Db [Sb Ob]]. unfold ty_common.
  destruct (rr_eqb (u_dim a) (u_dim b)) eqn:E1; [|discriminate].
  destruct (ratio_eqb (u_off a) (u_off b)) eqn:E2; [|discriminate]. cbn [andb].
  destruct (rr_common fuel (u_scale a) (u_scale b)) as [s|] eqn:E3; [|discriminate].
  intros H. injection H as <-. cbn [u_dim u_scale u_off].
  apply rr_eqb_eq in E1. apply ratio_eqb_eq in E2.
  destruct (rr_common_val fuel Sa Sb E3) as [Ws _].
  split; [|repeat split; auto]. repeat split; try apply Da; try apply Oa; cbn; try apply Ws.
Qed.

Lemma q_plus_R op fuel a b c x y z : uty_wf a -> uty_wf b ->
  q_plus Rplus Rmult Rdiv IZR evR fuel op true a b x y = Some (c, z) ->
  u_dim a = u_dim b /\ u_dim c = u_dim a /\ u_off b = u_off a /\ u_off c = u_off a /\ uty_wf c /\
  z = op (rr_val (u_scale a) / rr_val (u_scale c) * x)%R (rr_val (u_scale b) / rr_val (u_scale c) * y)%R.
Proof.
  intros Wa Wb. unfold q_plus, convert, is_implicitly_convertible. cbn [orb].
  destruct (ty_common fuel a b) as [c'|] eqn:E; [|discriminate].
  destruct (ty_common_val fuel Wa Wb E) as [Wc [D1 [D2 [O1 [O2 _]]]]].
  fold (castR fuel a c' x). fold (castR fuel b c' y).
  destruct (castR fuel a c' x) as [x'|] eqn:X; [|discriminate].
  destruct (castR fuel b c' y) as [y'|] eqn:Y; [|discriminate].
  intros H. injection H as <- <-.
  destruct (castR_val fuel x Wa Wc X) as [_ ->]. destruct (castR_val fuel y Wb Wc Y) as [_ ->].
  split; [congruence|]. split; [congruence|]. split; [congruence|]. split; [congruence|]. split; [exact Wc|]. rewrite O2, O1.
  f_equal; ring.
Qed.

Lemma q_add_R fuel a b c x y z : uty_wf a -> uty_wf b ->
  q_add Rplus Rmult Rdiv IZR evR fuel true a b x y = Some (c, z) ->
  u_dim c = u_dim a /\ (phys c z = phys a x + phys b y - ratio_val (u_off a))%R.
Proof.
  intros Wa Wb H. destruct (q_plus_R Rplus fuel x y Wa Wb H) as [D1 [D2 [O1 [O2 [Wc ->]]]]].
  split; [exact D2|]. unfold phys. rewrite O1, O2. pose proof (rr_val_pos (u_scale c)). field. lra.
Qed.
Lemma q_sub_R fuel a b c x y z : uty_wf a -> uty_wf b ->
  q_sub Rplus Rminus Rmult Rdiv IZR evR fuel true a b x y = Some (c, z) ->
  u_dim c = u_dim a /\ (phys c z = phys a x - phys b y + ratio_val (u_off a))%R.
Proof.
  intros Wa Wb H. destruct (q_plus_R Rminus fuel x y Wa Wb H) as [D1 [D2 [O1 [O2 [Wc ->]]]]].
  split; [exact D2|]. unfold phys. rewrite O1, O2. pose proof (rr_val_pos (u_scale c)). field. lra.
Qed.

(** Scales with root 1 always have a common scale when the factorisations of its terms end. *)
Lemma q_iadd_R fuel a b x y z : uty_wf a -> uty_wf b ->
  q_iadd Rplus Rmult Rdiv IZR evR fuel true a b x y = Some z ->
  (phys a z = phys a x + phys b y - ratio_val (u_off b) +
    rr_val (u_scale a) * (ratio_val (u_off b) - ratio_val (u_off a)))%R.
Proof.
  intros Wa Wb. unfold q_iadd, convert, is_implicitly_convertible. cbn [orb]. fold (castR fuel b a y).
  destruct (castR fuel b a y) as [y'|] eqn:Y; [|discriminate]. intros H. injection H as <-.
  destruct (castR_val fuel y Wb Wa Y) as [_ ->]. unfold phys. pose proof (rr_val_pos (u_scale a)). field. lra.
Qed.
Lemma q_isub_R fuel a b x y z : uty_wf a -> uty_wf b ->
  q_isub Rplus Rminus Rmult Rdiv IZR evR fuel true a b x y = Some z ->
  (phys a z = phys a x - (phys b y - ratio_val (u_off b) +
    rr_val (u_scale a) * (ratio_val (u_off b) - ratio_val (u_off a))))%R.
Proof.
  intros Wa Wb. unfold q_isub, convert, is_implicitly_convertible. cbn [orb]. fold (castR fuel b a y).
  destruct (castR fuel b a y) as [y'|] eqn:Y; [|discriminate]. intros H. injection H as <-.
  destruct (castR_val fuel y Wb Wa Y) as [_ ->]. unfold phys. pose proof (rr_val_pos (u_scale a)). field. lra.
Qed.

(** ** Products, quotients, powers and roots *)
Lemma ty_mul_val fuel a b c : uty_wf a -> uty_wf b -> ty_mul fuel a b = Some c ->
  uty_wf c /\ u_off b = zero_ratio /\ u_off c = zero_ratio /\
  rr_val (u_dim c) = (rr_val (u_dim a) * rr_val (u_dim b))%R /\
  rr_val (u_scale c) = (rr_val (u_scale a) * rr_val (u_scale b))%R.
Proof.
  intros [Da [Sa Oa]] [Db [Sb Ob]]. unfold ty_mul.
  destruct (ratio_eqb (u_off b) zero_ratio) eqn:E; [|discriminate]. apply ratio_eqb_eq in E.
  destruct (rr_multiply fuel (u_dim a) (u_dim b)) as [d|] eqn:ED; [|discriminate].
  destruct (rr_multiply fuel (u_scale a) (u_scale b)) as [s|] eqn:ES; [|discriminate].
  intros H. injection H as <-. destruct (rr_multiply_val fuel Da Db ED) as [Wd Vd].
  destruct (rr_multiply_val fuel Sa Sb ES) as [Ws Vs]. unfold uty_wf. cbn [u_dim u_scale u_off].
  repeat split; try assumption; try apply Wd; try apply Ws; unfold ratio_wf; cbn; lia.
Qed.
Lemma ty_div_val fuel a b c : uty_wf a -> uty_wf b -> ty_div fuel a b = Some c ->
  uty_wf c /\ u_off b = zero_ratio /\ u_off c = zero_ratio /\
  rr_val (u_dim c) = (rr_val (u_dim a) / rr_val (u_dim b))%R /\
  rr_val (u_scale c) = (rr_val (u_scale a) / rr_val (u_scale b))%R.
Proof.
  intros [Da [Sa Oa]] [Db [Sb Ob]]. unfold ty_div.
  destruct (ratio_eqb (u_off b) zero_ratio) eqn:E; [|discriminate]. apply ratio_eqb_eq in E.
  destruct (rr_divide fuel (u_dim a) (u_dim b)) as [d|] eqn:ED; [|discriminate].
  destruct (rr_divide fuel (u_scale a) (u_scale b)) as [s|] eqn:ES; [|discriminate].
  intros H. injection H as <-. destruct (rr_divide_val fuel Da Db ED) as [Wd Vd].
  destruct (rr_divide_val fuel Sa Sb ES) as [Ws Vs]. unfold uty_wf. cbn [u_dim u_scale u_off].
  repeat split; try assumption; try apply Wd; try apply Ws; unfold ratio_wf; cbn; lia.
Qed.
Lemma one_rr_wf : rr_wf one_rr.
Proof. repeat split; cbn; lia. Qed.
Lemma one_rr_val : rr_val one_rr = 1%R.
Proof. rewrite rr_val_root1; [cbn; lra|exact one_rr_wf|reflexivity]. Qed.
Lemma ty_inv_val fuel a c : uty_wf a -> ty_inv fuel a = Some c ->
  uty_wf c /\ u_off c = zero_ratio /\
  rr_val (u_dim c) = (/ rr_val (u_dim a))%R /\ rr_val (u_scale c) = (/ rr_val (u_scale a))%R.
Proof.
  intros [Da [Sa Oa]]. unfold ty_inv.
  destruct (rr_divide fuel one_rr (u_dim a)) as [d|] eqn:ED; [|discriminate].
  destruct (rr_divide fuel one_rr (u_scale a)) as [s|] eqn:ES; [|discriminate].
  intros H. injection H as <-. destruct (rr_divide_val fuel one_rr_wf Da ED) as [Wd Vd].
  destruct (rr_divide_val fuel one_rr_wf Sa ES) as [Ws Vs]. rewrite one_rr_val in Vd, Vs.
  unfold Rdiv in *. rewrite Rmult_1_l in Vd, Vs. unfold uty_wf. cbn [u_dim u_scale u_off].
  repeat split; try assumption; try apply Wd; try apply Ws; unfold ratio_wf; cbn; lia.
Qed.
Lemma ty_root_val fuel k a c : uty_wf a -> (1 <= k)%Z -> ty_root fuel k a = Some c ->
  uty_wf c /\ u_off c = zero_ratio /\
  rr_val (u_dim c) = Rpower (rr_val (u_dim a)) (/ IZR k) /\
  rr_val (u_scale c) = Rpower (rr_val (u_scale a)) (/ IZR k).
Proof.
  intros [Da [Sa Oa]] Hk. unfold ty_root.
  destruct (rr_root_impl fuel (u_dim a) k) as [d|] eqn:ED; [|discriminate].
  destruct (rr_root_impl fuel (u_scale a) k) as [s|] eqn:ES; [|discriminate].
  intros H. injection H as <-. destruct (rr_root_impl_val fuel Da Hk ED) as [Wd Vd].
  destruct (rr_root_impl_val fuel Sa Hk ES) as [Ws Vs]. unfold uty_wf. cbn [u_dim u_scale u_off].
  repeat split; try assumption; try apply Wd; try apply Ws; unfold ratio_wf; cbn; lia.
Qed.
Lemma ty_pow_val fuel n a c : uty_wf a -> ty_pow fuel n a = Some c ->
  uty_wf c /\ u_off c = zero_ratio /\
  rr_val (u_dim c) = (rr_val (u_dim a) ^ n)%R /\ rr_val (u_scale c) = (rr_val (u_scale a) ^ n)%R.
Proof.
  intros [Da [Sa Oa]]. unfold ty_pow.
  destruct (rr_power fuel (u_dim a) n) as [d|] eqn:ED; [|discriminate].
  destruct (rr_power fuel (u_scale a) n) as [s|] eqn:ES; [|discriminate].
  intros H. injection H as <-. destruct (rr_power_val fuel n Da ED) as [Wd Vd].
  destruct (rr_power_val fuel n Sa ES) as [Ws Vs]. unfold uty_wf. cbn [u_dim u_scale u_off].
  repeat split; try assumption; try apply Wd; try apply Ws; unfold ratio_wf; cbn; lia.
Qed.

Lemma ratio_val_zero : ratio_val zero_ratio = 0%R.
Proof. unfold ratio_val. cbn. lra. Qed.

Lemma q_mul_R fuel a b c x y z : uty_wf a -> uty_wf b -> q_mul Rmult fuel a b x y = Some (c, z) ->
  uty_wf c /\ rr_val (u_dim c) = (rr_val (u_dim a) * rr_val (u_dim b))%R /\
  (phys c z = (phys a x - ratio_val (u_off a)) * phys b y)%R.
Proof.
  intros Wa Wb. unfold q_mul. destruct (ty_mul fuel a b) as [c'|] eqn:E; [|discriminate].
  intros H. injection H as <- <-. destruct (ty_mul_val fuel Wa Wb E) as [Wc [Ob [Oc [Vd Vs]]]].
  split; [exact Wc|]. split; [exact Vd|]. unfold phys. rewrite Ob, Oc, Vs, ratio_val_zero. ring.
Qed.
Lemma q_div_R fuel a b c x y z : uty_wf a -> uty_wf b -> y <> 0%R -> q_div Rdiv fuel a b x y = Some (c, z) ->
  uty_wf c /\ rr_val (u_dim c) = (rr_val (u_dim a) / rr_val (u_dim b))%R /\
  (phys c z = (phys a x - ratio_val (u_off a)) / phys b y)%R.
Proof.
  intros Wa Wb Hy. unfold q_div. destruct (ty_div fuel a b) as [c'|] eqn:E; [|discriminate].
  intros H. injection H as <- <-. destruct (ty_div_val fuel Wa Wb E) as [Wc [Ob [Oc [Vd Vs]]]].
  split; [exact Wc|]. split; [exact Vd|]. unfold phys. rewrite Ob, Oc, Vs, ratio_val_zero.
  pose proof (rr_val_pos (u_scale b)). field. repeat split; try assumption; try lra.
Qed.
Lemma q_inv_R fuel a c x z : uty_wf a -> x <> 0%R -> q_inv Rdiv IZR fuel a x = Some (c, z) ->
  uty_wf c /\ rr_val (u_dim c) = (/ rr_val (u_dim a))%R /\ (phys c z = / (phys a x - ratio_val (u_off a)))%R.
Proof.
  intros Wa Hx. unfold q_inv. destruct (ty_inv fuel a) as [c'|] eqn:E; [|discriminate].
  intros H. injection H as <- <-. destruct (ty_inv_val fuel Wa E) as [Wc [Oc [Vd Vs]]].
  split; [exact Wc|]. split; [exact Vd|]. unfold phys. rewrite Oc, Vs, ratio_val_zero.
  replace (rr_val (u_scale a) * x + ratio_val (u_off a) - ratio_val (u_off a))%R with (rr_val (u_scale a) * x)%R by ring.
  pose proof (rr_val_pos (u_scale a)). field. split; [assumption|lra].
Qed.

Lemma ct_power_R (x : R) (n : nat) : ct_power 1%R Rmult x (Z.of_nat n) = (x ^ n)%R.
Proof.
  assert (G : forall p, ct_power_pos 1%R Rmult x p = (x ^ Pos.to_nat p)%R).
  { induction p as [p IH|p IH|]; cbn [ct_power_pos].
    - rewrite IH, Pos2Nat.inj_xI. rewrite <- pow_add. replace (S (2 * Pos.to_nat p)) with (Pos.to_nat p + Pos.to_nat p + 1) by lia.
      rewrite (pow_add _ (Pos.to_nat p + Pos.to_nat p) 1), pow_1. reflexivity.
    - rewrite IH, Pos2Nat.inj_xO, <- pow_add, Rmult_1_r. f_equal. lia.
    - change (Pos.to_nat 1) with 1. rewrite pow_1. cbv zeta. ring. }
  unfold ct_power. destruct n; [reflexivity|]. cbn [Z.of_nat]. rewrite G, SuccNat2Pos.id_succ. reflexivity.
Qed.

Lemma q_pow_R fuel n a c x z : uty_wf a -> q_pow Rmult IZR fuel n a x = Some (c, z) ->
  uty_wf c /\ rr_val (u_dim c) = (rr_val (u_dim a) ^ n)%R /\ (phys c z = (phys a x - ratio_val (u_off a)) ^ n)%R.
Proof.
  intros Wa. unfold q_pow, pow_n. destruct (ty_pow fuel n a) as [c'|] eqn:E; [|discriminate].
  intros H. injection H as <- <-. destruct (ty_pow_val fuel n Wa E) as [Wc [Oc [Vd Vs]]].
  split; [exact Wc|]. split; [exact Vd|]. unfold phys. rewrite Oc, Vs, ratio_val_zero. change (IZR 1) with 1%R. rewrite ct_power_R.
  replace (rr_val (u_scale a) * x + ratio_val (u_off a) - ratio_val (u_off a))%R with (rr_val (u_scale a) * x)%R by ring.
  rewrite Rpow_mult_distr. ring.
Qed.

(** [rootT x] is the non-negative k-th root of x. *)
Lemma q_root_R (rootT : R -> R) fuel k a c x z : uty_wf a -> (1 <= k)%Z -> (0 < x)%R ->
  rootT x = Rpower x (/ IZR k) -> q_root fuel rootT k a x = Some (c, z) ->
  uty_wf c /\ rr_val (u_dim c) = Rpower (rr_val (u_dim a)) (/ IZR k) /\
  phys c z = Rpower (phys a x - ratio_val (u_off a)) (/ IZR k).
Proof.
  intros Wa Hk Hx Hr. unfold q_root. destruct (ty_root fuel k a) as [c'|] eqn:E; [|discriminate].
  intros H. injection H as <- <-. destruct (ty_root_val fuel Wa Hk E) as [Wc [Oc [Vd Vs]]].
  split; [exact Wc|]. split; [exact Vd|]. unfold phys. rewrite Oc, Vs, ratio_val_zero, Hr.
  replace (rr_val (u_scale a) * x + ratio_val (u_off a) - ratio_val (u_off a))%R with (rr_val (u_scale a) * x)%R by ring.
  rewrite Rpower_mult_distr; [ring|apply rr_val_pos|exact Hx].
Qed.
