(** Proofs about Equal.v *)
From Coq Require Import Reals Psatz ZArith.
From Flocq Require Import Core.
From Verif Require Import Base Functional FunctionalProofs BaseFl FlFacts Equal.
Open Scope nat_scope.

Lemma fabs_sub_comm a b : fabs_fl (fsub a b) = fabs_fl (fsub b a).
Proof.
  destruct a as [x| | |], b as [y| | |]; simpl; try reflexivity.
  destruct (qltb_spec (x + - y) 0) as [H|H], (qltb_spec (y + - x) 0) as [H'|H'];
    apply (f_equal Fin); try ring; [exfalso; qc_lra|qc_lra].
Qed.
Lemma qabs_le_sym x y : (qltb x y = false -> qltb y x = false -> x = y)%Qc.
Proof.
  destruct (qltb_spec x y), (qltb_spec y x); intros; try discriminate. apply Qcle_antisym; qc_lra.
Qed.
Lemma std_max_comm a b : is_num a -> is_num b -> std_max a b = std_max b a.
Proof.
  unfold is_num, std_max. destruct a as [x| | |], b as [y| | |]; simpl; try congruence.
  intros _ _. destruct (qltb x y) eqn:E1, (qltb y x) eqn:E2; try reflexivity.
  - apply qltb_lt in E1, E2. exfalso. qc_lra.
  - f_equal. symmetry. now apply qabs_le_sym.
Qed.

Lemma fp_equal_sym tol a b : fp_equal_predicate tol a b = fp_equal_predicate tol b a.
Proof.
  unfold fp_equal_predicate. rewrite (andb_comm (fisnan b)), (andb_comm (fisinf b)), (orb_comm (is_zero b)).
  rewrite (fabs_sub_comm b a).
  replace (Bool.eqb (fsignbit b) (fsignbit a)) with (Bool.eqb (fsignbit a) (fsignbit b))
    by (destruct (fsignbit a), (fsignbit b); reflexivity).
  destruct a as [x| | |], b as [y| | |]; try reflexivity.
  all: try (rewrite (std_max_comm (fabs_fl _)) by (simpl; discriminate); reflexivity).
  all: simpl; repeat match goal with |- context [if ?c then _ else _] => destruct c end; reflexivity.
Qed.

Lemma fp_equal_refl tol a : (0 <= tol)%Qc -> fp_equal_predicate tol a a = true.
Proof.
  intros Ht. destruct a as [x| | |]; try reflexivity. unfold fp_equal_predicate. simpl fisnan. simpl fisinf. cbv iota beta.
  assert (E : fabs_fl (fsub (Fin x) (Fin x)) = Fin 0).
  { simpl. replace (x + - x)%Qc with 0%Qc by ring. reflexivity. }
  rewrite E. unfold andb, std_max. simpl fabs_fl.
  set (m := if qltb x 0 then (- x)%Qc else x).
  assert (Hm : (0 <= m)%Qc) by (unfold m; destruct (qltb_spec x 0); qc_lra).
  replace (if flt (Fin m) (Fin m) then Fin m else Fin m) with (Fin m) by (destruct (flt (Fin m) (Fin m)); reflexivity).
  assert (L : forall t, (0 <= t)%Qc -> fle (Fin 0) (Fin t) = true).
  { intros t Hp. unfold fle. simpl. destruct (qltb_spec 0 t); [reflexivity|]. destruct (qeqb_spec 0 t); [reflexivity|].
    exfalso. apply n0. apply Qcle_antisym; qc_lra. }
  destruct (is_zero (Fin x) || is_zero (Fin x) || flt (Fin m) (Fin tol)); [now apply L|].
  simpl fmul. apply L. qc_nra.
Qed.

Lemma tol64_nonneg k : (0 <= tol64 k)%Qc.
Proof.
  unfold tol64. pose proof (qn_nonneg k). assert (0 <= Q2Qc (1 # (2 ^ 53)))%Qc by (vm_compute; discriminate). qc_nra.
Qed.

Definition qabsv (x : Qc) : Qc := if qltb x 0 then (- x)%Qc else x.
Lemma qabsv_spec x : ((0 <= x)%Qc /\ qabsv x = x) \/ ((x < 0)%Qc /\ qabsv x = (- x)%Qc).
Proof. unfold qabsv. destruct (qltb_spec x 0); [right|left]; split; auto; qc_lra. Qed.

(** what the test means for finite numbers *)
Lemma fp_equal_finite tol x y : (0 <= tol)%Qc ->
  fp_equal_predicate tol (Fin x) (Fin y) = true <->
  (if qeqb x 0 || qeqb y 0 || (qltb (qabsv x) tol && qltb (qabsv y) tol) then (qabsv (x - y) <= tol)%Qc
   else (qabsv (x - y) <= tol * qabsv x)%Qc \/ (qabsv (x - y) <= tol * qabsv y)%Qc).
Proof.
  intros Ht. unfold fp_equal_predicate. simpl fisnan. simpl fisinf. cbv iota beta. unfold andb at 1 2.
  assert (L : forall u v, fle (Fin u) (Fin v) = true <-> (u <= v)%Qc).
  { intros u v. rewrite fle_negb_lt by (unfold is_num; discriminate). simpl.
    destruct (qltb_spec v u); simpl; split; intros; try discriminate; try reflexivity; qc_lra. }
  simpl fabs_fl. fold (qabsv x) (qabsv y). fold (qabsv (x + - y)). change (x + - y)%Qc with (x - y)%Qc.
  unfold std_max. simpl flt at 1 3. unfold is_zero, f0. simpl feq. simpl fmul.
  destruct (qltb_spec (qabsv x) (qabsv y)) as [M|M].
  - assert (E : flt (Fin (qabsv y)) (Fin tol) = qltb (qabsv x) tol && qltb (qabsv y) tol).
    { simpl. destruct (qltb_spec (qabsv y) tol), (qltb_spec (qabsv x) tol); simpl; try reflexivity. exfalso; qc_lra. }
    rewrite E. destruct (_ || _); [apply L|]. simpl fmul. rewrite L. split; [tauto|]. intros [H|H]; [|exact H].
    qc_nra.
  - assert (E : flt (Fin (qabsv x)) (Fin tol) = qltb (qabsv x) tol && qltb (qabsv y) tol).
    { simpl. destruct (qltb_spec (qabsv y) tol), (qltb_spec (qabsv x) tol); simpl; try reflexivity. exfalso; qc_lra. }
    rewrite E. destruct (_ || _); [apply L|]. simpl fmul. rewrite L. split; [tauto|]. intros [H|H]; [exact H|].
    qc_nra.
Qed.

Lemma almost_equal_refl_sym : forall (k : nat) (a b : fl),
  almost_equal k a a = true /\ almost_equal k a b = almost_equal k b a.
Proof. intros. split; [apply fp_equal_refl, tol64_nonneg|apply fp_equal_sym]. Qed.

Lemma std_equal_spec {T} (e : T -> T -> bool) a : forall b,
  std_equal e a b = true <-> length a = length b /\ (forall i x y, nth_error a i = Some x -> nth_error b i = Some y -> e x y = true).
Proof.
  induction a as [|x a IH]; intros [|y b]; simpl.
  - split; [intros _; split; [reflexivity|intros [|i]; simpl; discriminate]|reflexivity].
  - split; [discriminate|intros [H _]; discriminate].
  - split; [discriminate|intros [H _]; discriminate].
  - rewrite andb_true_iff, IH. split.
    + intros [H1 [H2 H3]]. split; [congruence|]. intros [|i] u v; simpl; [congruence|apply H3].
    + intros [H1 H2]. split; [exact (H2 0 x y eq_refl eq_refl)|]. split; [congruence|].
      intros i u v Hu Hv. exact (H2 (S i) u v Hu Hv).
Qed.

Lemma std_equal_refl {T} (e : T -> T -> bool) : (forall x, e x x = true) -> forall a, std_equal e a a = true.
Proof. intros H. induction a as [|x a IH]; simpl; [reflexivity|]. now rewrite H, IH. Qed.
Lemma std_equal_sym {T} (e : T -> T -> bool) : (forall x y, e x y = e y x) -> forall a b, std_equal e a b = std_equal e b a.
Proof. intros H. induction a as [|x a IH]; intros [|y b]; simpl; try reflexivity. now rewrite H, IH. Qed.

Lemma almost_equal_array_spec : forall (k : nat) (a b : list fl),
  (almost_equal_array k a b = true <->
   length a = length b /\ forall i x y, nth_error a i = Some x -> nth_error b i = Some y -> almost_equal k x y = true) /\
  almost_equal_array k a a = true /\ almost_equal_array k a b = almost_equal_array k b a.
Proof.
  intros. split; [apply std_equal_spec|]. split.
  - apply std_equal_refl. intros; now apply almost_equal_refl_sym.
  - apply std_equal_sym. intros; now apply almost_equal_refl_sym.
Qed.

Lemma almost_equal_inf_any : forall (k : nat) (x : Qc), 1 <= k -> x <> 0%Qc ->
  almost_equal k PInf (Fin x) = true /\ almost_equal k (Fin x) NInf = true.
Proof.
  intros k x Hk Hx.
  assert (Ht : (0 < tol64 k)%Qc).
  { unfold tol64. assert (0 < Q2Qc (1 # (2 ^ 53)))%Qc by (vm_compute; reflexivity).
    assert (0 < qn k)%Qc by (rewrite <- qn_0, <- qn_lt; lia). qc_nra. }
  assert (Hz : qeqb x 0 = false) by (destruct (qeqb_spec x 0); congruence).
  unfold almost_equal, fp_equal_predicate, is_zero, f0. simpl. rewrite Hz. simpl. unfold inf_times.
  rewrite (cmp_Gt _ Ht). split; reflexivity.
Qed.

Lemma almost_equal_inf_zero : forall k, almost_equal k PInf (Fin 0) = false.
Proof. reflexivity. Qed.

(** *** lerp with rounded operations *)
From Coq Require Import Lra Psatz.
Open Scope R_scope.
Section Rounded.
Variable F : R -> Prop.
Variable rnd : R -> R.
Hypothesis F0 : F 0.
Hypothesis F1 : F 1.
Hypothesis rnd_F : forall x, F x -> rnd x = x.
Hypothesis rnd_mono : forall x y, x <= y -> rnd x <= rnd y.

Definition radd x y := rnd (x + y).
Definition rsub x y := rnd (x - y).
Definition rmul x y := rnd (x * y).
Definition lerp_rounded := lerp 0 1 radd rsub rmul Rle_bool Rlt_bool Req_bool.

Ltac bools :=
  repeat match goal with
  | |- context [Rle_bool ?x ?y] => destruct (Rle_bool_spec x y)
  | |- context [Rlt_bool ?x ?y] => destruct (Rlt_bool_spec x y)
  | |- context [Req_bool ?x ?y] => destruct (Req_bool_spec x y)
  end.

Lemma lerp_ends a b : F a -> F b -> lerp_rounded a b 0 = a /\ lerp_rounded a b 1 = b.
Proof.
  intros Fa Fb. unfold lerp_rounded, lerp, radd, rsub, rmul.
  rewrite !Rmult_0_l, !Rmult_1_l, (rnd_F 0 F0), (rnd_F b Fb).
  replace (1 - 0) with 1 by ring. replace (1 - 1) with 0 by ring.
  rewrite (rnd_F 0 F0), (rnd_F 1 F1), !Rmult_1_l, !Rmult_0_l, (rnd_F a Fa), (rnd_F 0 F0).
  rewrite !Rplus_0_l, !Rplus_0_r, (rnd_F a Fa), (rnd_F b Fb).
  split; bools; simpl; try reflexivity; try lra; try congruence.
Qed.

Lemma rnd_between x lo hi : F lo -> F hi -> lo <= x <= hi -> lo <= rnd x <= hi.
Proof.
  intros Fl Fh [H1 H2]. apply rnd_mono in H1, H2. rewrite rnd_F in H1 by assumption. rewrite (rnd_F hi) in H2 by assumption. lra.
Qed.
Lemma rnd_nonneg x : 0 <= x -> 0 <= rnd x.
Proof. intros H. apply rnd_mono in H. now rewrite rnd_F in H. Qed.
Lemma rnd_nonpos x : x <= 0 -> rnd x <= 0.
Proof. intros H. apply rnd_mono in H. now rewrite (rnd_F 0) in H. Qed.

Lemma unit_mul_bounds t b : F b -> 0 <= t <= 1 ->
  (0 <= b -> 0 <= rnd (t * b) <= b) /\ (b <= 0 -> b <= rnd (t * b) <= 0).
Proof.
  intros Fb Ht. split; intros Hb.
  - apply rnd_between; auto. nra.
  - apply rnd_between; auto. nra.
Qed.

Lemma one_minus_bounds t : 0 <= t <= 1 -> 0 <= rnd (1 - t) <= 1.
Proof. intros. apply rnd_between; auto. lra. Qed.

Lemma lerp_between a b t : F a -> F b -> 0 <= t <= 1 ->
  Rmin a b <= lerp_rounded a b t <= Rmax a b.
Proof.
  intros Fa Fb Ht. unfold lerp_rounded, lerp, radd, rsub, rmul.
  pose proof (unit_mul_bounds t b Fb Ht) as [Hb1 Hb2].
  pose proof (unit_mul_bounds (rnd (1 - t)) a Fa (one_minus_bounds t Ht)) as [Ha1 Ha2].
  destruct (Rle_or_lt a b) as [Hab|Hab].
  - rewrite Rmin_left, Rmax_right by assumption.
    destruct ((Rle_bool a 0 && Rle_bool 0 b) || (Rle_bool 0 a && Rle_bool b 0)) eqn:E.
    + apply rnd_between; auto. revert E. bools; simpl; intros; try discriminate.
      all: try specialize (Hb1 ltac:(lra)); try specialize (Ha2 ltac:(lra));
           try specialize (Hb2 ltac:(lra)); try specialize (Ha1 ltac:(lra)); lra.
    + assert (Hm : 0 <= rnd (t * rnd (b - a))).
      { apply rnd_nonneg. assert (0 <= rnd (b - a)) by (apply rnd_nonneg; lra). nra. }
      assert (Hx : a <= rnd (a + rnd (t * rnd (b - a)))).
      { rewrite <- (rnd_F a Fa) at 1. apply rnd_mono. lra. }
      assert (Hz : a = b -> rnd (a + rnd (t * rnd (b - a))) = a).
      { intros <-. replace (a - a) with 0 by ring. rewrite (rnd_F 0 F0), Rmult_0_r, (rnd_F 0 F0), Rplus_0_r. auto. }
      clear E Hb1 Hb2 Ha1 Ha2. bools; simpl; try lra; exfalso; rewrite Hz in *; lra.
  - rewrite Rmin_right, Rmax_left by lra.
    destruct ((Rle_bool a 0 && Rle_bool 0 b) || (Rle_bool 0 a && Rle_bool b 0)) eqn:E.
    + apply rnd_between; auto. revert E. bools; simpl; intros; try discriminate.
      all: try specialize (Hb1 ltac:(lra)); try specialize (Ha2 ltac:(lra));
           try specialize (Hb2 ltac:(lra)); try specialize (Ha1 ltac:(lra)); lra.
    + assert (Hm : rnd (t * rnd (b - a)) <= 0).
      { apply rnd_nonpos. assert (rnd (b - a) <= 0) by (apply rnd_nonpos; lra). nra. }
      assert (Hx : rnd (a + rnd (t * rnd (b - a))) <= a).
      { rewrite <- (rnd_F a Fa) at 3. apply rnd_mono. lra. }
      clear E Hb1 Hb2 Ha1 Ha2. bools; simpl; try lra.
Qed.

Lemma lerp_same a t : F a -> 0 <= t <= 1 -> lerp_rounded a a t = a.
Proof.
  intros Fa Ht. pose proof (lerp_between a a t Fa Fa Ht) as H. rewrite Rmin_left, Rmax_left in H by lra. lra.
Qed.

Lemma lerp_mono a b t u : F a -> F b -> 0 <= t -> t <= u -> u <= 1 ->
  (a <= b -> lerp_rounded a b t <= lerp_rounded a b u) /\ (b <= a -> lerp_rounded a b u <= lerp_rounded a b t).
Proof.
  intros Fa Fb Ht Htu Hu.
  pose proof (lerp_between a b t Fa Fb ltac:(lra)) as Bt.
  pose proof (lerp_between a b u Fa Fb ltac:(lra)) as Bu.
  revert Bt Bu. unfold lerp_rounded, lerp, radd, rsub, rmul. intros Bt Bu.
  assert (Hs : rnd (1 - u) <= rnd (1 - t)) by (apply rnd_mono; lra).
  split; intros Hab.
  - rewrite Rmin_left, Rmax_right in * by assumption. revert Bt Bu.
    destruct ((Rle_bool a 0 && Rle_bool 0 b) || (Rle_bool 0 a && Rle_bool b 0)) eqn:E.
    + intros _ _. apply rnd_mono. apply Rplus_le_compat; apply rnd_mono.
      * assert (0 <= b) by (revert E; bools; simpl; intros; try discriminate; lra). nra.
      * assert (a <= 0) by (revert E; bools; simpl; intros; try discriminate; lra). nra.
    + assert (rnd (a + rnd (t * rnd (b - a))) <= rnd (a + rnd (u * rnd (b - a)))).
      { apply rnd_mono, Rplus_le_compat_l, rnd_mono. assert (0 <= rnd (b - a)) by (apply rnd_nonneg; lra). nra. }
      clear E. bools; simpl; lra.
  - rewrite Rmin_right, Rmax_left in * by lra. revert Bt Bu.
    destruct ((Rle_bool a 0 && Rle_bool 0 b) || (Rle_bool 0 a && Rle_bool b 0)) eqn:E.
    + intros _ _. apply rnd_mono. apply Rplus_le_compat; apply rnd_mono.
      * assert (b <= 0) by (revert E; bools; simpl; intros; try discriminate; lra). nra.
      * assert (0 <= a) by (revert E; bools; simpl; intros; try discriminate; lra). nra.
    + assert (rnd (a + rnd (u * rnd (b - a))) <= rnd (a + rnd (t * rnd (b - a)))).
      { apply rnd_mono, Rplus_le_compat_l, rnd_mono. assert (rnd (b - a) <= 0) by (apply rnd_nonpos; lra). nra. }
      clear E. bools; simpl; lra.
Qed.
End Rounded.

(** binary64 without overflow: FLT format, round to nearest even *)
Definition b64_format : R -> Prop := generic_format radix2 (FLT_exp (-1074) 53).
Definition b64_round : R -> R := round radix2 (FLT_exp (-1074) 53) ZnearestE.
Definition lerp_b64 := lerp_rounded b64_round.

Lemma b64_0 : b64_format 0. Proof. apply generic_format_0. Qed.
Lemma b64_1 : b64_format 1.
Proof.
  unfold b64_format. change 1 with (bpow radix2 0). apply generic_format_bpow. unfold FLT_exp. lia.
Qed.
#[local] Instance prec53 : Prec_gt_0 53. Proof. reflexivity. Qed.
Lemma b64_round_F x : b64_format x -> b64_round x = x.
Proof. intros H. apply round_generic; [apply valid_rnd_N|exact H]. Qed.
Lemma b64_round_mono x y : x <= y -> b64_round x <= b64_round y.
Proof. apply round_le; [apply FLT_exp_valid; exact prec53|apply valid_rnd_N]. Qed.

Lemma lerp_b64_spec : forall a b, b64_format a -> b64_format b ->
  lerp_b64 a b 0 = a /\ lerp_b64 a b 1 = b /\
  (forall t, 0 <= t <= 1 -> Rmin a b <= lerp_b64 a b t <= Rmax a b) /\
  (forall t, 0 <= t <= 1 -> lerp_b64 a a t = a) /\
  (forall t u, 0 <= t -> t <= u -> u <= 1 ->
     (a <= b -> lerp_b64 a b t <= lerp_b64 a b u) /\ (b <= a -> lerp_b64 a b u <= lerp_b64 a b t)).
Proof.
  intros a b Fa Fb.
  pose proof (lerp_ends b64_format b64_round b64_0 b64_1 b64_round_F a b Fa Fb) as [E1 E2].
  split; [exact E1|]. split; [exact E2|].
  split; [intros t Ht; apply (lerp_between b64_format b64_round); auto using b64_0, b64_1, b64_round_F, b64_round_mono|].
  split; [intros t Ht; apply (lerp_same b64_format b64_round); auto using b64_0, b64_1, b64_round_F, b64_round_mono|].
  intros t u H1 H2 H3. apply (lerp_mono b64_format b64_round); auto using b64_0, b64_1, b64_round_F, b64_round_mono.
Qed.

(** exact arithmetic *)
Definition qlerp := lerp (Q2Qc 0) (Q2Qc 1) Qcplus Qcminus Qcmult qleb qltb qeqb.
From Coq Require Import Lqa.
Lemma qlerp_affine : forall a b t : Qc, qlerp a b t = (a + t * (b - a))%Qc.
Proof.
  intros a b t. unfold qlerp, lerp.
  destruct ((qleb a (Q2Qc 0) && qleb (Q2Qc 0) b) || (qleb (Q2Qc 0) a && qleb b (Q2Qc 0))); [change (Q2Qc 1) with 1%Qc; ring|].
  destruct (qeqb_spec t (Q2Qc 1)) as [->|Ht]; [change (Q2Qc 1) with 1%Qc; ring|].
  change (Q2Qc 1) with 1%Qc in *.
  set (x := (a + t * (b - a))%Qc).
  assert (Hx : (x - b = (t - 1) * (b - a))%Qc) by (unfold x; ring).
  destruct (qltb_spec 1 t) as [H1|H1], (qltb_spec a b) as [H2|H2], (qltb_spec b x) as [H3|H3], (qltb_spec x b) as [H4|H4];
    simpl; try reflexivity; apply Qcle_antisym.
  all: try (assert (0 < (t - 1) * (b - a))%Qc by qc_nra; qc_lra).
  all: try (assert ((t - 1) * (b - a) <= 0)%Qc by qc_nra; qc_lra).
  all: try (assert (0 <= (t - 1) * (b - a))%Qc by qc_nra; qc_lra).
  all: try qc_lra.
  all: assert ((t - 1) * (b - a) <= 0)%Qc by (assert (t - 1 < 0 \/ 0 <= t - 1)%Qc by (destruct (Qclt_le_dec (t-1) 0); auto); qc_nra); qc_lra.
Qed.
