(** Properties C58 and C82 (scicpp/signal/waveforms.hpp). *)
From Coq Require Import ZArith Reals.
From Verif Require Import Base Functional Polynomial PolyReal Waveforms.
From Coq Require Import Lra Psatz.
Open Scope nat_scope.
Set Implicit Arguments.

(** C58 *)
Lemma upd_nth {A} (d : A) : forall v i x k, i < length v -> nth k (upd v i x) d = if k =? i then x else nth k v d.
Proof.
  induction v as [|y v IH]; intros i x k H; [cbn in H; lia|]. destruct i as [|i], k as [|k]; try reflexivity.
  cbn [upd nth Nat.eqb]. apply IH. cbn in H. lia.
Qed.
Lemma upd_len {A} : forall (v : list A) i x, length (upd v i x) = length v.
Proof. induction v as [|y v IH]; intros [|i] x; cbn; auto. Qed.

(** A single 1 at index i (none when i is out of range) and zeros elsewhere; the same for the std::array overload. *)
Theorem C58_unit_impulse : forall (T : Type) (zero one : T) (n i : nat),
  unit_impulse_array zero one n i = unit_impulse zero one n i /\
  exists v, unit_impulse zero one n i = Ok v /\ length v = n /\
  forall k, k < n -> nth_error v k = Some (if k =? i then one else zero).
Proof.
  intros T zero one n i. split; [reflexivity|]. unfold unit_impulse, set_ub. rewrite repeat_length.
  destruct (i <? n) eqn:E.
  - eexists. split; [reflexivity|]. split; [rewrite upd_len; apply repeat_length|]. apply Nat.ltb_lt in E. intros k Hk.
    rewrite (nth_error_nth' _ zero) by (rewrite upd_len, repeat_length; exact Hk). f_equal.
    rewrite upd_nth by (rewrite repeat_length; exact E). destruct (k =? i); [reflexivity|]. apply nth_repeat.
  - eexists. split; [reflexivity|]. split; [apply repeat_length|]. apply Nat.ltb_ge in E. intros k Hk.
    rewrite (nth_error_nth' _ zero) by (rewrite repeat_length; exact Hk). f_equal. rewrite nth_repeat.
    replace (k =? i) with false; [reflexivity|]. symmetry. apply Nat.eqb_neq. lia.
Qed.
Print Assumptions C58_unit_impulse.

(** [wave w r]: one period of the sawtooth, 0 <= r < 2 pi: up from -1 to 1 on [0, 2 pi w), down to -1 on [2 pi w, 2 pi). *)
Definition wave (w r y : R) : Prop :=
  (r < 2 * PI * w -> y = -1 + 2 * (r / (2 * PI * w)))%R /\ (2 * PI * w <= r -> y = 1 - 2 * ((r - 2 * PI * w) / (2 * PI * (1 - w))))%R.

Open Scope R_scope.
Lemma Rdiv_le_0_compat a b : 0 <= a -> 0 < b -> 0 <= a / b.
Proof. intros A B. apply Rmult_le_pos; [exact A|]. apply Rlt_le, Rinv_0_lt_compat, B. Qed.
Lemma Int_part_spec x z : IZR z <= x < IZR z + 1 -> z = Int_part x.
Proof.
  intros H. destruct (base_Int_part x) as [A B].
  assert (L : (z < Int_part x + 1)%Z) by (apply lt_IZR; rewrite plus_IZR; lra).
  assert (M : (Int_part x < z + 1)%Z) by (apply lt_IZR; rewrite plus_IZR; lra). lia.
Qed.
Lemma fmod_nonneg (k : nat) r : 0 <= r < 2 * PI -> fmod (2 * PI * INR k + r) (2 * PI) = r.
Proof.
  intros H. pose proof PI_RGT_0 as P. unfold fmod.
  assert (E : (2 * PI * INR k + r) / (2 * PI) = INR k + r / (2 * PI)) by (field; lra).
  assert (B : 0 <= r / (2 * PI) < 1).
  { split; [apply Rdiv_le_0_compat; lra|]. apply (Rmult_lt_reg_r (2 * PI)); [lra|]. unfold Rdiv. rewrite Rmult_assoc, Rinv_l by lra. lra. }
  rewrite E. unfold Rtrunc. destruct (Rle_dec 0 (INR k + r / (2 * PI))) as [L|L].
  - assert (I : Int_part (INR k + r / (2 * PI)) = Z.of_nat k).
    { symmetry. apply Int_part_spec. rewrite <- INR_IZR_INZ. lra. }
    rewrite I, <- INR_IZR_INZ. ring.
  - exfalso. apply L. pose proof (pos_INR k). lra.
Qed.
Lemma fmod_neg (k : nat) r : 0 <= r < 2 * PI -> fmod (- (2 * PI * INR k) - r) (2 * PI) = - r.
Proof.
  intros H. pose proof PI_RGT_0 as P. unfold fmod.
  assert (E : (- (2 * PI * INR k) - r) / (2 * PI) = - (INR k + r / (2 * PI))) by (field; lra).
  assert (B : 0 <= r / (2 * PI) < 1).
  { split; [apply Rdiv_le_0_compat; lra|]. apply (Rmult_lt_reg_r (2 * PI)); [lra|]. unfold Rdiv. rewrite Rmult_assoc, Rinv_l by lra. lra. }
  rewrite E. unfold Rtrunc. pose proof (pos_INR k) as K.
  assert (I : Int_part (INR k + r / (2 * PI)) = Z.of_nat k) by (symmetry; apply Int_part_spec; rewrite <- INR_IZR_INZ; lra).
  destruct (Rle_dec 0 (- (INR k + r / (2 * PI)))) as [L|L].
  - assert (Z1 : INR k = 0) by lra. assert (Z2 : r / (2 * PI) = 0) by lra. rewrite Z1, Z2.
    replace (Int_part (- (0 + 0))) with 0%Z.
    + ring.
    + apply Int_part_spec. lra.
  - rewrite Ropp_involutive, I, opp_IZR, <- INR_IZR_INZ. ring.
Qed.

Lemma rltb_lt x y : rltb x y = true <-> x < y.
Proof. unfold rltb. destruct (Rlt_dec x y); intuition discriminate. Qed.
Lemma rltb_ge x y : rltb x y = false <-> y <= x.
Proof. unfold rltb. destruct (Rlt_dec x y); intuition (try discriminate); lra. Qed.

Lemma sawtooth_at_period w r : 0 <= w <= 1 -> 0 <= r < 2 * PI -> fmod r (2 * PI) = r ->
  exists y, sawtooth_at w r = Ok y /\ wave w r y /\ -1 <= y <= 1.
Proof.
  intros W H F. pose proof PI_RGT_0 as P. unfold sawtooth_at. rewrite F. destruct (rltb r (w * 2 * PI)) eqn:E.
  - apply rltb_lt in E. assert (W0 : 0 < w) by nra. rewrite (proj2 (rltb_lt 0 w) W0). cbn [require]. eexists. split; [reflexivity|]. split.
    + split; intros X; [field; lra|nra].
    + assert (D : 0 <= r / (w * PI) <= 2).
      { split; [apply Rdiv_le_0_compat; [lra|nra]|]. apply (Rmult_le_reg_r (w * PI)); [nra|]. unfold Rdiv. rewrite Rmult_assoc, Rinv_l by nra. nra. }
      lra.
  - apply rltb_ge in E. assert (W1 : w < 1) by nra. rewrite (proj2 (rltb_lt w 1) W1). cbn [require]. eexists. split; [reflexivity|]. split.
    + split; intros X; [nra|field; lra].
    + assert (D : r / PI * PI = r) by (field; lra).
      set (q := r / PI) in *. assert (Q : 2 * w <= q < 2) by (split; nra).
      split; apply (Rmult_le_reg_r (1 - w)); try lra; unfold Rdiv; rewrite ?Rmult_assoc, ?Rinv_l by lra; nra.
Qed.

(** For t >= 0 the sawtooth is the 2 pi periodic wave, with values in [-1, 1], for every width. *)
Theorem C58_sawtooth_partial : forall (w : R) (t : list R), 0 <= w <= 1 -> Forall (fun x => 0 <= x) t ->
  exists y, sawtooth t w = Ok y /\ length y = length t /\
  forall i : nat, (i < length t)%nat -> -1 <= nth i y 0 <= 1 /\
    forall (k : nat) r, nth i t 0 = 2 * PI * INR k + r -> 0 <= r < 2 * PI -> wave w r (nth i y 0).
Proof.
  intros w t W T. unfold sawtooth. replace (rleb 0 w) with true by (unfold rleb; destruct (Rle_dec 0 w); [reflexivity|lra]).
  replace (rleb w 1) with true by (unfold rleb; destruct (Rle_dec w 1); [reflexivity|lra]). cbn [andb require].
  assert (A : forall x, 0 <= x -> exists y, sawtooth_at w x = Ok y /\ -1 <= y <= 1 /\
    forall (k : nat) r, x = 2 * PI * INR k + r -> 0 <= r < 2 * PI -> wave w r y).
  { intros x X. pose proof PI_RGT_0 as P.
    set (k0 := Z.to_nat (Int_part (x / (2 * PI)))). set (r0 := x - 2 * PI * INR k0).
    assert (B : 0 <= r0 < 2 * PI).
    { assert (Q : 0 <= x / (2 * PI)) by (apply Rdiv_le_0_compat; lra). destruct (base_Int_part (x / (2 * PI))) as [b1 b2].
      assert (I : (0 <= Int_part (x / (2 * PI)))%Z).
      { assert (IZR (-1) < IZR (Int_part (x / (2 * PI)))) by lra. apply lt_IZR in H. lia. }
      assert (K : INR k0 = IZR (Int_part (x / (2 * PI)))) by (unfold k0; rewrite INR_IZR_INZ, Z2Nat.id by exact I; reflexivity).
      assert (D : x / (2 * PI) * (2 * PI) = x) by (field; lra). unfold r0. rewrite K. nra. }
    assert (EX : x = 2 * PI * INR k0 + r0) by (unfold r0; ring).
    assert (F : fmod x (2 * PI) = r0) by (rewrite EX; apply fmod_nonneg, B).
    assert (F0 : fmod r0 (2 * PI) = r0).
    { transitivity (fmod (2 * PI * INR 0 + r0) (2 * PI)); [f_equal; cbn [INR]; ring|apply fmod_nonneg, B]. }
    destruct (@sawtooth_at_period w r0 W B F0) as [y [E [V R]]]. exists y. split; [|split; [exact R|]].
    - rewrite <- E. unfold sawtooth_at. rewrite F, F0. reflexivity.
    - intros k r Ex Hr. replace r with r0; [exact V|]. rewrite <- F, Ex. apply fmod_nonneg, Hr. }
  induction T as [|x t X T IH].
  - exists []. cbn. split; [reflexivity|]. split; [reflexivity|]. intros i Hi. lia.
  - destruct (A x X) as [y [E [R V]]]. destruct IH as [ys [Es [L C]]]. exists (y :: ys). cbn [map_out]. rewrite E. cbn [bind]. rewrite Es. cbn [bind].
    split; [reflexivity|]. split; [cbn; lia|]. intros [|i] Hi; cbn [nth].
    + split; assumption.
    + apply C. cbn in Hi. lia.
Qed.
Print Assumptions C58_sawtooth_partial.
(** a width outside [0, 1] is rejected *)
Theorem C58_width_checked : forall (w : R) (t : list R), w < 0 \/ 1 < w -> sawtooth t w = RequireFail.
Proof.
  intros w t H. unfold sawtooth, require, rleb. destruct (Rle_dec 0 w); [|reflexivity]. destruct (Rle_dec w 1); [lra|reflexivity].
Qed.
Print Assumptions C58_width_checked.

(** FINDING: std::fmod keeps the sign of its argument, so for negative t the sawtooth leaves [-1, 1] and is not periodic; with width 0 it
    aborts. *)
Theorem C58_sawtooth_negative_refuted : forall (k : nat) r, 0 < r < 2 * PI ->
  (forall w, 0 < w <= 1 -> exists y, sawtooth [- (2 * PI * INR k) - r] w = Ok [y] /\ y < -1) /\
  sawtooth [- (2 * PI * INR k) - r] 0 = RequireFail.
Proof.
  intros k r H. pose proof PI_RGT_0 as P. assert (F : fmod (- (2 * PI * INR k) - r) (2 * PI) = - r) by (apply fmod_neg; lra).
  unfold sawtooth, map_out, sawtooth_at. rewrite F. split.
  - intros w W. replace (rleb 0 w) with true by (unfold rleb; destruct (Rle_dec 0 w); [reflexivity|lra]).
    replace (rleb w 1) with true by (unfold rleb; destruct (Rle_dec w 1); [reflexivity|lra]).
    assert (X : - r < w * 2 * PI) by nra. rewrite (proj2 (rltb_lt _ _) X), (proj2 (rltb_lt 0 w)) by lra. cbn. eexists. split; [reflexivity|].
    assert (Q : 0 < r / (w * PI)) by (apply Rdiv_lt_0_compat; nra). unfold Rdiv in *. rewrite Ropp_mult_distr_l_reverse. lra.
  - replace (rleb 0 0) with true by (unfold rleb; destruct (Rle_dec 0 0); [reflexivity|lra]).
    replace (rleb 0 1) with true by (unfold rleb; destruct (Rle_dec 0 1); [reflexivity|lra]).
    assert (X : - r < 0 * 2 * PI) by lra. rewrite (proj2 (rltb_lt _ _) X), (proj2 (rltb_ge 0 0)) by lra. reflexivity.
Qed.
Print Assumptions C58_sawtooth_negative_refuted.

Example C58_nonvacuous : unit_impulse 0%nat 1%nat 4 2 = Ok [0; 0; 1; 0]%nat /\ unit_impulse 0%nat 1%nat 2 5 = Ok [0; 0]%nat /\
  wave (1/2) (PI / 2) 0 /\ wave (1/2) (3 * PI / 2) 0 /\ sawtooth [5 * PI / 2] 1 = Ok [-1/2] /\
  exists y, sawtooth [- (PI / 2)] 1 = Ok [y] /\ y < -1.
Proof.
  pose proof PI_RGT_0 as P. split; [reflexivity|]. split; [reflexivity|].
  split; [split; intros H; [field; lra|lra]|]. split; [split; intros H; [lra|field; lra]|]. split.
  - destruct (@C58_sawtooth_partial 1 [5 * PI / 2]) as [y [E [L C]]]; [lra|repeat constructor; lra|]. rewrite E. destruct y as [|y [|z ys]]; try discriminate L.
    destruct (C 0%nat) as [_ V]; [cbn; lia|]. cbn [nth] in V. destruct (V 1%nat (PI / 2)) as [V1 _]; [cbn; lra|lra|].
    rewrite V1 by lra. f_equal. f_equal. field. lra.
  - destruct (@C58_sawtooth_negative_refuted 0 (PI / 2)) as [H _]; [lra|]. destruct (H 1) as [y [E Y]]; [lra|]. exists y. split; [|exact Y].
    rewrite <- E. f_equal. f_equal. cbn [INR]. ring.
Qed.

(** C82: sweep_poly is cos(phase(t) + phi) for the phase with phase(0) = 0 whose rate of change is 2 pi times the polynomial: the instantaneous
    frequency of the sweep is poly(t). *)
Theorem C82_sweep_poly : forall (poly : list R) (phi : R), poly <> [] ->
  exists phase : R -> R, phase 0 = 0 /\ (forall x, derivable_pt_lim phase x (2 * PI * rpolyval x poly)) /\
  forall t, exists y, sweep_poly t poly phi = Ok y /\ length y = length t /\
  forall i, (i < length t)%nat -> nth i y 0 = cos (phase (nth i t 0) + phi).
Proof.
  intros poly phi H. destruct (@rpolyint_spec _ H) as [Q [E [_ [Z D]]]]. exists (fun x => 2 * PI * rpolyval x Q). split; [rewrite Z; ring|]. split.
  - intros x. pose proof (@derivable_pt_lim_scal (fun t => rpolyval t Q) (2 * PI) x _ (D x)) as X. exact X.
  - intros t. unfold sweep_poly. rewrite E. cbn [bind]. eexists. split; [reflexivity|]. split.
    + induction t as [|x t IH]; cbn; [reflexivity|]. f_equal. exact IH.
    + induction t as [|x t IH]; intros i Hi; [cbn in Hi; lia|]. destruct i as [|i]; [reflexivity|]. cbn [transform1 nth]. apply IH. cbn in Hi. lia.
Qed.
Print Assumptions C82_sweep_poly.
Theorem C82_empty : forall t phi, sweep_poly t [] phi = RequireFail.
Proof. reflexivity. Qed.
(** A linear chirp: poly = 3 + 2 t has phase 2 pi (3 t + t^2). *)
Example C82_nonvacuous : [3; 2] <> ([] : list R) /\ forall t, sweep_poly [t] [3; 2] 0 = Ok [cos (2 * PI * (3 * t + t * t))].
Proof.
  split; [discriminate|]. intros t. unfold sweep_poly, rpolyval, rpolyint. cbn. change (Pos.to_nat 1) with 1%nat. cbn. do 3 f_equal. field.
Qed.
