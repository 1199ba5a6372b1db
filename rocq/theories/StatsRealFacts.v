(** Facts about StatsReal.v *)
From Coq Require Import ZArith Reals Field.
From Verif Require Import Base Functional FunctionalProofs Spec Numeric NumericFacts BaseFl Maths Stats StatsMoments StatsReal.
From Coq Require Import Lra Psatz.
Open Scope nat_scope.
Set Implicit Arguments.

(** Specification: sum, mean and n-th central moment of a list of real numbers. *)
Definition total (x : list R) : R := bigop Rplus 0%R x.
Definition average (x : list R) : R := (total x / INR (length x))%R.
Definition central_moment (n : nat) (x : list R) : R := average (map (fun u => (u - average x) ^ n)%R x).

Local Open Scope R_scope.
Lemma R_field : field_theory 0 1 Rplus Rmult Rminus Ropp Rdiv Rinv eq.
Proof. exact Rfield. Qed.
Lemma len_pos {A} (x : list A) : x <> [] -> 0 < INR (length x).
Proof. destruct x; [congruence|]. intros _. apply lt_0_INR. simpl; lia. Qed.
Lemma total_cons u x : total (u :: x) = u + total x. Proof. reflexivity. Qed.
Lemma total_map_add {A} (f g : A -> R) l : total (map (fun u => f u + g u) l) = total (map f l) + total (map g l).
Proof. induction l as [|u l IH]; [unfold total; simpl; lra|]. simpl map. rewrite !total_cons, IH. lra. Qed.
Lemma total_map_scale {A} k (f : A -> R) l : total (map (fun u => k * f u) l) = k * total (map f l).
Proof. induction l as [|u l IH]; [unfold total; simpl; lra|]. simpl map. rewrite !total_cons, IH. lra. Qed.
Lemma total_const {A} k (l : list A) : total (map (fun _ => k) l) = INR (length l) * k.
Proof. induction l as [|u l IH]; [unfold total; simpl; lra|]. simpl map. rewrite total_cons, IH. simpl length. rewrite S_INR. lra. Qed.
Lemma total_ext {A} (f g : A -> R) l : (forall u, In u l -> f u = g u) -> total (map f l) = total (map g l).
Proof. intros H. f_equal. now apply map_ext_in. Qed.
Lemma total_le {A} (f g : A -> R) l : (forall u, In u l -> f u <= g u) -> total (map f l) <= total (map g l).
Proof.
  induction l as [|u l IH]; intros H; [unfold total; simpl; lra|]. simpl map. rewrite !total_cons.
  pose proof (H u (or_introl eq_refl)). specialize (IH (fun v Hv => H v (or_intror Hv))). lra.
Qed.
Lemma total_nonneg {A} (f : A -> R) l : (forall u, In u l -> 0 <= f u) -> 0 <= total (map f l).
Proof. intros H. pose proof (total_le (fun _ => 0) f l H) as T. rewrite total_const in T. lra. Qed.
Lemma total_zero {A} (f : A -> R) l : (forall u, In u l -> 0 <= f u) -> total (map f l) = 0 -> forall u, In u l -> f u = 0.
Proof.
  induction l as [|v l IH]; intros H E u Hu; [destruct Hu|]. simpl map in E. rewrite total_cons in E.
  pose proof (H v (or_introl eq_refl)) as Hv.
  pose proof (total_nonneg f l (fun w Hw => H w (or_intror Hw))) as Hl.
  destruct Hu as [->|Hu]; [lra|]. apply IH; auto; [|lra]. intros w Hw. apply H. now right.
Qed.

(** averages *)
Lemma avg_map {A} (f : A -> R) l : average (map f l) = total (map f l) / INR (length l).
Proof. unfold average. now rewrite map_length. Qed.
Lemma avg_add {A} (f g : A -> R) l : average (map (fun u => f u + g u) l) = average (map f l) + average (map g l).
Proof. rewrite !avg_map, total_map_add. unfold Rdiv. lra. Qed.
Lemma avg_scale {A} k (f : A -> R) l : average (map (fun u => k * f u) l) = k * average (map f l).
Proof. rewrite !avg_map, total_map_scale. unfold Rdiv. lra. Qed.
Lemma avg_const {A} k (l : list A) : l <> [] -> average (map (fun _ => k) l) = k.
Proof. intros H. rewrite avg_map, total_const. field. pose proof (len_pos H). lra. Qed.
Lemma avg_ext {A} (f g : A -> R) l : (forall u, In u l -> f u = g u) -> average (map f l) = average (map g l).
Proof. intros H. rewrite !avg_map. f_equal. now apply total_ext. Qed.
Lemma avg_le {A} (f g : A -> R) l : l <> [] -> (forall u, In u l -> f u <= g u) -> average (map f l) <= average (map g l).
Proof.
  intros Hl H. rewrite !avg_map. pose proof (len_pos Hl). unfold Rdiv. apply Rmult_le_compat_r; [|now apply total_le].
  left. now apply Rinv_0_lt_compat.
Qed.
Lemma avg_id x : average (map (fun u => u) x) = average x.
Proof. now rewrite map_id. Qed.
Lemma avg_affine a b x : x <> [] -> average (map (fun u => a * u + b) x) = a * average x + b.
Proof. intros H. rewrite avg_add, avg_scale, (avg_const b H), avg_id. reflexivity. Qed.
Lemma cm_affine n a b x : x <> [] -> central_moment n (map (fun u => a * u + b) x) = a ^ n * central_moment n x.
Proof.
  intros H. unfold central_moment. rewrite (avg_affine a b H), map_map.
  rewrite <- (avg_scale (a ^ n) (fun u => (u - average x) ^ n)). apply avg_ext. intros u _. rewrite <- Rpow_mult_distr. f_equal. lra.
Qed.
Lemma cm_even_nonneg n x : x <> [] -> 0 <= central_moment (2 * n) x.
Proof.
  intros H. unfold central_moment. pose proof (@avg_le R (fun _ => 0) (fun u => (u - average x) ^ (2 * n)) x H) as L.
  rewrite (avg_const 0 H) in L. apply L. intros u _. rewrite pow_mult. apply pow_le, pow2_ge_0.
Qed.
Lemma dev_zero x : x <> [] -> average (map (fun u => u - average x) x) = 0.
Proof.
  intros H. rewrite (avg_ext _ (fun u => u + (- average x)) x) by (intros; lra). rewrite avg_add, avg_id, (avg_const _ H). lra.
Qed.

(** Cauchy-Schwarz for averages *)
Lemma avg_cs {A} (f g : A -> R) l : l <> [] ->
  average (map (fun u => f u * g u) l) * average (map (fun u => f u * g u) l)
  <= average (map (fun u => f u * f u) l) * average (map (fun u => g u * g u) l).
Proof.
  intros H. set (a := average (map (fun u => f u * f u) l)). set (b := average (map (fun u => f u * g u) l)).
  set (c := average (map (fun u => g u * g u) l)).
  assert (Q : forall s t, 0 <= s * s * a + 2 * (s * t) * b + t * t * c).
  { intros s t. assert (E : average (map (fun u => (s * f u + t * g u) * (s * f u + t * g u)) l) = s * s * a + 2 * (s * t) * b + t * t * c).
    { unfold a, b, c. rewrite <- (avg_scale (s * s)), <- (avg_scale (2 * (s * t))), <- (avg_scale (t * t)), <- !avg_add.
      apply avg_ext. intros; ring. }
    rewrite <- E. pose proof (@avg_le A (fun _ => 0) (fun u => (s * f u + t * g u) * (s * f u + t * g u)) l H) as L.
    rewrite (avg_const 0 H) in L. apply L. intros u _. cbv beta. apply Rle_0_sqr. }
  pose proof (Q 1 0) as A1. pose proof (Q 0 1) as C1.
  destruct (Req_dec c 0) as [C0|C0].
  - pose proof (Q 1 ((-(a + 1) / 2) * b)) as Q1. pose proof (Q 1 (- b)) as Q2. rewrite C0 in *.
    assert (b * b = 0); [|nra].
    assert (0 <= a) by lra. replace (1 * 1 * a + 2 * (1 * (- (a + 1) / 2 * b)) * b + - (a + 1) / 2 * b * (- (a + 1) / 2 * b) * 0)
      with (a - (a + 1) * (b * b)) in Q1 by field.
    destruct (Req_dec b 0) as [->|B]; [lra|]. exfalso.
    pose proof (Q 1 (- (a + 1) / (2 * b))) as Q3.
    replace (1 * 1 * a + 2 * (1 * (- (a + 1) / (2 * b))) * b + - (a + 1) / (2 * b) * (- (a + 1) / (2 * b)) * 0) with (- 1) in Q3
      by (field; lra). lra.
  - pose proof (Q c (- b)) as Q1. replace (c * c * a + 2 * (c * - b) * b + - b * - b * c) with (c * (a * c - b * b)) in Q1 by ring.
    assert (0 < c) by nra. nra.
Qed.

(** *** The model computes the textbook quantities *)
Lemma rconj n : (fun x : R => x) (INR n) = INR n. Proof. reflexivity. Qed.
Lemma kmean_R x : kmean R 0 Rplus Rdiv INR x = average x. Proof. reflexivity. Qed.
Lemma kcodev_R x : kcodev R 0 Rplus Rmult Rminus Rdiv (fun x => x) INR (combine x x) = total (map (fun u => (u - average x) ^ 2) x).
Proof.
  assert (E : combine x x = map (fun u => (u, u)) x) by (induction x; simpl; congruence).
  unfold kcodev. rewrite E, !map_map. simpl fst. simpl snd. rewrite map_id. change (kmean R 0 Rplus Rdiv INR x) with (average x).
  apply total_ext. intros; ring.
Qed.
Lemma INR_nz n : n <> O -> INR n <> 0. Proof. intros H. apply not_0_INR. exact H. Qed.
Lemma rvar_filter_all nan inf ddof x : x <> [] ->
  rvar_filter nan inf ddof x f_all =
  Ok (if (Z.of_nat (length x) - ddof <=? 0)%Z then inf else total (map (fun u => (u - average x) ^ 2) x) / IZR (Z.of_nat (length x) - ddof)%Z,
      length x).
Proof.
  intros Hx. unfold rvar_filter, var_filter, covariance_filter, require. rewrite Nat.eqb_refl.
  destruct (Nat.eqb_spec (length x) 0) as [E|_]; [destruct x; simpl in E; congruence|].
  assert (S := @covariance_spec R 0 1 Rplus Rmult Rminus Ropp Rdiv Rinv (fun x => x) INR R_field
    (fun _ _ => eq_refl) (fun _ _ => eq_refl) (fun _ => eq_refl) eq_refl eq_refl plus_INR INR_nz nan inf IZR).
  (* the same computation, keeping the count *)
  unfold pairwise_accumulate2, require. rewrite Nat.eqb_refl. cbn [bind].
  assert (H : forall l : list (R * R), l <> [] ->
    pairwise_accumulate 64 (cov_block 0 nan Rplus Rminus Rmult Rdiv (fun x => x) INR false f_all) (cov_combine 1 Rplus Rminus Rmult Rdiv (fun x => x) INR) l =
    (average (map fst l), average (map snd l), kcodev R 0 Rplus Rmult Rminus Rdiv (fun x => x) INR l, length l)).
  { intros l. apply (pairwise_ind 64 _ _ (fun l r => l <> [] -> r = (average (map fst l), average (map snd l), kcodev R 0 Rplus Rmult Rminus Rdiv (fun x => x) INR l, length l))); [lia| |].
    - clear l. intros l _ Hl'. unfold cov_block.
      assert (A1 : map fst l <> []) by (destruct l; simpl; congruence). assert (A2 : map snd l <> []) by (destruct l; simpl; congruence).
      pose proof (@mean_all R 0 1 Rplus Rmult Rminus Ropp Rdiv Rinv INR R_field false nan (map fst l) A1) as M1.
      pose proof (@mean_all R 0 1 Rplus Rmult Rminus Ropp Rdiv Rinv INR R_field false nan (map snd l) A2) as M2.
      unfold mean in M1, M2. rewrite M1, M2.
      rewrite (@fold_codev R 0 1 Rplus Rmult Rminus Ropp Rdiv Rinv (fun x => x) R_field), filter_all2. unfold kcodev. f_equal. f_equal. ring.
    - clear l. intros a b ra rb HB [B1 B2] Ha Hb _.
      rewrite Ha by (destruct a; simpl in *; [lia|congruence]). rewrite Hb by (destruct b; simpl in *; [lia|congruence]).
      apply (@cov_combine_spec R 0 1 Rplus Rmult Rminus Ropp Rdiv Rinv (fun x => x) INR R_field
        (fun _ _ => eq_refl) (fun _ _ => eq_refl) (fun _ => eq_refl) eq_refl eq_refl plus_INR INR_nz);
        [destruct a|destruct b]; simpl in *; congruence || lia. }
  assert (Hc : combine x x <> []) by (destruct x; simpl in *; congruence).
  change (fun x0 : R => x0) with (fun x : R => x). rewrite H by exact Hc. rewrite combine_length, Nat.min_id, kcodev_R.
  destruct (Z.leb_spec (Z.of_nat (length x) - ddof) 0); reflexivity.
Qed.
Lemma rvar_all nan inf ddof x : x <> [] -> (ddof < Z.of_nat (length x))%Z ->
  rvar nan inf ddof x = Ok (total (map (fun u => (u - average x) ^ 2) x) / IZR (Z.of_nat (length x) - ddof)%Z).
Proof.
  intros Hx Hd. unfold rvar, var. change (var_filter _ _ _ _ _ _ _ _ _ _ _ _ _ ddof x f_all) with (rvar_filter nan inf ddof x f_all).
  rewrite rvar_filter_all by exact Hx. destruct (Z.leb_spec (Z.of_nat (length x) - ddof) 0); [lia|reflexivity].
Qed.
Lemma rmean_all nan x : x <> [] -> rmean_filter nan x f_all = average x.
Proof. exact (@mean_all R 0 1 Rplus Rmult Rminus Ropp Rdiv Rinv INR R_field false nan x). Qed.
Lemma upow_R n v : upow 1 Rmult (Z.of_nat n) v = v ^ n.
Proof.
  rewrite upow_spec; [|intros; ring|intros; ring|intros; ring]. rewrite Z.abs_eq, Nat2Z.id by lia.
  induction n as [|n IH]; simpl; [reflexivity|]. now rewrite IH.
Qed.
Lemma rmoment_all nan inf n x : x <> [] -> (2 <= n)%nat -> rmoment nan inf n x f_all = Ok (central_moment n x).
Proof.
  intros Hx Hn. destruct n as [|[|[|n]]]; [lia|lia| |].
  - change (rmoment nan inf 2 x f_all) with (omap fst (rvar_filter nan inf 0 x f_all)). rewrite rvar_filter_all by exact Hx.
    destruct (Z.leb_spec (Z.of_nat (length x) - 0) 0) as [L|L]; [destruct x; simpl length in *; [congruence|lia]|].
    cbn [omap fst]. f_equal. unfold central_moment. rewrite avg_map, Z.sub_0_r, <- INR_IZR_INZ. reflexivity.
  - unfold rmoment, moment.
    change (mean_filter 0 nan Rplus Rdiv INR false) with (rmean_filter nan).
    rewrite !transform1_map, map_map. rewrite (rmean_all nan Hx).
    rewrite (map_ext (fun u => upow 1 Rmult (Z.of_nat (S (S (S n)))) (u - average x)) (fun u => (u - average x) ^ S (S (S n))))
      by (intros; apply upow_R).
    rewrite rmean_all by (destruct x; simpl; congruence). reflexivity.
Qed.
