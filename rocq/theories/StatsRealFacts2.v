(** std, sem, skew, kurtosis, gmean: proofs *)
From Coq Require Import ZArith Reals Field Permutation.
From Verif Require Import Base Functional FunctionalProofs Spec Numeric BaseFl FlFacts Maths Stats StatsMoments StatsVar StatsVarFacts StatsReal StatsRealFacts.
From Coq Require Import Lra Psatz.
Open Scope nat_scope.
Set Implicit Arguments.
Local Open Scope R_scope.

Lemma IZR_len_pos n d : (d < Z.of_nat n)%Z -> 0 < IZR (Z.of_nat n - d).
Proof. intros H. apply IZR_lt. lia. Qed.
Lemma div_nonneg a b : 0 <= a -> 0 < b -> 0 <= a / b.
Proof. intros A B. unfold Rdiv. apply Rmult_le_pos; [exact A|]. left. now apply Rinv_0_lt_compat. Qed.
Lemma sq_total_nonneg x : 0 <= total (map (fun u => (u - average x) ^ 2) x).
Proof. apply total_nonneg. intros. apply pow2_ge_0. Qed.
Lemma sq_total_affine a b x : x <> [] ->
  total (map (fun u => (u - average (map (fun u => a * u + b) x)) ^ 2) (map (fun u => a * u + b) x)) = a ^ 2 * total (map (fun u => (u - average x) ^ 2) x).
Proof.
  intros H. rewrite (avg_affine a b H), map_map, <- total_map_scale. apply total_ext. intros; ring.
Qed.
Lemma sqrt_quot v n : 0 <= v -> 0 < n -> sqrt (v / n) = sqrt v / sqrt n.
Proof. intros. now apply sqrt_div. Qed.

Lemma std_facts nan inf ddof x : x <> [] -> (ddof < Z.of_nat (length x))%Z ->
  exists s, std nan inf ddof x = Ok s /\ 0 <= s /\
    s * s = total (map (fun u => (u - average x) ^ 2) x) / IZR (Z.of_nat (length x) - ddof) /\
    sem nan inf ddof x = Ok (s / sqrt (INR (length x))) /\
    (s = 0 <-> forall u v, In u x -> In v x -> u = v) /\
    forall a b, std nan inf ddof (map (fun u => a * u + b) x) = Ok (Rabs a * s).
Proof.
  intros Hx Hd. set (V := total (map (fun u => (u - average x) ^ 2) x) / IZR (Z.of_nat (length x) - ddof)).
  pose proof (IZR_len_pos _ Hd) as Hp.
  assert (HV : 0 <= V) by (apply div_nonneg; [apply sq_total_nonneg|exact Hp]).
  exists (sqrt V). split; [unfold std; rewrite rvar_all by assumption; reflexivity|]. split; [apply sqrt_pos|].
  split; [now apply sqrt_sqrt|]. split.
  { unfold sem. rewrite rvar_all by assumption. cbn [bind]. f_equal. apply sqrt_quot; [exact HV|now apply len_pos]. }
  split.
  - split.
    + intros E. assert (V0 : V = 0) by now apply sqrt_eq_0.
      assert (T0 : total (map (fun u => (u - average x) ^ 2) x) = 0).
      { assert (Q : total (map (fun u => (u - average x) ^ 2) x) = V * IZR (Z.of_nat (length x) - ddof)) by (unfold V; field; lra).
        rewrite Q, V0. ring. }
      assert (A : forall u, In u x -> u = average x).
      { intros u Hu. pose proof (total_zero (fun u => (u - average x) ^ 2) x (fun w _ => pow2_ge_0 _) T0 u Hu) as Z.
        cbv beta in Z. assert (u - average x = 0); [|lra]. simpl in Z. apply Rmult_integral in Z. lra. }
      intros u v Hu Hv. rewrite (A u Hu), (A v Hv). reflexivity.
    + intros E. replace V with 0; [apply sqrt_0|]. unfold V.
      assert (A : forall u, In u x -> u - average x = 0).
      { intros u Hu. rewrite <- (avg_id x), (avg_ext (fun v => v) (fun _ => u) x) by (intros; auto). rewrite (avg_const u Hx). lra. }
      rewrite (total_ext (fun u => (u - average x) ^ 2) (fun _ => 0) x).
      * rewrite total_const. field. lra.
      * intros u Hu. rewrite (A u Hu). ring.
  - intros a b. unfold std. rewrite rvar_all; [|destruct x; simpl; congruence|now rewrite map_length].
    rewrite (sq_total_affine a b Hx), map_length. cbn [omap]. apply (f_equal Ok).
    rewrite <- (sqrt_Rsqr_abs a). rewrite <- sqrt_mult; [|apply Rle_0_sqr|exact HV]. apply (f_equal sqrt). unfold V, Rsqr. field. lra.
Qed.

(** skew and kurtosis *)
Lemma cm2_pos x : x <> [] -> central_moment 2 x <> 0 -> 0 < central_moment 2 x.
Proof. intros H N. pose proof (cm_even_nonneg 1 H). simpl in H0. lra. Qed.
Lemma skew_eq nan inf x : x <> [] -> skew nan inf x f_all = Ok (central_moment 3 x / sqrt (central_moment 2 x ^ 3)).
Proof.
  intros H. unfold skew. rewrite !rmoment_all by (try exact H; lia). cbn [bind]. f_equal. f_equal. f_equal. ring.
Qed.
Lemma kurt_eq nan inf fisher x : x <> [] ->
  rkurtosis nan inf fisher x f_all = Ok (central_moment 4 x / central_moment 2 x ^ 2 - (if fisher then 3 else 0)).
Proof.
  intros H. unfold rkurtosis, kurtosis.
  change (moment 0 1 nan inf Rplus Rminus Rmult Rdiv (fun x => x) INR IZR false (fun x => x)) with (rmoment nan inf).
  rewrite !rmoment_all by (try exact H; lia). cbn [bind]. f_equal.
  replace (central_moment 2 x ^ 2) with (central_moment 2 x * central_moment 2 x) by ring. destruct fisher; [reflexivity|lra].
Qed.
(** Pearson's inequality m3^2 + m2^3 <= m2 m4 *)
Lemma pearson x : x <> [] -> central_moment 3 x * central_moment 3 x + central_moment 2 x ^ 3 <= central_moment 2 x * central_moment 4 x.
Proof.
  intros H. set (m := average x). set (m2 := central_moment 2 x).
  pose proof (@avg_cs R (fun u => u - m) (fun u => (u - m) ^ 2 - m2) x H) as CS. cbv beta in CS.
  assert (E1 : average (map (fun u => (u - m) * ((u - m) ^ 2 - m2)) x) = central_moment 3 x).
  { rewrite (avg_ext _ (fun u => (u - m) ^ 3 + (- m2) * (u - m)) x) by (intros; ring).
    rewrite avg_add, avg_scale. unfold m at 2. rewrite (dev_zero H). unfold central_moment. fold m. ring. }
  assert (E2 : average (map (fun u => (u - m) * (u - m)) x) = m2).
  { unfold m2, central_moment. fold m. apply avg_ext. intros; ring. }
  assert (E3 : average (map (fun u => ((u - m) ^ 2 - m2) * ((u - m) ^ 2 - m2)) x) = central_moment 4 x - m2 * m2).
  { rewrite (avg_ext _ (fun u => (u - m) ^ 4 + ((- 2 * m2) * (u - m) ^ 2 + m2 * m2)) x) by (intros; ring).
    rewrite avg_add, avg_add, avg_scale, (avg_const _ H). unfold central_moment at 1. fold m. unfold m2 at 2. unfold central_moment. fold m.
    change (average (map (fun u => (u - m) ^ 2) x)) with (central_moment 2 x). fold m2. ring. }
  rewrite E1, E2, E3 in CS. nra.
Qed.
Lemma perm_total x y : Permutation x y -> total x = total y.
Proof. induction 1; unfold total in *; simpl in *; lra. Qed.
Lemma perm_avg x y : Permutation x y -> average x = average y.
Proof. intros P. unfold average. now rewrite (perm_total P), (Permutation_length P). Qed.
Lemma perm_cm n x y : Permutation x y -> central_moment n x = central_moment n y.
Proof. intros P. unfold central_moment. rewrite (perm_avg P). apply perm_avg. now apply Permutation_map. Qed.

Lemma kurt_skew_ineq x : x <> [] -> central_moment 2 x <> 0 ->
  (central_moment 3 x / sqrt (central_moment 2 x ^ 3)) ^ 2 + 1 <= central_moment 4 x / central_moment 2 x ^ 2.
Proof.
  intros H N. pose proof (cm2_pos H N) as P. pose proof (pearson H) as I.
  set (a := central_moment 2 x) in *. set (b := central_moment 3 x) in *. set (c := central_moment 4 x) in *.
  assert (P3 : 0 < a ^ 3) by (apply pow_lt; exact P). assert (S : 0 < sqrt (a ^ 3)) by now apply sqrt_lt_R0.
  assert (E : (b / sqrt (a ^ 3)) ^ 2 = b * b / a ^ 3).
  { rewrite <- (sqrt_sqrt (a ^ 3)) at 2 by lra. field. lra. }
  rewrite E. replace (c / a ^ 2) with ((a * c) / a ^ 3) by (field; lra). replace (b * b / a ^ 3 + 1) with ((b * b + a ^ 3) / a ^ 3) by (field; lra).
  unfold Rdiv. apply Rmult_le_compat_r; [left; now apply Rinv_0_lt_compat|exact I].
Qed.
Lemma skew_affine nan inf x a b : x <> [] -> central_moment 2 x <> 0 -> a <> 0 ->
  skew nan inf (map (fun u => a * u + b) x) f_all = Ok ((if Rlt_dec 0 a then 1 else -1) * (central_moment 3 x / sqrt (central_moment 2 x ^ 3))).
Proof.
  intros H N Ha. rewrite skew_eq by (destruct x; simpl; congruence). rewrite !(cm_affine _ a b H). f_equal.
  pose proof (cm2_pos H N) as P. set (m2 := central_moment 2 x) in *. set (m3 := central_moment 3 x).
  assert (P3 : 0 < m2 ^ 3) by (apply pow_lt; exact P). assert (S : 0 < sqrt (m2 ^ 3)) by now apply sqrt_lt_R0.
  replace ((a ^ 2 * m2) ^ 3) with ((Rsqr (a ^ 3)) * m2 ^ 3) by (unfold Rsqr; ring).
  rewrite sqrt_mult by (try apply Rle_0_sqr; lra). rewrite sqrt_Rsqr_abs, <- RPow_abs.
  destruct (Rlt_dec 0 a) as [L|L].
  - rewrite Rabs_pos_eq by lra. field. split; lra.
  - rewrite Rabs_left by lra. field. split; lra.
Qed.
Lemma kurt_affine nan inf fisher x a b : x <> [] -> central_moment 2 x <> 0 -> a <> 0 ->
  rkurtosis nan inf fisher (map (fun u => a * u + b) x) f_all = rkurtosis nan inf fisher x f_all.
Proof.
  intros H N Ha. rewrite !kurt_eq by (try exact H; destruct x; simpl; congruence). rewrite !(cm_affine _ a b H). f_equal. f_equal.
  field. split; lra.
Qed.
Lemma skew_symmetric nan inf x c : x <> [] -> central_moment 2 x <> 0 -> Permutation x (map (fun u => 2 * c - u) x) ->
  skew nan inf x f_all = Ok 0.
Proof.
  intros H N P. rewrite skew_eq by exact H. f_equal.
  assert (E : central_moment 3 x = - central_moment 3 x).
  { rewrite (perm_cm 3 P) at 1. rewrite (map_ext _ (fun u => (-1) * u + 2 * c)) by (intros; ring). rewrite (cm_affine 3 _ _ H). ring. }
  replace (central_moment 3 x) with 0 by lra. unfold Rdiv. ring.
Qed.

(** geometric mean *)
Definition product (x : list R) : R := bigop Rmult 1 x.
Lemma exp_total x : Forall (fun u => 0 < u) x -> exp (total (map ln x)) = product x.
Proof.
  induction 1 as [|u x U _ IH]; [apply exp_0|]. simpl map. rewrite total_cons, exp_plus, IH, exp_ln by exact U. reflexivity.
Qed.
Lemma exp_pow t n : exp t ^ n = exp (INR n * t).
Proof. induction n as [|n IH]; [simpl; now rewrite Rmult_0_l, exp_0|]. rewrite S_INR. simpl. rewrite IH, <- exp_plus. f_equal. ring. Qed.
Lemma ln_le_sub1 t : 0 < t -> ln t <= t - 1.
Proof. intros H. pose proof (exp_ineq1_le (ln t)) as E. rewrite exp_ln in E by exact H. lra. Qed.
Lemma gmean_eq nan c vc x : x <> [] -> fst (gmean nan c vc x) = exp (average (map ln x)).
Proof.
  intros H. unfold gmean. destruct x as [|u x]; [congruence|].
  destruct vc; cbn [map1_same]; unfold map1_same; cbn [fst]; rewrite transform1_map, rmean_all by (simpl; congruence); reflexivity.
Qed.
Lemma ln_average_mul x : Forall (fun u => 0 < u) x -> forall k, 0 < k -> x <> [] -> average (map ln (map (fun u => k * u) x)) = ln k + average (map ln x).
Proof.
  intros P k K H. rewrite map_map. rewrite (avg_ext (fun u => ln (k * u)) (fun u => ln k + ln u) x).
  - rewrite avg_add, (avg_const _ H). reflexivity.
  - intros u Hu. rewrite Forall_forall in P. apply ln_mult; auto.
Qed.
Lemma gmean_facts nan c vc x : x <> [] -> Forall (fun u => 0 < u) x ->
  let g := fst (gmean nan c vc x) in
  0 < g /\ g ^ length x = product x /\ g <= average x /\
  (forall lo hi, 0 < lo -> (forall u, In u x -> lo <= u <= hi) -> lo <= g <= hi) /\
  (forall k, 0 < k -> fst (gmean nan c vc (map (fun u => k * u) x)) = k * g).
Proof.
  intros H P g. pose proof (gmean_eq nan c vc H) as E. fold g in E.
  assert (P' := P). rewrite Forall_forall in P'.
  split; [rewrite E; apply exp_pos|]. split; [|split; [|split]].
  - rewrite E, exp_pow, <- exp_total by exact P. f_equal. rewrite avg_map. field. pose proof (len_pos H). lra.
  - assert (A : 0 < average x).
    { unfold average. apply Rmult_lt_0_compat; [|apply Rinv_0_lt_compat; now apply len_pos].
      destruct x as [|u x]; [congruence|]. rewrite total_cons. pose proof (P' u (or_introl eq_refl)).
      pose proof (total_nonneg (fun u => u) x) as T. rewrite map_id in T. assert (0 <= total x); [|lra]. apply T. intros v Hv. left. apply P'. now right. }
    rewrite E.
    assert (L : average (map ln x) <= ln (average x)).
    { assert (T : average (map ln x) <= average (map (fun u => (ln (average x) - 1) + / average x * u) x)).
      { apply avg_le; [exact H|]. intros u Hu. pose proof (ln_le_sub1 (t := u / average x)) as L1.
        assert (0 < u / average x) by (apply Rmult_lt_0_compat; [now apply P'|now apply Rinv_0_lt_compat]). specialize (L1 H0).
        unfold Rdiv in L1. rewrite ln_mult, ln_Rinv in L1; [lra|exact A|now apply P'|now apply Rinv_0_lt_compat]. }
      rewrite avg_add, avg_scale, (avg_const _ H), avg_id in T. rewrite Rinv_l in T by lra. lra. }
    destruct L as [L|L]; [|rewrite L, exp_ln by exact A; lra]. left. pose proof (exp_increasing _ _ L) as I. now rewrite exp_ln in I by exact A.
  - intros lo hi Hlo B. rewrite E.
    assert (Hhi : 0 < hi) by (destruct x as [|u x]; [congruence|]; pose proof (B u (or_introl eq_refl)); lra).
    assert (L1 : ln lo <= average (map ln x)).
    { rewrite <- (avg_const (ln lo) H) at 1. apply avg_le; [exact H|]. intros u Hu. pose proof (B u Hu) as Q.
      destruct (Rle_lt_or_eq_dec _ _ (proj1 Q)) as [Q1|Q1]; [left; now apply ln_increasing|rewrite Q1; lra]. }
    assert (L2 : average (map ln x) <= ln hi).
    { rewrite <- (avg_const (ln hi) H). apply avg_le; [exact H|]. intros u Hu. pose proof (B u Hu) as Q.
      destruct (Rle_lt_or_eq_dec _ _ (proj2 Q)) as [Q1|Q1]; [left; apply ln_increasing; [now apply P'|exact Q1]|rewrite Q1; lra]. }
    assert (M : forall s t, s <= t -> exp s <= exp t) by (intros s t [Q|Q]; [left; now apply exp_increasing|rewrite Q; lra]).
    pose proof (M _ _ L1) as M1. pose proof (M _ _ L2) as M2. rewrite exp_ln in M1, M2 by assumption. lra.
  - intros k K. rewrite gmean_eq by (destruct x; simpl; congruence). rewrite (ln_average_mul P K H), exp_plus, exp_ln by exact K. now rewrite E.
Qed.
