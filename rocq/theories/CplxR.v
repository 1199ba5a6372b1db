(** Complex numbers over the reals (pairs), roots of unity, and the discrete Fourier transform of its textbook definition. *)
From Coq Require Import ZArith Reals Ring.
From Verif Require Import Base Spec SumLib.
From Coq Require Import Lra.
Open Scope nat_scope.

Definition cx : Type := (R * R)%type.
Definition x0 : cx := (0, 0)%R.
Definition x1 : cx := (1, 0)%R.
Definition xadd (a b : cx) : cx := (fst a + fst b, snd a + snd b)%R.
Definition xsub (a b : cx) : cx := (fst a - fst b, snd a - snd b)%R.
Definition xopp (a : cx) : cx := (- fst a, - snd a)%R.
Definition xmul (a b : cx) : cx := (fst a * fst b - snd a * snd b, fst a * snd b + snd a * fst b)%R.
Definition xconj (a : cx) : cx := (fst a, - snd a)%R.
Definition xre (r : R) : cx := (r, 0)%R.
Definition xnorm2 (a : cx) : R := (fst a * fst a + snd a * snd a)%R.
Lemma xring : ring_theory x0 x1 xadd xmul xsub xopp eq.
Proof.
  constructor; intros; unfold xadd, xmul, xsub, xopp, x0, x1; try (destruct x, y, z || destruct x, y || destruct x); cbn [fst snd]; f_equal; ring.
Qed.
Add Ring xR : xring.
Lemma xconj_add a b : xconj (xadd a b) = xadd (xconj a) (xconj b).
Proof. unfold xconj, xadd. cbn [fst snd]. f_equal. ring. Qed.
Lemma xconj_mul a b : xconj (xmul a b) = xmul (xconj a) (xconj b).
Proof. unfold xconj, xmul. cbn [fst snd]. f_equal; ring. Qed.
Lemma xconj_conj a : xconj (xconj a) = a.
Proof. destruct a. unfold xconj. cbn [fst snd]. f_equal. ring. Qed.
Lemma xmul_conj a : xmul a (xconj a) = xre (xnorm2 a).
Proof. destruct a. unfold xmul, xconj, xre, xnorm2. cbn [fst snd]. f_equal; ring. Qed.
Lemma xnorm2_zero a : xnorm2 a = 0%R -> a = x0.
Proof.
  destruct a as [u v]. unfold xnorm2, x0. cbn [fst snd]. intros H.
  assert (H1 := Rle_0_sqr u). assert (H2 := Rle_0_sqr v). unfold Rsqr in *.
  assert (u * u = 0)%R by lra. assert (v * v = 0)%R by lra.
  assert (u = 0)%R by (destruct (Rmult_integral _ _ H0); assumption). assert (v = 0)%R by (destruct (Rmult_integral _ _ H3); assumption). now subst.
Qed.
Lemma xintegral a b : xmul a b = x0 -> b <> x0 -> a = x0.
Proof.
  intros H Hb. assert (E : xmul a (xre (xnorm2 b)) = x0).
  { rewrite <- xmul_conj. transitivity (xmul (xmul a b) (xconj b)); [ring|]. rewrite H. ring. }
  assert (N : xnorm2 b <> 0%R) by (intros Z; apply Hb; now apply xnorm2_zero).
  destruct a as [u v]. unfold xmul, xre, x0 in *. cbn [fst snd] in E. injection E as E1 E2.
  rewrite Rmult_0_r in E1, E2. f_equal.
  - destruct (Rmult_integral u (xnorm2 b)); [lra|assumption|contradiction].
  - destruct (Rmult_integral v (xnorm2 b)); [lra|assumption|contradiction].
Qed.
Notation xsum := (nsum x0 xadd).
Notation rsum := (nsum 0%R Rplus).
Lemma xsum_conj f n : xconj (xsum f n) = xsum (fun k => xconj (f k)) n.
Proof. induction n as [|n IH]; cbn [nsum]; [unfold xconj, x0; cbn [fst snd]; f_equal; ring|]. now rewrite xconj_add, IH. Qed.
Lemma xsum_re f n : xsum (fun k => xre (f k)) n = xre (rsum f n).
Proof. induction n as [|n IH]; cbn [nsum]; [reflexivity|]. rewrite IH. unfold xadd, xre. cbn [fst snd]. f_equal; ring. Qed.

(** root N m = exp(-2 pi i m / N) *)
Definition ang (N : nat) (m : Z) : R := (2 * PI * IZR m / INR N)%R.
Definition root (N : nat) (m : Z) : cx := (cos (ang N m), - sin (ang N m))%R.
Lemma INR_nz N : 1 <= N -> INR N <> 0%R.
Proof. intros H. apply not_0_INR. lia. Qed.
Lemma root_add N a b : 1 <= N -> root N (a + b) = xmul (root N a) (root N b).
Proof.
  intros H. unfold root, xmul. cbn [fst snd].
  replace (ang N (a + b)) with (ang N a + ang N b)%R by (unfold ang; rewrite plus_IZR; field; now apply INR_nz).
  rewrite cos_plus, sin_plus. f_equal; ring.
Qed.
Lemma root_0 N : root N 0 = x1.
Proof. unfold root, ang, x1. replace (2 * PI * 0 / INR N)%R with 0%R by (unfold Rdiv; ring). rewrite cos_0, sin_0. f_equal. ring. Qed.
Lemma root_conj N m : xconj (root N m) = root N (- m).
Proof.
  unfold root, xconj. cbn [fst snd]. replace (ang N (- m)) with (- ang N m)%R by (unfold ang, Rdiv; rewrite opp_IZR; ring).
  rewrite cos_neg, sin_neg. f_equal.
Qed.
Lemma root_N N : 1 <= N -> root N (Z.of_nat N) = x1.
Proof.
  intros H. unfold root, ang, x1. rewrite <- INR_IZR_INZ. replace (2 * PI * INR N / INR N)%R with (2 * PI)%R by (field; now apply INR_nz).
  rewrite cos_2PI, sin_2PI. f_equal. ring.
Qed.
Lemma root_mulN N k : 1 <= N -> root N (Z.of_nat N * Z.of_nat k) = x1.
Proof.
  intros H. induction k as [|k IH]; [replace (Z.of_nat N * Z.of_nat 0)%Z with 0%Z by lia; apply root_0|].
  replace (Z.of_nat N * Z.of_nat (S k))%Z with (Z.of_nat N * Z.of_nat k + Z.of_nat N)%Z by lia. rewrite root_add, IH, root_N by exact H. ring.
Qed.
Lemma root_mulZ N (k : Z) : 1 <= N -> root N (Z.of_nat N * k) = x1.
Proof.
  intros H. destruct (Z.le_gt_cases 0 k).
  - rewrite <- (Z2Nat.id k) by lia. now apply root_mulN.
  - assert (E : root N (Z.of_nat N * (- k)) = x1) by (rewrite <- (Z2Nat.id (- k)) by lia; now apply root_mulN).
    replace (Z.of_nat N * k)%Z with (- (Z.of_nat N * - k))%Z by lia. rewrite <- root_conj, E. unfold xconj, x1. cbn [fst snd]. f_equal. ring.
Qed.
Lemma root_nontrivial N d : 1 <= N -> (0 < d < Z.of_nat N)%Z -> root N d <> x1.
Proof.
  intros H Hd E. unfold root, x1 in E. injection E as E1 E2.
  assert (A : ang N d = (2 * (PI * IZR d / INR N))%R) by (unfold ang; field; now apply INR_nz).
  rewrite A, cos_2a_sin in E1.
  assert (S0 : (0 < sin (PI * IZR d / INR N))%R).
  { assert (0 < INR N)%R by (apply lt_0_INR; lia). assert (0 < IZR d)%R by (apply (IZR_lt 0); lia).
    assert (IZR d < INR N)%R by (rewrite INR_IZR_INZ; apply IZR_lt; lia). pose proof PI_RGT_0.
    apply sin_gt_0.
    - apply Rdiv_lt_0_compat; [apply Rmult_lt_0_compat; assumption|assumption].
    - apply Rmult_lt_reg_r with (INR N); [assumption|]. unfold Rdiv. rewrite Rmult_assoc, Rinv_l, Rmult_1_r by lra. apply Rmult_lt_compat_l; assumption. }
  assert (0 < sin (PI * IZR d / INR N) * sin (PI * IZR d / INR N))%R by (now apply Rmult_lt_0_compat). lra.
Qed.
(** orthogonality of the roots of unity *)
Lemma root_sum N d : 1 <= N -> (0 < d < Z.of_nat N)%Z -> xsum (fun k => root N (d * Z.of_nat k)) N = x0.
Proof.
  intros H Hd. set (Sg := xsum _ N).
  apply (xintegral Sg (xsub (root N d) x1)).
  - assert (E : xmul Sg (root N d) = Sg).
    { unfold Sg. rewrite <- (sum_scale_r xring).
      assert (A : xadd x1 (xsum (fun k => xmul (root N (d * Z.of_nat k)) (root N d)) N) = xadd (xsum (fun k => root N (d * Z.of_nat k)) N) x1).
      { transitivity (xsum (fun k => root N (d * Z.of_nat k)) (Datatypes.S N)).
        - rewrite (sum_first xring). replace (d * Z.of_nat 0)%Z with 0%Z by lia. rewrite root_0. f_equal. apply sum_ext. intros k _.
          rewrite <- root_add by exact H. f_equal. lia.
        - cbn [nsum]. f_equal. rewrite Z.mul_comm. now apply root_mulZ. }
      transitivity (xsub (xadd x1 (xsum (fun k => xmul (root N (d * Z.of_nat k)) (root N d)) N)) x1); [ring|]. rewrite A. ring. }
    transitivity (xsub (xmul Sg (root N d)) Sg); [ring|]. rewrite E. ring.
  - intros E. apply (root_nontrivial N d H Hd). transitivity (xadd (xsub (root N d) x1) x1); [ring|]. rewrite E. ring.
Qed.
Lemma xsum_one n : xsum (fun _ => x1) n = xre (INR n).
Proof. change x1 with (xre 1). rewrite (xsum_re (fun _ => 1%R)). f_equal. induction n as [|n IH]; [reflexivity|]. cbn [nsum]. rewrite IH, S_INR. reflexivity. Qed.
Lemma orthogonality N (d : Z) : 1 <= N -> (- Z.of_nat N < d < 2 * Z.of_nat N)%Z ->
  xsum (fun k => root N (d * Z.of_nat k)) N = if ((d =? 0) || (d =? Z.of_nat N))%Z then xre (INR N) else x0.
Proof.
  intros H Hd. destruct (Z.eqb_spec d 0) as [->|N0]; [|destruct (Z.eqb_spec d (Z.of_nat N)) as [->|N1]]; cbn [orb].
  - rewrite <- xsum_one. apply sum_ext. intros k _. rewrite Z.mul_0_l. apply root_0.
  - rewrite <- xsum_one. apply sum_ext. intros k _. now apply root_mulZ.
  - assert (P : forall e k, root N ((e + Z.of_nat N) * Z.of_nat k) = root N (e * Z.of_nat k)).
    { intros e k. replace ((e + Z.of_nat N) * Z.of_nat k)%Z with (e * Z.of_nat k + Z.of_nat N * Z.of_nat k)%Z by lia.
      rewrite root_add, root_mulZ by exact H. ring. }
    destruct (Z.lt_ge_cases d 0) as [L|L].
    + rewrite (sum_ext _ (fun k => root N ((d + Z.of_nat N) * Z.of_nat k))) by (intros; now rewrite P). apply root_sum; [exact H|lia].
    + destruct (Z.lt_ge_cases d (Z.of_nat N)) as [L2|L2]; [apply root_sum; [exact H|lia]|].
      rewrite (sum_ext _ (fun k => root N ((d - Z.of_nat N) * Z.of_nat k))) by (intros k _; rewrite <- (P (d - Z.of_nat N)%Z k); do 2 f_equal; lia). apply root_sum; [exact H|lia].
Qed.

(** ** the DFT and its inverse *)
Notation xcoef := (@coef cx x0).
Definition dft_at (x : list cx) (N : nat) (k : nat) : cx := xsum (fun j => xmul (xcoef x j) (root N (Z.of_nat j * Z.of_nat k))) N.
Definition dft (x : list cx) : list cx := map (dft_at x (length x)) (seq 0 (length x)).
Definition idft_at (y : list cx) (N : nat) (j : nat) : cx :=
  xmul (xre (/ INR N)) (xsum (fun k => xmul (xcoef y k) (root N (- (Z.of_nat j * Z.of_nat k)))) N).
Definition idft (y : list cx) : list cx := map (idft_at y (length y)) (seq 0 (length y)).

Lemma xre_mul a b : xmul (xre a) (xre b) = xre (a * b)%R.
Proof. unfold xmul, xre. cbn [fst snd]. f_equal; ring. Qed.
(** inverse of a product of spectra: circular convolution *)
Lemma idft_product (f g : nat -> cx) N n : 1 <= N -> n < N ->
  xmul (xre (/ INR N)) (xsum (fun k => xmul
    (xmul (xsum (fun i => xmul (f i) (root N (Z.of_nat i * Z.of_nat k))) N) (xsum (fun j => xmul (g j) (root N (Z.of_nat j * Z.of_nat k))) N))
    (root N (- (Z.of_nat n * Z.of_nat k)))) N) =
  xsum (fun i => xsum (fun j => if ((i + j =? n) || (i + j =? n + N)) then xmul (f i) (g j) else x0) N) N.
Proof.
  intros H Hn. rewrite <- (sum_scale_l xring).
  transitivity (xsum (fun i => xsum (fun j => xsum (fun k => xmul (xmul (xre (/ INR N)) (xmul (f i) (g j)))
     (root N ((Z.of_nat i + Z.of_nat j - Z.of_nat n) * Z.of_nat k))) N) N) N).
  - transitivity (xsum (fun k => xsum (fun i => xsum (fun j => xmul (xmul (xre (/ INR N)) (xmul (f i) (g j)))
     (root N ((Z.of_nat i + Z.of_nat j - Z.of_nat n) * Z.of_nat k))) N) N) N).
    + apply sum_ext. intros k _. rewrite <- (sum_scale_r xring), <- (sum_scale_r xring), <- (sum_scale_l xring).
      apply sum_ext. intros i _. rewrite <- (sum_scale_l xring), <- (sum_scale_r xring), <- (sum_scale_l xring). apply sum_ext. intros j _.
      replace ((Z.of_nat i + Z.of_nat j - Z.of_nat n) * Z.of_nat k)%Z with
        (Z.of_nat i * Z.of_nat k + (Z.of_nat j * Z.of_nat k + - (Z.of_nat n * Z.of_nat k)))%Z by lia.
      rewrite !root_add by exact H. ring.
    + rewrite (sum_swap xring). apply sum_ext. intros i _. rewrite (sum_swap xring). reflexivity.
  - apply sum_ext. intros i Hi. apply sum_ext. intros j Hj. rewrite (sum_scale_l xring), orthogonality by lia.
    replace ((Z.of_nat i + Z.of_nat j - Z.of_nat n =? 0)%Z) with (i + j =? n).
    2:{ destruct (Nat.eqb_spec (i + j) n), (Z.eqb_spec (Z.of_nat i + Z.of_nat j - Z.of_nat n) 0); auto; lia. }
    replace ((Z.of_nat i + Z.of_nat j - Z.of_nat n =? Z.of_nat N)%Z) with (i + j =? n + N).
    2:{ destruct (Nat.eqb_spec (i + j) (n + N)), (Z.eqb_spec (Z.of_nat i + Z.of_nat j - Z.of_nat n) (Z.of_nat N)); auto; lia. }
    destruct ((i + j =? n) || (i + j =? n + N)); [|ring].
    transitivity (xmul (xmul (xre (/ INR N)) (xre (INR N))) (xmul (f i) (g j))); [ring|]. rewrite xre_mul, Rinv_l by (now apply INR_nz).
    change (xre 1) with x1. ring.
Qed.
(** inverse of the transform *)
Lemma idft_dft_at (f : nat -> cx) N n : 1 <= N -> n < N ->
  xmul (xre (/ INR N)) (xsum (fun k => xmul (xsum (fun i => xmul (f i) (root N (Z.of_nat i * Z.of_nat k))) N)
    (root N (- (Z.of_nat n * Z.of_nat k)))) N) = f n.
Proof.
  intros H Hn. pose proof (idft_product f (fun j => if j =? 0 then x1 else x0) N n H Hn) as E.
  transitivity (xsum (fun i => xsum (fun j => if ((i + j =? n) || (i + j =? n + N)) then xmul (f i) (if j =? 0 then x1 else x0) else x0) N) N).
  - rewrite <- E. f_equal. apply sum_ext. intros k Hk. f_equal.
    replace (xsum (fun j => xmul (if j =? 0 then x1 else x0) (root N (Z.of_nat j * Z.of_nat k))) N) with x1; [ring|].
    rewrite (sum_window xring _ 0 1 N).
    + cbn [nsum Nat.add Nat.eqb]. replace (Z.of_nat 0 * Z.of_nat k)%Z with 0%Z by lia. rewrite root_0. ring.
    + lia.
    + intros j Hj. lia.
    + intros j Hj. destruct (Nat.eqb_spec j 0); [lia|]. ring.
  - rewrite (sum_window xring _ n 1 N).
    + cbn [nsum]. rewrite (sum_window xring _ 0 1 N).
      * cbn [nsum]. rewrite !Nat.add_0_r, Nat.eqb_refl. cbn [orb Nat.eqb]. ring.
      * lia.
      * intros j Hj. lia.
      * intros j Hj. destruct (Nat.eqb_spec j 0); [lia|]. destruct (_ || _); ring.
    + lia.
    + intros i Hi. apply (sum_zero xring). intros j Hj. destruct (Nat.eqb_spec j 0) as [->|Nj].
      * destruct (Nat.eqb_spec (i + 0) n), (Nat.eqb_spec (i + 0) (n + N)); try lia; cbn [orb]; ring.
      * destruct (_ || _); ring.
    + intros i Hi. apply (sum_zero xring). intros j Hj. destruct (Nat.eqb_spec j 0) as [->|Nj].
      * destruct (Nat.eqb_spec (i + 0) n), (Nat.eqb_spec (i + 0) (n + N)); try lia; cbn [orb]; ring.
      * destruct (_ || _); ring.
Qed.
Lemma dft_length x : length (dft x) = length x.
Proof. unfold dft. now rewrite map_length, seq_length. Qed.
Lemma idft_length x : length (idft x) = length x.
Proof. unfold idft. now rewrite map_length, seq_length. Qed.
Lemma dft_coef x k : k < length x -> xcoef (dft x) k = dft_at x (length x) k.
Proof. intros H. now apply (coef_list (rO := x0) (dft x) (length x)). Qed.
Lemma idft_coef x k : k < length x -> xcoef (idft x) k = idft_at x (length x) k.
Proof. intros H. now apply (coef_list (rO := x0) (idft x) (length x)). Qed.
Theorem idft_dft x : idft (dft x) = x.
Proof.
  apply (list_ext (rO := x0)); rewrite idft_length, dft_length; [reflexivity|]. intros n Hn. rewrite idft_coef by (rewrite dft_length; exact Hn).
  rewrite dft_length. unfold idft_at. rewrite (sum_ext _ (fun k => xmul (dft_at x (length x) k) (root (length x) (- (Z.of_nat n * Z.of_nat k))))).
  - unfold dft_at. apply (idft_dft_at (xcoef x)); lia.
  - intros k Hk. now rewrite dft_coef.
Qed.
(** Hermitian symmetry of the transform of a real sequence *)
Lemma dft_hermitian (f : nat -> R) N k : 1 <= N -> k <= N ->
  xsum (fun j => xmul (xre (f j)) (root N (Z.of_nat j * Z.of_nat (N - k)))) N =
  xconj (xsum (fun j => xmul (xre (f j)) (root N (Z.of_nat j * Z.of_nat k))) N).
Proof.
  intros H Hk. rewrite xsum_conj. apply sum_ext. intros j _. rewrite xconj_mul, root_conj.
  replace (xconj (xre (f j))) with (xre (f j)) by (unfold xconj, xre; cbn [fst snd]; f_equal; ring). f_equal.
  replace (Z.of_nat j * Z.of_nat (N - k))%Z with (Z.of_nat N * Z.of_nat j + - (Z.of_nat j * Z.of_nat k))%Z by (rewrite Nat2Z.inj_sub by exact Hk; lia).
  rewrite root_add, root_mulZ by exact H. ring.
Qed.
(** Parseval *)
Theorem parseval x : rsum (fun k => xnorm2 (xcoef (dft x) k)) (length x) = (INR (length x) * rsum (fun j => xnorm2 (xcoef x j)) (length x))%R.
Proof.
  set (N := length x). destruct (Nat.eq_dec N 0) as [E|E]; [rewrite E; cbn; ring|]. assert (H : 1 <= N) by lia.
  assert (G : xsum (fun k => xmul (xcoef (dft x) k) (xconj (xcoef (dft x) k))) N =
              xmul (xre (INR N)) (xsum (fun j => xmul (xcoef x j) (xconj (xcoef x j))) N)).
  { transitivity (xsum (fun k => xsum (fun i => xsum (fun j => xmul (xmul (xcoef x i) (xconj (xcoef x j))) (root N ((Z.of_nat i - Z.of_nat j) * Z.of_nat k))) N) N) N).
    - apply sum_ext. intros k Hk. rewrite dft_coef by exact Hk. unfold dft_at. fold N. rewrite xsum_conj. rewrite <- (sum_scale_r xring).
      apply sum_ext. intros i _. rewrite <- (sum_scale_l xring). apply sum_ext. intros j _. rewrite xconj_mul, root_conj.
      replace ((Z.of_nat i - Z.of_nat j) * Z.of_nat k)%Z with (Z.of_nat i * Z.of_nat k + - (Z.of_nat j * Z.of_nat k))%Z by lia.
      rewrite root_add by exact H. ring.
    - rewrite (sum_swap xring). rewrite <- (sum_scale_l xring). apply sum_ext. intros i Hi. rewrite (sum_swap xring).
      rewrite (sum_window xring _ i 1 N).
      + cbn [nsum]. rewrite Nat.add_0_r, (sum_scale_l xring), orthogonality by lia.
        destruct (Z.eqb_spec (Z.of_nat i - Z.of_nat i) 0); [|lia]. cbn [orb]. ring.
      + lia.
      + intros j Hj. rewrite (sum_scale_l xring), orthogonality by lia.
        destruct (Z.eqb_spec (Z.of_nat i - Z.of_nat j) 0); [lia|]. destruct (Z.eqb_spec (Z.of_nat i - Z.of_nat j) (Z.of_nat N)); [lia|]. cbn [orb]. ring.
      + intros j Hj. rewrite (sum_scale_l xring), orthogonality by lia.
        destruct (Z.eqb_spec (Z.of_nat i - Z.of_nat j) 0); [lia|]. destruct (Z.eqb_spec (Z.of_nat i - Z.of_nat j) (Z.of_nat N)); [lia|]. cbn [orb]. ring. }
  rewrite (sum_ext _ (fun k => xre (xnorm2 (xcoef (dft x) k)))) in G by (intros; apply xmul_conj).
  rewrite (sum_ext (fun j => xmul (xcoef x j) (xconj (xcoef x j))) (fun k => xre (xnorm2 (xcoef x k)))) in G by (intros; apply xmul_conj).
  rewrite !xsum_re, xre_mul in G. now injection G.
Qed.
