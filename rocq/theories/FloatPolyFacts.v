From Coq Require Import List Arith ZArith Reals Bool.
From Verif Require Import Base Functional FunctionalProofs Spec SumLib Numeric Convolve ConvolveFacts Polynomial PolynomialFacts PolynomialField PairwiseError PolyReal FloatArith FloatArithFacts FloatConvFacts FloatVarFacts FloatWindowsFacts FloatPoly.
From Coq Require Import Lra Psatz Lia.
Import ListNotations.
Open Scope nat_scope.

Notation cpr := (@cprod R 0%R Rplus Rmult).
Notation rpp := (@ppow R 0%R 1%R Rplus Rmult).
Lemma rpolyval_peval x P : rpolyval x P = peval x P.
Proof. induction P as [|c P IH]; [reflexivity|]. rewrite rpolyval_cons, IH. cbn [peval]. lra. Qed.
Lemma peval_rpp x P n : P <> [] -> peval x (rpp P n) = (peval x P ^ n)%R.
Proof.
  intros H. rewrite <- !rpolyval_peval. unfold rpolyval. rewrite (eval_ppow Rth) by exact H.
  induction n as [|n IH]; cbn [rpow pow]; [reflexivity|]. now rewrite IH.
Qed.
Lemma rpp_length P n : P <> [] -> length (rpp P n) = n * (length P - 1) + 1.
Proof. apply ppow_length. Qed.
Lemma cpr_length a v : length (cpr a v) = length a + length v - 1.
Proof. unfold cprod. now rewrite map_length, seq_length. Qed.
Lemma conv_out a v k : length a + length v - 1 <= k -> (1 <= length a \/ 1 <= length v) -> conv_coef a v k = 0%R.
Proof.
  intros H _. unfold conv_coef. assert (Z : forall l, (forall i, In i l -> (i < length a -> length v <= k - i)%nat) -> Rsum (map (fun i => nth i a 0 * nth (k - i) v 0)%R l) = 0%R).
  { induction l as [|i l IH]; intros Hl; [reflexivity|]. cbn [map]. unfold Rsum. cbn [fold_right]. fold (Rsum (map (fun i => nth i a 0 * nth (k - i) v 0)%R l)). rewrite IH by (intros; apply Hl; [now right|assumption]).
    destruct (Nat.lt_ge_cases i (length a)) as [L|L]; [rewrite (nth_overflow v) by (apply Hl; [now left|exact L])|rewrite (nth_overflow a) by exact L]; ring. }
  apply Z. intros i Hi L. apply in_seq in Hi. lia.
Qed.
Lemma cpr_nth a v k : (1 <= length a \/ 1 <= length v) -> nth k (cpr a v) 0%R = conv_coef a v k.
Proof.
  intros H. destruct (Nat.lt_ge_cases k (length a + length v - 1)) as [L|L]; [now apply cprod_nth|].
  rewrite nth_overflow by (rewrite cpr_length; exact L). symmetry. now apply conv_out.
Qed.
Lemma map_abs_nth a k : nth k (map Rabs a) 0%R = Rabs (nth k a 0%R).
Proof. rewrite <- (map_nth Rabs a 0%R k). now rewrite Rabs_R0. Qed.

Section Near.
Variables (u : R) (fmt : R -> Prop) (rnd : R -> R).
Hypothesis RD : rounding u 0 fmt rnd.
Let Hu := u_pos _ _ _ _ RD.
Let Gge := gge u fmt rnd RD.
Notation g := (g u).
Notation acc := (acc u).
Local Open Scope R_scope.

(** x_i is within (g k - 1) A_i of X_i, and A_i bounds |X_i| *)
Definition near (k : nat) (x X A : list R) : Prop :=
  length x = length X /\ length A = length X /\ forall i, acc k (nth i A 0) 0 (nth i x 0) (nth i X 0).
Lemma near_0 x : near 0 x x (map Rabs x).
Proof. split; [reflexivity|split; [apply map_length|]]. intros i. rewrite map_abs_nth. apply (acc_exact _ _ _ RD). lra. Qed.
Lemma near_weak j k x X A : (j <= k)%nat -> near j x X A -> near k x X A.
Proof. intros H (L1 & L2 & N). split; [exact L1|split; [exact L2|]]. intros i. apply (acc_weak _ _ _ RD j k (nth i A 0) (nth i A 0) 0 0); [exact H|lra|lra|apply N]. Qed.
Lemma acc_zero k : acc k 0 0 0 0.
Proof. pose proof (Gge k). unfold FloatWindowsFacts.acc. rewrite Rminus_0_r, Rabs_R0. lra. Qed.
Lemma acc_sum k (fA fx fX : nat -> R) l : (forall i, acc k (fA i) 0 (fx i) (fX i)) -> acc k (Rsum (map fA l)) 0 (Rsum (map fx l)) (Rsum (map fX l)).
Proof.
  intros H. induction l as [|i l IH]; [apply acc_zero|]. cbn [map]. unfold Rsum in *. cbn [fold_right].
  pose proof (acc_add _ _ _ _ _ _ _ _ _ _ (H i) IH) as Q. now rewrite Rplus_0_r in Q.
Qed.
Lemma acc_conv j k x y X Y A B n : (forall i, acc j (nth i A 0) 0 (nth i x 0) (nth i X 0)) -> (forall i, acc k (nth i B 0) 0 (nth i y 0) (nth i Y 0)) ->
  acc (j + k) (conv_coef A B n) 0 (conv_coef x y n) (conv_coef X Y n).
Proof.
  intros H1 H2. apply acc_sum. intros i. pose proof (acc_mul _ _ _ RD j k _ _ _ _ _ _ _ _ (H1 i) (H2 (n - i)%nat)) as Q.
  rewrite Rmult_0_r, !Rmult_0_l, !Rplus_0_l in Q. exact Q.
Qed.
Lemma Rsum_mono (f h : nat -> R) l : (forall i, f i <= h i) -> Rsum (map f l) <= Rsum (map h l).
Proof. intros H. induction l as [|i l IH]; [apply Rle_refl|]. cbn [map]. unfold Rsum in *. cbn [fold_right]. specialize (H i). lra. Qed.
Lemma Rsum_scal c (f : nat -> R) l : Rsum (map (fun i => c * f i) l) = c * Rsum (map f l).
Proof. induction l as [|i l IH]; [unfold Rsum; cbn; ring|]. cbn [map]. unfold Rsum in *. cbn [fold_right]. rewrite IH. ring. Qed.
Lemma acc_mag k A x X : acc k A 0 x X -> Rabs x <= g k * A.
Proof. intros (H1 & _ & H2). replace x with (X + (x - X)) by ring. eapply Rle_trans; [apply Rabs_triang|]. lra. Qed.
Lemma conv_abs_le j k x y X Y A B n : (forall i, acc j (nth i A 0) 0 (nth i x 0) (nth i X 0)) -> (forall i, acc k (nth i B 0) 0 (nth i y 0) (nth i Y 0)) ->
  conv_coef (map Rabs x) (map Rabs y) n <= g (j + k) * conv_coef A B n.
Proof.
  intros H1 H2. unfold conv_coef. rewrite <- Rsum_scal. apply Rsum_mono. intros i. rewrite !map_abs_nth.
  pose proof (acc_mag _ _ _ _ (H1 i)) as M1. pose proof (acc_mag _ _ _ _ (H2 (n - i)%nat)) as M2.
  replace (g (j + k)) with (g j * g k) by (symmetry; apply Rfunctions.pow_add).
  replace (g j * g k * (nth i A 0 * nth (n - i) B 0)) with (g j * nth i A 0 * (g k * nth (n - i) B 0)) by ring.
  apply Rmult_le_compat; try apply Rabs_pos; assumption.
Qed.
Lemma near_conv j k x y X Y A B : near j x X A -> near k y Y B -> x <> [] -> y <> [] -> exists z,
  convolve 0 (fl_add rnd) (fl_mul rnd) x y = Ok z /\ near (j + k + S (Nat.min (length x) (length y))) z (cpr X Y) (cpr A B).
Proof.
  intros (L1 & L2 & N1) (L3 & L4 & N2) Hx Hy. set (m := Nat.min (length x) (length y)).
  destruct (convolve_err _ _ _ _ RD x y (or_introl Hx)) as (z & E & Lz & Bz). exists z. split; [exact E|].
  assert (P1 : (1 <= length x)%nat) by (destruct x; [contradiction|cbn; lia]).
  assert (P2 : (1 <= length y)%nat) by (destruct y; [contradiction|cbn; lia]).
  split; [rewrite cpr_length; lia|split; [rewrite !cpr_length; lia|]]. intros i.
  rewrite !cpr_nth by lia. pose proof (acc_conv j k x y X Y A B i N1 N2) as C. pose proof (conv_abs_le j k x y X Y A B i N1 N2) as D.
  assert (Bi : Rabs (nth i z 0 - conv_coef x y i) <= (g (S m) - 1) * conv_coef (map Rabs x) (map Rabs y) i).
  { destruct (Nat.lt_ge_cases i (length x + length y - 1)) as [L|L]; [specialize (Bz i L); fold m in Bz; lra|].
    rewrite nth_overflow by lia. rewrite conv_out by lia. rewrite conv_out by (rewrite ?map_length; lia). rewrite Rminus_0_r, Rabs_R0. lra. }
  destruct C as (C1 & _ & C2). split; [exact C1|split; [lra|]]. rewrite Rmult_0_r, Rplus_0_r in *.
  replace (nth i z 0 - conv_coef X Y i) with ((nth i z 0 - conv_coef x y i) + (conv_coef x y i - conv_coef X Y i)) by ring.
  eapply Rle_trans; [apply Rabs_triang|]. pose proof (Gge (S m)) as G.
  assert (Q : (g (S m) - 1) * conv_coef (map Rabs x) (map Rabs y) i <= (g (S m) - 1) * (g (j + k) * conv_coef A B i)) by (apply Rmult_le_compat_l; lra).
  assert (EG : g (j + k + S m) = g (j + k) * g (S m)) by apply Rfunctions.pow_add.
  rewrite EG. lra.
Qed.

(** ** polypow *)
Section Pow.
Variables (P : list R) (N : nat).
Hypothesis HP : P <> [].
Let d := (length P - 1)%nat.
Let c := (N / 2 * d + 2)%nat.
Let HA : map Rabs P <> []. Proof. destruct P; [contradiction|discriminate]. Qed.
Definition npow (k : nat) (x : list R) (i : nat) : Prop := near k x (rpp P i) (rpp (map Rabs P) i).
Lemma npow_len k x i : npow k x i -> length x = (i * d + 1)%nat.
Proof. intros (L & _). rewrite L. now apply rpp_length. Qed.
Lemma npow_ne k x i : npow k x i -> x <> [].
Proof. intros H E. pose proof (npow_len _ _ _ H) as L. rewrite E in L. cbn in L. lia. Qed.
Lemma npow_mul j k x y a b : npow j x a -> npow k y b -> (Nat.min a b <= N / 2)%nat -> exists z,
  convolve 0 (fl_add rnd) (fl_mul rnd) x y = Ok z /\ npow (j + k + c) z (a + b).
Proof.
  intros H1 H2 L. destruct (near_conv _ _ _ _ _ _ _ _ H1 H2 (npow_ne _ _ _ H1) (npow_ne _ _ _ H2)) as (z & E & Z). exists z. split; [exact E|].
  unfold npow. rewrite !(ppow_add Rth) by assumption. eapply near_weak; [|exact Z].
  rewrite (npow_len _ _ _ H1), (npow_len _ _ _ H2). unfold c. assert (Nat.min a b * d <= N / 2 * d)%nat by (apply Nat.mul_le_mono_r; exact L).
  destruct (Nat.le_ge_cases a b) as [Q|Q]; [rewrite (Nat.min_l a b Q) in *|rewrite (Nat.min_r a b Q) in *]; lia.
Qed.
Lemma half_ge i n : (2 <= n)%nat -> (i * n <= N)%nat -> (i <= N / 2)%nat.
Proof. intros H1 H2. apply Nat.div_le_lower_bound; [lia|]. nia. Qed.
Lemma loop_near fuel : forall n i j x y, (n <= fuel)%nat -> (1 <= n)%nat -> (1 <= i)%nat -> (i * n + j = N)%nat -> npow ((i - 1) * c) x i -> npow (j * c) y j ->
  exists x' y' a b, polypow_loop 0 (fl_add rnd) (fl_mul rnd) fuel n x y = Ok (x', y') /\ (1 <= a)%nat /\ (a + b = N)%nat /\ npow ((a - 1) * c) x' a /\ npow (b * c) y' b.
Proof.
  induction fuel as [|f IH]; intros n i j x y Hf Hn Hi HN Hx Hy; [lia|]. cbn [polypow_loop]. unfold polymul. destruct (Nat.ltb_spec 1 n) as [L|L].
  2:{ exists x, y, i, j. split; [reflexivity|]. assert (n = 1%nat) by lia. subst n. split; [exact Hi|split; [lia|split; assumption]]. }
  pose proof (half_ge i n ltac:(lia) ltac:(lia)) as Hh.
  destruct (npow_mul _ _ _ _ _ _ Hx Hx ltac:(lia)) as (x' & Ex & Nx).
  assert (Hx' : npow ((2 * i - 1) * c) x' (2 * i)). { replace (2 * i)%nat with (i + i)%nat by lia. replace ((i + i - 1) * c)%nat with ((i - 1) * c + (i - 1) * c + c)%nat by (destruct i; [lia|nia]). exact Nx. }
  assert (D2 : (n / 2 <= f /\ 1 <= n / 2)%nat). { split; [apply Nat.div_le_upper_bound; lia|apply Nat.div_le_lower_bound; lia]. }
  destruct (mod2_cases n) as [M|M]; rewrite M; cbn [Nat.eqb].
  - cbn [bind]. rewrite Ex. cbn [bind]. apply (IH (n / 2)%nat (2 * i)%nat j); try lia; try assumption. pose proof (half_even n M) as E2. nia.
  - destruct (npow_mul _ _ _ _ _ _ Hx Hy ltac:(lia)) as (y' & Ey & Ny). rewrite Ey. cbn [bind]. rewrite Ex. cbn [bind].
    apply (IH (n / 2)%nat (2 * i)%nat (i + j)%nat); try lia; try assumption; [pose proof (half_odd n M) as E2; nia|].
    replace ((i + j) * c)%nat with ((i - 1) * c + j * c + c)%nat by (destruct i; [lia|nia]). exact Ny.
Qed.
Lemma npow_1 : npow 0 P 1.
Proof. unfold npow. rewrite !(ppow_1 Rth). apply near_0. Qed.
Lemma npow_0 k : npow k [1] 0.
Proof. apply (near_weak 0 k); [lia|]. unfold npow. cbn [ppow]. pose proof (near_0 [1]) as Q. cbn [map] in Q. now rewrite Rabs_R1 in Q. Qed.
Lemma polypow_near : exists z, r_polypow rnd P N = Ok z /\ npow (N * c) z N.
Proof.
  unfold r_polypow, polypow. destruct (Nat.eqb_spec N 0) as [E|E0]; [exists [1]; split; [reflexivity|rewrite E; apply npow_0]|].
  destruct (Nat.eqb_spec N 1) as [E|E1]; [exists P; split; [reflexivity|]; rewrite E; apply (near_weak 0); [lia|apply npow_1]|].
  destruct (Nat.eqb_spec (length P) 0) as [E|E2]; [apply length_zero_iff_nil in E; contradiction|].
  destruct (loop_near N N 1 0 P [1] ltac:(lia) ltac:(lia) ltac:(lia) ltac:(lia)) as (x & y & a & b & E & Ha & Hab & Nx & Ny); [apply npow_1|apply npow_0|].
  rewrite E. cbn [bind]. unfold polymul. destruct (npow_mul _ _ _ _ _ _ Nx Ny) as (z & Ez & Nz); [apply Nat.div_le_lower_bound; lia|].
  exists z. split; [exact Ez|]. rewrite Hab in Nz. replace (N * c)%nat with ((a - 1) * c + b * c + c)%nat by (rewrite <- Hab; destruct a; [lia|nia]). exact Nz.
Qed.
Lemma array_near fuel : forall n i x, (n <= fuel)%nat -> (1 <= n)%nat -> (1 <= i)%nat -> (i * n <= N)%nat -> npow ((i - 1) * c) x i ->
  exists z, polypow_array 0 1 (fl_add rnd) (fl_mul rnd) fuel n x = Ok z /\ npow ((i * n - 1) * c) z (i * n).
Proof.
  induction fuel as [|f IH]; intros n i x Hf Hn Hi HN Hx; [lia|]. cbn [polypow_array]. unfold polymul. destruct (Nat.eqb_spec n 0); [lia|].
  destruct (Nat.eqb_spec n 1) as [->|N1]; [exists x; split; [reflexivity|rewrite Nat.mul_1_r; exact Hx]|].
  pose proof (half_ge i n ltac:(lia) HN) as Hh. destruct (npow_mul _ _ _ _ _ _ Hx Hx ltac:(lia)) as (x' & Ex & Nx). rewrite Ex. cbn [bind].
  assert (Hx' : npow ((2 * i - 1) * c) x' (2 * i)). { replace (2 * i)%nat with (i + i)%nat by lia. replace ((i + i - 1) * c)%nat with ((i - 1) * c + (i - 1) * c + c)%nat by (destruct i; [lia|nia]). exact Nx. }
  destruct (mod2_cases n) as [M|M]; rewrite M; cbn [Nat.eqb].
  - pose proof (half_even n M) as E2. replace (i * n)%nat with (2 * i * (n / 2))%nat by nia. apply IH; try lia; try assumption; nia.
  - pose proof (half_odd n M) as E2. replace ((n - 1) / 2)%nat with (n / 2)%nat by (rewrite E2 at 2; replace (S (n / 2 + n / 2) - 1)%nat with (n / 2 * 2)%nat by lia; now rewrite Nat.div_mul by lia).
    destruct (IH (n / 2)%nat (2 * i)%nat x' ltac:(lia) ltac:(lia) ltac:(lia) ltac:(nia) Hx') as (r & Er & Nr). rewrite Er. cbn [bind].
    destruct (npow_mul _ _ _ _ _ _ Hx Nr ltac:(lia)) as (z & Ez & Nz). exists z. split; [exact Ez|].
    replace (i * n)%nat with (i + 2 * i * (n / 2))%nat by nia.
    replace ((i + 2 * i * (n / 2) - 1) * c)%nat with ((i - 1) * c + (2 * i * (n / 2) - 1) * c + c)%nat; [exact Nz|].
    assert (1 <= 2 * i * (n / 2))%nat by nia. set (q := (2 * i * (n / 2))%nat) in *. clearbody q. destruct i as [|i]; [lia|]. destruct q as [|q]; [lia|]. replace (S i + S q - 1)%nat with (S (i + q)) by lia. cbn [Nat.mul Nat.sub]. rewrite ?Nat.sub_0_r, Nat.mul_add_distr_r. lia.
Qed.
Lemma polypow_array_near : exists z, r_polypow_array rnd P N = Ok z /\ npow (N * c) z N.
Proof.
  unfold r_polypow_array. destruct (Nat.eq_dec N 0) as [E|E]; [rewrite E; exists [1]; split; [reflexivity|apply npow_0]|].
  destruct (array_near N N 1 P ltac:(lia) ltac:(lia) ltac:(lia) ltac:(lia)) as (z & Ez & Nz); [apply npow_1|]. exists z. split; [exact Ez|].
  rewrite Nat.mul_1_l in Nz. apply (near_weak ((N - 1) * c)); [apply Nat.mul_le_mono_r; lia|exact Nz].
Qed.
End Pow.

(** ** polyfromroots *)
Section Step.
Variables (sub mul : R -> R -> R).
Definition fr_step (r : R) (x y : list R) : Prop := length y = S (length x) /\
  forall k, nth k y 0 = if (k <? length x)%nat then sub (nth k (0 :: x) 0) (mul (nth k x 0) r) else nth k (0 :: x) 0.
Lemma step_ok r x : x <> [] -> exists y, poly_minus_assign 0 sub Ropp (polymulx_rvalue 0 x) (poly_scale_assign mul x r) = Ok y /\ fr_step r x y.
Proof.
  intros Hx. unfold poly_scale_assign, poly_minus_assign. rewrite transform1_map, polymulx_rvalue_spec.
  assert (E1 : map (fun c => mul c r) x <> []) by (destruct x; [contradiction|discriminate]).
  rewrite (degree_gtb_ne (T := R)); [|exact E1|discriminate]. rewrite map_length. cbn [length]. destruct (Nat.ltb_spec (S (length x)) (length x)); [lia|].
  destruct (@sub_range_spec R 0 sub (map (fun c => mul c r) x) (length x) (0 :: x) 0%nat) as (y & E & L & C); [cbn [length]; lia|rewrite map_length; lia|].
  exists y. split; [exact E|]. split; [exact L|]. intros k. specialize (C k). unfold SumLib.coef in C. rewrite C. cbn [Nat.leb andb Nat.add].
  destruct (Nat.ltb_spec k (length x)) as [L1|L1]; [|reflexivity]. f_equal. rewrite (nth_indep _ 0 (mul 0 r)) by (rewrite map_length; exact L1). apply (map_nth (fun c => mul c r)).
Qed.
End Step.
Lemma step_near r k x X A y Y B : near k x X A -> fr_step (fl_sub rnd) (fl_mul rnd) r x y -> fr_step Rminus Rmult r X Y -> fr_step Rminus Rmult (- Rabs r) A B ->
  near (k + 2) y Y B.
Proof.
  intros (L1 & L2 & N) (Ly & Hy) (LY & HY) (LB & HB). split; [lia|split; [lia|]]. intros i. rewrite Hy, HY, HB, L1, L2.
  assert (S0 : acc k (nth i (0 :: A) 0) 0 (nth i (0 :: x) 0) (nth i (0 :: X) 0)) by (destruct i; cbn [nth]; [apply acc_zero|apply N]).
  destruct (Nat.ltb_spec i (length X)) as [L|L].
  - pose proof (acc_scale _ _ _ RD k _ _ r _ _ (N i)) as S1. rewrite Rmult_0_r in S1. apply (acc_rnd _ _ _ RD) in S1.
    assert (S2 : acc (S k) (nth i (0 :: A) 0) 0 (nth i (0 :: x) 0) (nth i (0 :: X) 0)) by (apply (acc_weak _ _ _ RD k (S k) (nth i (0 :: A) 0) (nth i (0 :: A) 0) 0 0); [lia|lra|lra|exact S0]).
    pose proof (acc_rnd _ _ _ RD _ _ _ _ _ (acc_sub _ _ _ _ _ _ _ _ _ _ S2 S1)) as S3. unfold fl_sub, fl_mul. rewrite Rplus_0_r in S3.
    replace (k + 2)%nat with (S (S k)) by lia. rewrite (Rmult_comm (nth i x 0)), (Rmult_comm (nth i X 0)).
    replace (nth i (0 :: A) 0 - nth i A 0 * - Rabs r) with (nth i (0 :: A) 0 + Rabs r * nth i A 0) by ring. exact S3.
  - apply (acc_weak _ _ _ RD k (k + 2) (nth i (0 :: A) 0) (nth i (0 :: A) 0) 0 0); [lia|lra|lra|exact S0].
Qed.
Lemma fr_ne (sub mul : R -> R -> R) r x y : fr_step sub mul r x y -> y <> [].
Proof. intros (L & _) E. rewrite E in L. discriminate. Qed.
Lemma fr_last (sub mul : R -> R -> R) r x y : x <> [] -> fr_step sub mul r x y -> nth (length y - 1) y 0 = nth (length x - 1) x 0.
Proof.
  intros Hx (L & H). rewrite L, H. replace (S (length x) - 1)%nat with (length x) by lia. rewrite Nat.ltb_irrefl. destruct x as [|a x]; [contradiction|]. cbn [length nth]. now replace (S (length x) - 1)%nat with (length x) by lia.
Qed.
Lemma fr_near roots : forall k x X A, near k x X A -> x <> [] -> exists z Z M, fromroots_loop 0 (fl_sub rnd) (fl_mul rnd) Ropp roots x = Ok z /\
  fromroots_loop 0 Rminus Rmult Ropp roots X = Ok Z /\ fromroots_loop 0 Rminus Rmult Ropp (map (fun r => - Rabs r) roots) A = Ok M /\
  near (k + 2 * length roots) z Z M /\ nth (length z - 1) z 0 = nth (length x - 1) x 0.
Proof.
  induction roots as [|r rs IH]; intros k x X A Nr Hx.
  - exists x, X, A. cbn [fromroots_loop map length Nat.mul]. rewrite Nat.add_0_r. repeat (split; [reflexivity|]). split; [exact Nr|reflexivity].
  - assert (HX : X <> [] /\ A <> []). { destruct Nr as (L1 & L2 & _). split; intros ->; cbn in *; destruct x; try contradiction; cbn in *; try lia. }
    cbn [fromroots_loop map]. destruct (step_ok (fl_sub rnd) (fl_mul rnd) r x Hx) as (y & E1 & S1). destruct (step_ok Rminus Rmult r X (proj1 HX)) as (Y & E2 & S2).
    destruct (step_ok Rminus Rmult (- Rabs r) A (proj2 HX)) as (B & E3 & S3). rewrite E1, E2, E3. cbn [bind].
    destruct (IH _ _ _ _ (step_near _ _ _ _ _ _ _ _ Nr S1 S2 S3) (fr_ne _ _ _ _ _ S1)) as (z & Z & M & F1 & F2 & F3 & NZ & Lst).
    exists z, Z, M. split; [exact F1|split; [exact F2|split; [exact F3|split]]].
    + replace (k + 2 * length (r :: rs))%nat with (k + 2 + 2 * length rs)%nat by (cbn [length]; lia). exact NZ.
    + rewrite Lst. now apply (fr_last (fl_sub rnd) (fl_mul rnd) r).
Qed.
End Near.

(** ** polyadd, polysub: one rounding per coefficient *)
Section AddSub.
Variables (u eta : R) (fmt : R -> Prop) (rnd : R -> R).
Hypothesis RD : rounding u eta fmt rnd.
Hypothesis Fopp : forall x, fmt x -> fmt (- x)%R.
Lemma nth_fmt P k : Forall fmt P -> fmt (nth k P 0%R).
Proof.
  intros H. destruct (Nat.lt_ge_cases k (length P)) as [L|L]; [rewrite Forall_forall in H; apply H, nth_In, L|]. rewrite nth_overflow by exact L. exact (rd_0 _ _ _ _ RD).
Qed.
Lemma nth_mapseq (f : nat -> R) n k : k < n -> nth k (map f (seq 0 n)) 0%R = f k.
Proof. intros H. rewrite (nth_indep _ 0%R (f 0)) by (rewrite map_length, seq_length; exact H). rewrite map_nth, seq_nth by exact H. reflexivity. Qed.
Lemma nth_skip n (P : list R) k : nth k (skipn n P) 0%R = nth (n + k) P 0%R.
Proof. exact (@coef_skipn R 0%R n P k). Qed.
Lemma polyadd_rnd P Q : Forall fmt P -> Forall fmt Q -> exists s, r_polyadd rnd P Q = Ok s /\ length s = Nat.max (length P) (length Q) /\
  forall k, nth k s 0%R = rnd (nth k P 0 + nth k Q 0)%R.
Proof.
  intros FP FQ. unfold r_polyadd, polyadd, add_arrays.
  assert (Out : forall s, length s = Nat.max (length P) (length Q) -> (forall k, k < length s -> nth k s 0%R = rnd (nth k P 0 + nth k Q 0)%R) -> forall k, nth k s 0%R = rnd (nth k P 0 + nth k Q 0)%R).
  { intros s L H k. destruct (Nat.lt_ge_cases k (length s)) as [Lk|Lk]; [now apply H|]. rewrite !nth_overflow by lia. rewrite Rplus_0_r. symmetry. apply (rd_id _ _ _ _ RD), (rd_0 _ _ _ _ RD). }
  destruct (Nat.leb_spec (length P) (length Q)) as [L|L].
  - rewrite repeat_length. replace (length Q <? length P) with false by (symmetry; apply Nat.ltb_ge; lia).
    unfold require. rewrite Nat.leb_refl. rewrite (@transform2_coef R 0%R) by exact L. cbn [bind].
    rewrite (fill_two (T := R)) by (rewrite ?map_length, ?seq_length, ?skipn_length, ?repeat_length; lia).
    eexists. split; [reflexivity|]. set (s := _ ++ _). assert (Ls : length s = Nat.max (length P) (length Q)) by (unfold s; rewrite app_length, map_length, seq_length, skipn_length; lia).
    split; [exact Ls|]. apply Out; [exact Ls|]. intros k Hk. unfold s. destruct (Nat.lt_ge_cases k (length P)) as [Lk|Lk].
    + rewrite app_nth1 by (rewrite map_length, seq_length; exact Lk). rewrite nth_mapseq by exact Lk. reflexivity.
    + rewrite app_nth2 by (rewrite map_length, seq_length; exact Lk). rewrite map_length, seq_length, nth_skip. replace (length P + (k - length P)) with k by lia.
      rewrite (nth_overflow P) by exact Lk. rewrite Rplus_0_l. symmetry. apply (rd_id _ _ _ _ RD), nth_fmt, FQ.
  - replace (length Q <? length P) with true by (symmetry; apply Nat.ltb_lt; lia). rewrite repeat_length.
    unfold require. rewrite Nat.leb_refl. rewrite (@transform2_coef R 0%R) by lia. cbn [bind].
    rewrite (fill_two (T := R)) by (rewrite ?map_length, ?seq_length, ?skipn_length, ?repeat_length; lia).
    eexists. split; [reflexivity|]. set (s := _ ++ _). assert (Ls : length s = Nat.max (length P) (length Q)) by (unfold s; rewrite app_length, map_length, seq_length, skipn_length; lia).
    split; [exact Ls|]. apply Out; [exact Ls|]. intros k Hk. unfold s. destruct (Nat.lt_ge_cases k (length Q)) as [Lk|Lk].
    + rewrite app_nth1 by (rewrite map_length, seq_length; exact Lk). rewrite nth_mapseq by exact Lk. unfold fl_add, SumLib.coef. f_equal. ring.
    + rewrite app_nth2 by (rewrite map_length, seq_length; exact Lk). rewrite map_length, seq_length, nth_skip. replace (length Q + (k - length Q)) with k by lia.
      rewrite (nth_overflow Q) by exact Lk. rewrite Rplus_0_r. symmetry. apply (rd_id _ _ _ _ RD), nth_fmt, FP.
Qed.
Lemma polysub_rnd P Q : Forall fmt P -> Forall fmt Q -> exists s, r_polysub rnd P Q = Ok s /\ length s = Nat.max (length P) (length Q) /\
  forall k, nth k s 0%R = rnd (nth k P 0 - nth k Q 0)%R.
Proof.
  intros FP FQ. unfold r_polysub, polysub, sub_arrays.
  assert (Out : forall s, length s = Nat.max (length P) (length Q) -> (forall k, k < length s -> nth k s 0%R = rnd (nth k P 0 - nth k Q 0)%R) -> forall k, nth k s 0%R = rnd (nth k P 0 - nth k Q 0)%R).
  { intros s L H k. destruct (Nat.lt_ge_cases k (length s)) as [Lk|Lk]; [now apply H|]. rewrite !nth_overflow by lia. rewrite Rminus_0_r. symmetry. apply (rd_id _ _ _ _ RD), (rd_0 _ _ _ _ RD). }
  destruct (Nat.leb_spec (length P) (length Q)) as [L|L].
  - rewrite repeat_length. replace (length Q <? length P) with false by (symmetry; apply Nat.ltb_ge; lia).
    unfold require. rewrite Nat.leb_refl. rewrite (@transform2_coef R 0%R) by exact L. cbn [bind]. rewrite transform1_map.
    rewrite (fill_two (T := R)) by (rewrite ?map_length, ?seq_length, ?skipn_length, ?repeat_length; lia).
    eexists. split; [reflexivity|]. set (s := _ ++ _). assert (Ls : length s = Nat.max (length P) (length Q)) by (unfold s; rewrite app_length, !map_length, seq_length, skipn_length; lia).
    split; [exact Ls|]. apply Out; [exact Ls|]. intros k Hk. unfold s. destruct (Nat.lt_ge_cases k (length P)) as [Lk|Lk].
    + rewrite app_nth1 by (rewrite map_length, seq_length; exact Lk). rewrite nth_mapseq by exact Lk. reflexivity.
    + rewrite app_nth2 by (rewrite map_length, seq_length; exact Lk). rewrite map_length, seq_length. rewrite (nth_indep _ 0%R (- 0)%R) by (rewrite map_length, skipn_length; lia). rewrite map_nth, nth_skip. replace (length P + (k - length P)) with k by lia.
      rewrite (nth_overflow P) by exact Lk. unfold Rminus. rewrite Rplus_0_l. symmetry. apply (rd_id _ _ _ _ RD), Fopp, nth_fmt, FQ.
  - replace (length Q <? length P) with true by (symmetry; apply Nat.ltb_lt; lia). rewrite repeat_length.
    unfold require. rewrite Nat.leb_refl. rewrite (@transform2_coef R 0%R) by lia. cbn [bind].
    rewrite (fill_two (T := R)) by (rewrite ?map_length, ?seq_length, ?skipn_length, ?repeat_length; lia).
    eexists. split; [reflexivity|]. set (s := _ ++ _). assert (Ls : length s = Nat.max (length P) (length Q)) by (unfold s; rewrite app_length, map_length, seq_length, skipn_length; lia).
    split; [exact Ls|]. apply Out; [exact Ls|]. intros k Hk. unfold s. destruct (Nat.lt_ge_cases k (length Q)) as [Lk|Lk].
    + rewrite app_nth1 by (rewrite map_length, seq_length; exact Lk). rewrite nth_mapseq by exact Lk. reflexivity.
    + rewrite app_nth2 by (rewrite map_length, seq_length; exact Lk). rewrite map_length, seq_length, nth_skip. replace (length Q + (k - length Q)) with k by lia.
      rewrite (nth_overflow Q) by exact Lk. rewrite Rminus_0_r. symmetry. apply (rd_id _ _ _ _ RD), nth_fmt, FP.
Qed.
End AddSub.

(** ** polyder, polyint: one rounding per order *)
Section DerInt.
Variables (u : R) (fmt : R -> Prop) (rnd : R -> R).
Hypothesis RD : rounding u 0 fmt rnd.
Hypothesis Hinv : forall x, (Rabs (rnd x - x) <= u * Rabs (rnd x))%R.
Notation rel := (rel u).
Local Open Scope R_scope.
(** falling k m = k (k - 1) ... (k - m + 1) *)
Fixpoint falling (k m : nat) : R := match m with O => 1 | S p => INR k * falling (k - 1) p end.
(** rising k m = (k + 1) (k + 2) ... (k + m) *)
Fixpoint rising (k m : nat) : R := match m with O => 1 | S p => INR (k + 1) * rising (k + 1) p end.
Lemma fl_nat_id n : fmt (INR n) -> fl_nat rnd n = INR n.
Proof. exact (rd_id _ _ _ _ RD (INR n)). Qed.
Lemma der_once P : P <> [] -> (forall n, (n < length P)%nat -> fmt (INR n)) -> exists s, polyder_once (fl_mul rnd) (fl_nat rnd) P = Ok s /\ length s = (length P - 1)%nat /\
  forall k, (k < length s)%nat -> nth k s 0 = rnd (nth k P 0 * INR (length P - 1 - k)).
Proof.
  intros HP HN. unfold polyder_once. assert (L : (length P <> 0)%nat) by (destruct P; [contradiction|discriminate]).
  unfold require. destruct (Nat.eqb_spec (length P) 0); [contradiction|]. cbn [negb]. rewrite (@transform2_coef R 0) by (rewrite map_length, seq_length; lia). cbn [bind].
  eexists. split; [reflexivity|]. split; [rewrite firstn_length, map_length, seq_length; lia|]. intros k Hk. rewrite firstn_length, map_length, seq_length in Hk.
  change (nth k (firstn (length P - 1) ?a) 0) with (@SumLib.coef R 0 (firstn (length P - 1) a) k). rewrite coef_firstn. destruct (Nat.ltb_spec k (length P - 1)); [|lia].
  rewrite coef_mapseq. destruct (Nat.ltb_spec k (length P)); [|lia]. unfold fl_mul. rewrite coef_mapseq. destruct (Nat.ltb_spec k (length P)); [|lia]. rewrite fl_nat_id by (apply HN; lia). reflexivity.
Qed.
Lemma der_loop m : forall P, (m <= length P)%nat -> (forall n, (n < length P)%nat -> fmt (INR n)) -> exists s, polyder_loop (fl_mul rnd) (fl_nat rnd) m P = Ok s /\
  length s = (length P - m)%nat /\ forall k, (k < length s)%nat -> rel m (nth k s 0) (nth k P 0 * falling (length P - 1 - k) m).
Proof.
  induction m as [|m IH]; intros P Hm HN; cbn [polyder_loop].
  - exists P. split; [reflexivity|split; [lia|]]. intros k Hk. cbn [falling]. rewrite Rmult_1_r. apply (rel_0 _ _ _ RD).
  - assert (HP : P <> []) by (intros ->; cbn in Hm; lia). destruct (der_once P HP HN) as (s & E & L & V). rewrite E. cbn [bind].
    destruct (IH s ltac:(lia) ltac:(intros n Hn; apply HN; lia)) as (t & Et & Lt & Vt). exists t. split; [exact Et|split; [lia|]]. intros k Hk. specialize (Vt k Hk). cbn [falling].
    rewrite V in Vt by lia. rewrite L in Vt. replace (length P - 1 - k - 1)%nat with (length P - 1 - 1 - k)%nat by lia.
    replace (S m) with (m + 1)%nat by lia. eapply (rel_trans _ _ _ RD m 1); [exact Vt|].
    replace (nth k P 0 * (INR (length P - 1 - k) * falling (length P - 1 - 1 - k) m)) with (nth k P 0 * INR (length P - 1 - k) * falling (length P - 1 - 1 - k) m) by ring.
    replace 1%nat with (1 + 0)%nat by lia. apply (rel_mul _ _ _ RD 1 0); [apply (rel_rnd1 _ _ _ RD Hinv)|apply (rel_0 _ _ _ RD)].
Qed.
Lemma polyder_rel P m : (forall n, (n < length P)%nat -> fmt (INR n)) -> exists s, r_polyder rnd P (Z.of_nat m) = Ok s /\
  length s = (length P - m)%nat /\ forall k, (k < length s)%nat -> rel m (nth k s 0) (nth k P 0 * falling (length P - 1 - k) m).
Proof.
  intros HN. unfold r_polyder, polyder, require. destruct (Z.leb_spec 0 (Z.of_nat m)); [|lia]. destruct (Z.eqb_spec (Z.of_nat m) 0) as [E|E].
  - assert (m = 0%nat) by lia. subst m. destruct (der_loop 0 P ltac:(lia) HN) as (s & Es & Q). exists s. split; [exact Es|exact Q].
  - destruct (Z.leb_spec (Z.of_nat (length P)) (Z.of_nat m)).
    + exists []. split; [reflexivity|split; [cbn; lia|]]. intros k Hk. cbn in Hk. lia.
    + rewrite Nat2Z.id. apply der_loop; [lia|exact HN].
Qed.
Lemma int_loop m : forall P, (forall n, (n < length P + m)%nat -> fmt (INR n)) -> exists s, polyint_loop 0 (fl_quot rnd) (fl_nat rnd) m P = Ok s /\
  length s = (length P + m)%nat /\ (forall k, (k < m)%nat -> nth k s 0 = 0) /\ forall k, (k < length P)%nat -> rel m (nth (k + m) s 0) (nth k P 0 / rising k m).
Proof.
  induction m as [|m IH]; intros P HN; cbn [polyint_loop].
  - exists P. split; [reflexivity|split; [lia|split; [lia|]]]. intros k Hk. cbn [rising]. rewrite Nat.add_0_r. unfold Rdiv. rewrite Rinv_1, Rmult_1_r. apply (rel_0 _ _ _ RD).
  - rewrite polyint_once_spec. cbn [bind]. set (Q := antideriv _ P).
    assert (LQ : length Q = S (length P)) by (unfold Q, antideriv; cbn [length]; now rewrite map_length, seq_length).
    assert (Q0 : nth 0 Q 0 = 0) by reflexivity.
    assert (QS : forall k, (k < length P)%nat -> nth (S k) Q 0 = rnd (nth k P 0 / INR (k + 1))).
    { intros k Hk. unfold Q, antideriv. cbn [nth]. rewrite nth_mapseq by exact Hk. unfold fl_quot. rewrite fl_nat_id by (apply HN; lia). replace (k + 1)%nat with (S k) by lia. reflexivity. }
    clearbody Q. destruct (IH Q ltac:(intros n Hn; apply HN; lia)) as (s & Es & Ls & Zs & Vs). exists s. split; [exact Es|split; [lia|split]].
    + intros k Hk. destruct (Nat.eq_dec k m) as [->|]; [|apply Zs; lia]. destruct (Vs 0%nat ltac:(lia)) as (r & _ & E). cbn [Nat.add] in E. rewrite E, Q0. unfold Rdiv. now rewrite !Rmult_0_l.
    + intros k Hk. specialize (Vs (S k) ltac:(lia)). rewrite QS in Vs by exact Hk. replace (k + S m)%nat with (S k + m)%nat by lia. cbn [rising]. replace (S m) with (m + 1)%nat by lia.
      eapply (rel_trans _ _ _ RD m 1); [exact Vs|]. replace (k + 1)%nat with (S k) by lia.
      replace (nth k P 0 / (INR (S k) * rising (S k) m)) with (nth k P 0 / INR (S k) / rising (S k) m).
      * replace (S k) with (k + 1)%nat by lia. replace 1%nat with (1 + 0)%nat at 4 by lia. apply (rel_div _ _ _ RD 1 0); [apply (rel_rnd1 _ _ _ RD Hinv)|apply (rel_0 _ _ _ RD)].
      * assert (K : forall m k, rising k m <> 0). { induction m0 as [|m0 IHm]; intros k0; cbn [rising]; [lra|]. apply Rmult_integral_contrapositive_currified; [apply not_0_INR; lia|apply IHm]. }
        field. split; [apply K|apply not_0_INR; lia].
Qed.
Lemma polyint_rel P m : P <> [] -> (forall n, (n < length P + m)%nat -> fmt (INR n)) -> exists s, r_polyint rnd P (Z.of_nat m) = Ok s /\
  length s = (length P + m)%nat /\ (forall k, (k < m)%nat -> nth k s 0 = 0) /\ forall k, (k < length P)%nat -> rel m (nth (k + m) s 0) (nth k P 0 / rising k m).
Proof.
  intros HP HN. destruct (int_loop m P HN) as (s & Es & Q). exists s. split; [|exact Q]. unfold r_polyint. rewrite polyint_spec by exact HP. rewrite polyint_loop_spec in Es. exact Es.
Qed.
End DerInt.

(** ** Exactness on small integers *)
Section Exact.
Variables (u eta : R) (fmt : R -> Prop) (rnd : R -> R).
Hypothesis RD : rounding u eta fmt rnd.
Variable Bd : R.
Hypothesis HB1 : (1 <= Bd)%R.
Hypothesis Fint : forall z, (Rabs (IZR z) <= Bd)%R -> fmt (IZR z).
Local Open Scope R_scope.
Definition isint (x : R) : Prop := exists z, x = IZR z.
Definition ints (l : list R) : Prop := Forall isint l.
Lemma ii_add x y : isint x -> isint y -> isint (x + y). Proof. intros [a ->] [b ->]. exists (a + b)%Z. now rewrite plus_IZR. Qed.
Lemma ii_sub x y : isint x -> isint y -> isint (x - y). Proof. intros [a ->] [b ->]. exists (a - b)%Z. now rewrite minus_IZR. Qed.
Lemma ii_mul x y : isint x -> isint y -> isint (x * y). Proof. intros [a ->] [b ->]. exists (a * b)%Z. now rewrite mult_IZR. Qed.
Lemma ii_0 : isint 0. Proof. now exists 0%Z. Qed.
Lemma ii_1 : isint 1. Proof. now exists 1%Z. Qed.
Lemma rnd_int x : isint x -> Rabs x <= Bd -> rnd x = x.
Proof. intros [z ->] H. apply (rd_id _ _ _ _ RD). now apply Fint. Qed.
Lemma ints_nth l k : ints l -> isint (nth k l 0).
Proof. intros H. destruct (Nat.lt_ge_cases k (length l)) as [L|L]; [unfold ints in H; rewrite Forall_forall in H; now apply H, nth_In|]. rewrite nth_overflow by exact L. apply ii_0. Qed.
Lemma at_int a k x : ints a -> at_ub a k = Ok x -> isint x.
Proof. intros H. unfold at_ub. destruct (nth_error a k) eqn:E; [|discriminate]. intros [= <-]. unfold ints in H. rewrite Forall_forall in H. eapply H, nth_error_In, E. Qed.
Lemma inner_mono a v i cnt : forall j B T, conv_inner Rplus Rmult (map Rabs a) (map Rabs v) i j cnt B = Ok T -> B <= T.
Proof.
  induction cnt as [|cnt IH]; intros j B T E; cbn [conv_inner] in E; [injection E as <-; lra|].
  destruct (at_ub (map Rabs a) (Z.to_nat j)) as [x| | |] eqn:Ex; try discriminate E. cbn [bind] in E. destruct (at_ub (map Rabs v) (Z.to_nat (i - j))) as [y| | |] eqn:Ey; try discriminate E. cbn [bind] in E.
  apply IH in E. assert (0 <= x /\ 0 <= y) as [X Y].
  { unfold at_ub in Ex, Ey. rewrite nth_error_map in Ex, Ey. destruct (nth_error a (Z.to_nat j)); [|discriminate]. destruct (nth_error v (Z.to_nat (i - j))); [|discriminate]. injection Ex as <-. injection Ey as <-. split; apply Rabs_pos. }
  pose proof (Rmult_le_pos _ _ X Y). lra.
Qed.
Lemma inner_exact a v i cnt : ints a -> ints v -> forall j A B T, isint A -> Rabs A <= B -> conv_inner Rplus Rmult (map Rabs a) (map Rabs v) i j cnt B = Ok T -> T <= Bd ->
  conv_inner (fl_add rnd) (fl_mul rnd) a v i j cnt A = conv_inner Rplus Rmult a v i j cnt A.
Proof.
  intros Ia Iv. induction cnt as [|cnt IH]; intros j A B T HA HB E HT; cbn [conv_inner] in *; [reflexivity|].
  destruct (at_ub a (Z.to_nat j)) as [x| | |] eqn:Ex; try reflexivity. cbn [bind]. destruct (at_ub v (Z.to_nat (i - j))) as [y| | |] eqn:Ey; try reflexivity. cbn [bind].
  rewrite (at_abs _ _ _ Ex), (at_abs _ _ _ Ey) in E. cbn [bind] in E. pose proof (inner_mono _ _ _ _ _ _ _ E) as M. pose proof (Rabs_pos A) as PA.
  pose proof (Rmult_le_pos _ _ (Rabs_pos x) (Rabs_pos y)) as Pxy. pose proof (at_int _ _ _ Ia Ex) as Ix. pose proof (at_int _ _ _ Iv Ey) as Iy.
  unfold fl_add at 2, fl_mul at 2. rewrite (rnd_int (x * y)) by (try (now apply ii_mul); rewrite Rabs_mult; lra).
  assert (Q : Rabs (A + x * y) <= B + Rabs x * Rabs y) by (eapply Rle_trans; [apply Rabs_triang|]; rewrite Rabs_mult; lra).
  rewrite (rnd_int (A + x * y)) by (try (apply ii_add; [exact HA|now apply ii_mul]); lra).
  apply (IH (j + 1)%Z (A + x * y) (B + Rabs x * Rabs y) T); [apply ii_add; [exact HA|now apply ii_mul]|exact Q|exact E|exact HT].
Qed.
Lemma outer_exact a v cnt : ints a -> ints v -> forall i T, conv_outer 0 Rplus Rmult (map Rabs a) (map Rabs v) i cnt = Ok T -> (forall k, nth k T 0 <= Bd) ->
  conv_outer 0 (fl_add rnd) (fl_mul rnd) a v i cnt = conv_outer 0 Rplus Rmult a v i cnt.
Proof.
  intros Ia Iv. induction cnt as [|cnt IH]; intros i T E H; cbn [conv_outer] in *; [reflexivity|].
  destruct (conv_elem 0 Rplus Rmult (map Rabs a) (map Rabs v) i) as [x| | |] eqn:Ex; try discriminate E. cbn [bind] in E.
  destruct (conv_outer 0 Rplus Rmult (map Rabs a) (map Rabs v) (i + 1) cnt) as [r| | |] eqn:Er; try discriminate E. injection E as <-.
  rewrite (IH (i + 1)%Z r Er) by (intros k; exact (H (S k))). f_equal. unfold conv_elem in *. rewrite !map_length in Ex.
  refine (inner_exact a v i _ Ia Iv _ 0 0 x ii_0 _ Ex (H 0%nat)). rewrite Rabs_R0. lra.
Qed.
Lemma convolve_exact a v : a <> [] -> v <> [] -> ints a -> ints v -> (forall k, conv_coef (map Rabs a) (map Rabs v) k <= Bd) -> convolve 0 (fl_add rnd) (fl_mul rnd) a v = Ok (cpr a v).
Proof.
  intros Ha Hv Ia Iv H. rewrite <- (convolve_spec Rth a v (or_introl Ha)). unfold convolve, direct_convolve.
  assert (La : (1 <= length a)%nat) by (destruct a; [contradiction|cbn; lia]). assert (Lv : (1 <= length v)%nat) by (destruct v; [contradiction|cbn; lia]).
  destruct (Nat.eqb_spec (length a + length v) 0); [lia|].
  assert (G : forall a v, ints a -> ints v -> (1 <= length a)%nat -> (length v <= length a)%nat -> (forall k, conv_coef (map Rabs a) (map Rabs v) k <= Bd) ->
     direct_convolve_impl 0 (fl_add rnd) (fl_mul rnd) (length a + length v - 1) a v = direct_convolve_impl 0 Rplus Rmult (length a + length v - 1) a v).
  { clear a v Ha Hv Ia Iv H La Lv n. intros a v Ia Iv La Lv H. pose proof (impl_spec (rsub := Rminus) Rth (map Rabs a) (map Rabs v)) as Y. rewrite !map_length in Y. specialize (Y Lv La).
    unfold direct_convolve_impl, require in *. rewrite !map_length in Y. destruct (_ =? _)%Z; [|discriminate Y].
    apply (outer_exact a v _ Ia Iv 0%Z _ Y). intros k. rewrite cpr_nth by (rewrite !map_length; lia). apply H. }
  destruct (Nat.leb_spec (length v) (length a)); [now apply G|]. replace (length a + length v - 1)%nat with (length v + length a - 1)%nat by lia. apply G; try assumption; try lia.
  intros k. rewrite conv_comm. apply H.
Qed.
(** sums of magnitudes *)
Definition norm1 (l : list R) : R := Rsum (map Rabs l).
Lemma norm1_pos l : 0 <= norm1 l.
Proof. unfold norm1, Rsum. induction l as [|x l IH]; cbn; [lra|]. pose proof (Rabs_pos x). lra. Qed.
Lemma norm1_nth l k : Rabs (nth k l 0) <= norm1 l.
Proof.
  revert k. induction l as [|x l IH]; intros k; [destruct k; cbn [nth]; rewrite Rabs_R0; apply norm1_pos|]. unfold norm1, Rsum in *. cbn [map fold_right].
  pose proof (norm1_pos l) as N. unfold norm1, Rsum in N. pose proof (Rabs_pos x). destruct k as [|k]; cbn [nth]; [lra|]. specialize (IH k). lra.
Qed.
Lemma norm1_partial l n : Rsum (map (fun i => Rabs (nth i l 0)) (seq 0 n)) <= norm1 l.
Proof.
  revert n. induction l as [|x l IH]; intros n.
  - apply Rle_trans with (Rsum (map (fun _ : nat => 0) (seq 0 n))); [apply Rsum_mono; intros [|i]; cbn [nth]; rewrite Rabs_R0; lra|].
    replace (Rsum (map (fun _ : nat => 0) (seq 0 n))) with 0; [apply norm1_pos|]. generalize (seq 0 n). intros l. unfold Rsum. induction l; cbn [map fold_right]; [reflexivity|lra].
  - destruct n as [|n]; [apply norm1_pos|]. cbn [seq map]. rewrite <- seq_shift, map_map. unfold norm1, Rsum in *. cbn [map fold_right nth]. specialize (IH n). lra.
Qed.
Lemma conv_norm a v k : conv_coef (map Rabs a) (map Rabs v) k <= norm1 a * norm1 v.
Proof.
  unfold conv_coef. apply Rle_trans with (norm1 v * Rsum (map (fun i => Rabs (nth i a 0)) (seq 0 (S k)))).
  - rewrite <- Rsum_scal. apply Rsum_mono. intros i. rewrite !map_abs_nth. rewrite Rmult_comm. apply Rmult_le_compat_r; [apply Rabs_pos|apply norm1_nth].
  - rewrite Rmult_comm. apply Rmult_le_compat_r; [apply norm1_pos|apply norm1_partial].
Qed.
Lemma Rsum_peval l : Rsum l = peval 1 l.
Proof. unfold Rsum. induction l as [|x l IH]; cbn; [reflexivity|]. rewrite IH. lra. Qed.
Lemma list_le_sum a b : length a = length b -> (forall k, nth k a 0 <= nth k b 0) -> Rsum a <= Rsum b.
Proof.
  revert b. induction a as [|x a IH]; intros [|y b] L H; try discriminate; [lra|]. unfold Rsum in *. cbn [fold_right]. pose proof (H 0%nat) as H0. cbn in H0.
  specialize (IH b ltac:(cbn in L; lia) (fun k => H (S k))). lra.
Qed.
Lemma conv_abs a v k : Rabs (conv_coef a v k) <= conv_coef (map Rabs a) (map Rabs v) k.
Proof.
  unfold conv_coef. generalize (seq 0 (S k)). intros l. unfold Rsum. induction l as [|i l IH]; cbn [map fold_right]; [rewrite Rabs_R0; lra|].
  eapply Rle_trans; [apply Rabs_triang|]. rewrite Rabs_mult, <- !map_abs_nth. lra.
Qed.
Lemma norm1_cpr a v : a <> [] -> v <> [] -> norm1 (cpr a v) <= norm1 a * norm1 v.
Proof.
  intros Ha Hv. assert (La : (1 <= length a)%nat) by (destruct a; [contradiction|cbn; lia]). assert (Lv : (1 <= length v)%nat) by (destruct v; [contradiction|cbn; lia]).
  apply Rle_trans with (Rsum (cpr (map Rabs a) (map Rabs v))).
  - unfold norm1. apply list_le_sum; [rewrite map_length, !cpr_length, !map_length; reflexivity|]. intros k. rewrite map_abs_nth, !cpr_nth by (rewrite ?map_length; lia). apply conv_abs.
  - rewrite !Rsum_peval. rewrite <- !rpolyval_peval. unfold rpolyval. rewrite (eval_cprod Rth); [|left; destruct a; [contradiction|discriminate]].
    fold (rpolyval 1 (map Rabs a)). fold (rpolyval 1 (map Rabs v)). rewrite !rpolyval_peval, <- !Rsum_peval. apply Rle_refl.
Qed.
Lemma conv_int a v k : ints a -> ints v -> isint (conv_coef a v k).
Proof. intros Ia Iv. unfold conv_coef. generalize (seq 0 (S k)). intros l. unfold Rsum. induction l as [|i l IH]; cbn [map fold_right]; [apply ii_0|]. apply ii_add; [apply ii_mul; now apply ints_nth|exact IH]. Qed.
Lemma ints_intro l : (forall k, isint (nth k l 0)) -> ints l.
Proof. intros H. apply Forall_forall. intros x Hx. apply (In_nth _ _ 0) in Hx. destruct Hx as (n & _ & <-). apply H. Qed.
Lemma ints_cpr a v : a <> [] -> ints a -> ints v -> ints (cpr a v).
Proof. intros Ha Ia Iv. apply ints_intro. intros k. rewrite cpr_nth by (left; destruct a; [contradiction|cbn; lia]). now apply conv_int. Qed.
Lemma polymul_exact a v : a <> [] -> v <> [] -> ints a -> ints v -> norm1 a * norm1 v <= Bd -> r_polymul rnd a v = Ok (cpr a v).
Proof. intros Ha Hv Ia Iv H. apply convolve_exact; try assumption. intros k. eapply Rle_trans; [apply conv_norm|exact H]. Qed.

Section PowE.
Variables (P : list R) (N : nat).
Hypothesis HP : P <> [].
Hypothesis IP : ints P.
Hypothesis HN : norm1 P ^ N <= Bd.
Lemma ints_pp i : ints (rpp P i).
Proof. induction i as [|i IH]; cbn [ppow]; [apply Forall_cons; [apply ii_1|apply Forall_nil]|]. now apply ints_cpr. Qed.
Lemma pp_ne i : rpp P i <> [].
Proof. now apply ppow_ne. Qed.
Lemma norm1_pp i : norm1 (rpp P i) <= norm1 P ^ i.
Proof.
  induction i as [|i IH]; cbn [ppow pow]; [unfold norm1, Rsum; cbn; rewrite Rabs_R1; lra|].
  eapply Rle_trans; [apply norm1_cpr; [exact HP|apply pp_ne]|]. apply Rmult_le_compat_l; [apply norm1_pos|exact IH].
Qed.
Lemma norm1_int l : ints l -> norm1 l = 0 \/ 1 <= norm1 l.
Proof.
  intros H. assert (I : isint (norm1 l)). { unfold norm1, Rsum. induction H as [|x l Hx Hl IH]; cbn; [apply ii_0|]. apply ii_add; [|exact IH]. destruct Hx as [z ->]. exists (Z.abs z). now rewrite abs_IZR. }
  destruct I as [z E]. pose proof (norm1_pos l) as P0. rewrite E in *. apply le_IZR in P0. destruct (Z.eq_dec z 0) as [->|]; [now left|right; apply IZR_le; lia].
Qed.
Lemma pow_bound i : (i <= N)%nat -> norm1 P ^ i <= Bd.
Proof.
  intros Hi. destruct (norm1_int P IP) as [E|E].
  - rewrite E. destruct i; cbn [pow]; [exact HB1|]. rewrite Rmult_0_l. lra.
  - eapply Rle_trans; [apply Rle_pow; [exact E|exact Hi]|exact HN].
Qed.
Lemma pp_mul i j : (i + j <= N)%nat -> polymul 0 (fl_add rnd) (fl_mul rnd) (rpp P i) (rpp P j) = Ok (rpp P (i + j)).
Proof.
  intros H. rewrite (ppow_add Rth) by exact HP. apply polymul_exact; [apply pp_ne|apply pp_ne|apply ints_pp|apply ints_pp|].
  eapply Rle_trans; [apply Rmult_le_compat; [apply norm1_pos|apply norm1_pos|apply norm1_pp|apply norm1_pp]|]. rewrite <- Rfunctions.pow_add. now apply pow_bound.
Qed.
Lemma loop_exact fuel : forall n i j, (n <= fuel)%nat -> (1 <= n)%nat -> (1 <= i)%nat -> (i * n + j = N)%nat ->
  exists a b, polypow_loop 0 (fl_add rnd) (fl_mul rnd) fuel n (rpp P i) (rpp P j) = Ok (rpp P a, rpp P b) /\ (a + b = N)%nat.
Proof.
  induction fuel as [|f IH]; intros n i j Hf Hn Hi HN'; [lia|]. cbn [polypow_loop]. destruct (Nat.ltb_spec 1 n) as [L|L]; [|exists i, j; split; [reflexivity|nia]].
  assert (D2 : (n / 2 <= f /\ 1 <= n / 2)%nat). { split; [apply Nat.div_le_upper_bound; lia|apply Nat.div_le_lower_bound; lia]. }
  assert (Ex := pp_mul i i ltac:(nia)). destruct (mod2_cases n) as [M|M]; rewrite M; cbn [Nat.eqb].
  - cbn [bind]. rewrite Ex. cbn [bind]. apply IH; try lia. pose proof (half_even n M) as E2. nia.
  - rewrite (pp_mul i j) by nia. cbn [bind]. rewrite Ex. cbn [bind]. apply IH; try lia. pose proof (half_odd n M) as E2. nia.
Qed.
Lemma polypow_exact : r_polypow rnd P N = Ok (rpp P N).
Proof.
  unfold r_polypow, polypow. destruct (Nat.eqb_spec N 0) as [E|E0]; [now rewrite E|]. destruct (Nat.eqb_spec N 1) as [E|E1]; [rewrite E; now rewrite (ppow_1 Rth)|].
  destruct (Nat.eqb_spec (length P) 0) as [E|E2]; [apply length_zero_iff_nil in E; contradiction|].
  destruct (loop_exact N N 1 0 ltac:(lia) ltac:(lia) ltac:(lia) ltac:(lia)) as (a & b & E & Hab). rewrite (ppow_1 Rth) in E. cbn [ppow] in E. rewrite E. cbn [bind]. rewrite pp_mul by lia. now rewrite Hab.
Qed.
Lemma array_exact fuel : forall n i, (n <= fuel)%nat -> (i * n <= N)%nat -> polypow_array 0 1 (fl_add rnd) (fl_mul rnd) fuel n (rpp P i) = Ok (rpp P (i * n)).
Proof.
  induction fuel as [|f IH]; intros n i Hf HN'; cbn [polypow_array].
  - replace n with 0%nat by lia. rewrite Nat.mul_0_r. reflexivity.
  - destruct (Nat.eqb_spec n 0) as [->|N0]; [rewrite Nat.mul_0_r; reflexivity|]. destruct (Nat.eqb_spec n 1) as [->|N1]; [now rewrite Nat.mul_1_r|].
    rewrite pp_mul by nia. cbn [bind]. destruct (mod2_cases n) as [M|M]; rewrite M; cbn [Nat.eqb].
    + pose proof (half_even n M) as E2. rewrite IH by nia. f_equal. f_equal. nia.
    + pose proof (half_odd n M) as E2. replace ((n - 1) / 2)%nat with (n / 2)%nat by (rewrite E2 at 2; replace (S (n / 2 + n / 2) - 1)%nat with (n / 2 * 2)%nat by lia; now rewrite Nat.div_mul by lia).
      rewrite IH by nia. cbn [bind]. rewrite pp_mul by nia. f_equal. f_equal. nia.
Qed.
Lemma polypow_array_exact : r_polypow_array rnd P N = Ok (rpp P N).
Proof. unfold r_polypow_array. pose proof (array_exact N N 1 ltac:(lia) ltac:(lia)) as E. rewrite (ppow_1 Rth), Nat.mul_1_l in E. exact E. Qed.
End PowE.

(** ** polyfromroots *)
Lemma norm1_cons x l : norm1 (x :: l) = Rabs x + norm1 l. Proof. reflexivity. Qed.
Lemma step_norm r x y : x <> [] -> fr_step Rminus Rmult r x y -> norm1 y <= norm1 x * (1 + Rabs r).
Proof.
  intros Hx (L & H). apply Rle_trans with (Rsum (map (fun k => Rabs (nth k (0 :: x) 0) + Rabs r * Rabs (nth k x 0)) (seq 0 (S (length x))))).
  - unfold norm1. apply list_le_sum; [rewrite !map_length, seq_length; exact L|]. intros k. rewrite map_abs_nth.
    destruct (Nat.lt_ge_cases k (S (length x))) as [Lk|Lk].
    + rewrite nth_mapseq by exact Lk. rewrite H. destruct (Nat.ltb_spec k (length x)) as [Lx|Lx].
      * unfold Rminus. eapply Rle_trans; [apply Rabs_triang|]. rewrite Rabs_Ropp, Rabs_mult. lra.
      * pose proof (Rmult_le_pos _ _ (Rabs_pos r) (Rabs_pos (nth k x 0))). lra.
    + rewrite (nth_overflow y) by lia. rewrite nth_overflow by (rewrite map_length, seq_length; exact Lk). rewrite Rabs_R0. lra.
  - assert (A : forall (f h : nat -> R) l, Rsum (map (fun k => f k + h k) l) = Rsum (map f l) + Rsum (map h l)) by (intros f h l; unfold Rsum; induction l as [|i l IH]; cbn [map fold_right]; [ring|]; rewrite IH; ring).
    rewrite A, Rsum_scal. pose proof (norm1_partial (0 :: x) (S (length x))) as N1. pose proof (norm1_partial x (S (length x))) as N2.
    rewrite norm1_cons, Rabs_R0 in N1. pose proof (Rmult_le_compat_l _ _ _ (Rabs_pos r) N2). lra.
Qed.
Lemma step_int r x y : isint r -> ints x -> fr_step Rminus Rmult r x y -> ints y.
Proof.
  intros Ir Ix (L & H). assert (I0 : ints (0 :: x)) by (apply Forall_cons; [apply ii_0|exact Ix]). apply ints_intro. intros k. rewrite H.
  destruct (k <? length x)%nat; [apply ii_sub; [now apply ints_nth|apply ii_mul; [now apply ints_nth|exact Ir]]|now apply ints_nth].
Qed.
Lemma step_exact r x y Y : x <> [] -> isint r -> ints x -> norm1 x * (1 + Rabs r) <= Bd -> fr_step (fl_sub rnd) (fl_mul rnd) r x y -> fr_step Rminus Rmult r x Y -> y = Y.
Proof.
  intros Hx Ir Ix HB (L & H) SY. pose proof (step_norm _ _ _ Hx SY) as NY. pose proof (step_int _ _ _ Ir Ix SY) as IY. destruct SY as (LY & HY). apply nth_ext with (d := 0) (d' := 0); [lia|]. intros k Hk.
  rewrite H. pose proof (ints_nth Y k IY) as IYk. pose proof (norm1_nth Y k) as Nk. rewrite HY in *. destruct (k <? length x)%nat; [|reflexivity]. unfold fl_sub, fl_mul.
  rewrite (rnd_int (nth k x 0 * r)); [apply rnd_int; [exact IYk|lra]|apply ii_mul; [now apply ints_nth|exact Ir]|].
  rewrite Rabs_mult. pose proof (norm1_nth x k) as Nx. pose proof (norm1_pos x). pose proof (Rmult_le_compat_r _ _ _ (Rabs_pos r) Nx). lra.
Qed.
Lemma fr_exact roots : forall x, x <> [] -> ints x -> ints roots -> norm1 x * fold_right Rmult 1 (map (fun r => 1 + Rabs r) roots) <= Bd ->
  fromroots_loop 0 (fl_sub rnd) (fl_mul rnd) Ropp roots x = fromroots_loop 0 Rminus Rmult Ropp roots x.
Proof.
  induction roots as [|r rs IH]; intros x Hx Ix Ir HB; [reflexivity|]. inversion Ir as [|r' rs' Ir1 Ir2]; subst r' rs'. cbn [fromroots_loop]. cbn [map fold_right] in HB.
  set (K := fold_right Rmult 1 (map (fun r => 1 + Rabs r) rs)) in *. assert (HK : 1 <= K).
  { unfold K. clear. induction rs as [|r rs IH]; cbn [map fold_right]; [lra|]. pose proof (Rabs_pos r). nra. }
  pose proof (norm1_pos x) as Nx. pose proof (Rabs_pos r) as Pr. assert (N2 : 0 <= norm1 x * (1 + Rabs r)) by (apply Rmult_le_pos; lra).
  destruct (step_ok (fl_sub rnd) (fl_mul rnd) r x Hx) as (y & E1 & S1). destruct (step_ok Rminus Rmult r x Hx) as (Y & E2 & S2). rewrite E1, E2. cbn [bind].
  assert (y = Y). { apply (step_exact r x y Y Hx Ir1 Ix); [nra|exact S1|exact S2]. } subst y. apply IH; [exact (fr_ne _ _ _ _ _ S2)|exact (step_int _ _ _ Ir1 Ix S2)|exact Ir2|].
  fold K. pose proof (step_norm _ _ _ Hx S2) as NY. eapply Rle_trans; [apply Rmult_le_compat_r; [lra|exact NY]|]. lra.
Qed.
End Exact.
