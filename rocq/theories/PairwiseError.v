(** Rounding error of the pairwise reduction (functional.hpp:284-371) used by sum (numeric.hpp:29-52). *)
From Coq Require Import Reals Lra Psatz.
From Verif Require Import Base Functional FunctionalProofs.
Open Scope R_scope.

Definition Rsum (l : list R) : R := fold_right Rplus 0 l.
Definition Rsum_abs (l : list R) : R := fold_right (fun x s => Rabs x + s) 0 l.

Lemma Rsum_app a b : Rsum (a ++ b) = Rsum a + Rsum b.
Proof. unfold Rsum. induction a as [|x a IH]; simpl; [lra|]. rewrite IH. lra. Qed.
Lemma Rsum_abs_app a b : Rsum_abs (a ++ b) = Rsum_abs a + Rsum_abs b.
Proof. unfold Rsum_abs. induction a as [|x a IH]; simpl; [lra|]. rewrite IH. lra. Qed.
Lemma Rsum_abs_nonneg l : 0 <= Rsum_abs l.
Proof. induction l as [|x l IH]; simpl; [lra|]. pose proof (Rabs_pos x). fold (Rsum_abs l). lra. Qed.
Lemma Rsum_le_abs l : Rabs (Rsum l) <= Rsum_abs l.
Proof. induction l as [|x l IH]; simpl; [rewrite Rabs_R0; lra|]. fold (Rsum l) (Rsum_abs l). eapply Rle_trans; [apply Rabs_triang|]. lra. Qed.

Section Err.
Variable u : R.
Hypothesis Hu : 0 <= u.
Variable fmt : R -> Prop.
Variable radd : R -> R -> R.
Hypothesis fmt0 : fmt 0.
Hypothesis radd_fmt : forall x y, fmt x -> fmt y -> fmt (radd x y).
Hypothesis radd_err : forall x y, fmt x -> fmt y -> Rabs (radd x y - (x + y)) <= u * Rabs (x + y).

Let g (k : nat) : R := (1 + u) ^ k.

Lemma g_ge1 k : 1 <= g k.
Proof. unfold g. induction k as [|k IH]; simpl; [lra|]. nra. Qed.
Lemma g_S k : g (S k) = (1 + u) * g k.
Proof. reflexivity. Qed.
Lemma g_mono j k : (j <= k)%nat -> g j <= g k.
Proof. induction 1 as [|k H IH]; [lra|]. rewrite g_S. pose proof (g_ge1 k). nra. Qed.

(** one rounded addition of two approximations *)
Lemma step_err k x y X Y AX AY :
  fmt x -> fmt y -> Rabs X <= AX -> Rabs Y <= AY ->
  Rabs (x - X) <= (g k - 1) * AX -> Rabs (y - Y) <= (g k - 1) * AY ->
  Rabs (radd x y - (X + Y)) <= (g (S k) - 1) * (AX + AY).
Proof.
  intros Fx Fy HX HY Hx Hy. pose proof (radd_err x y Fx Fy) as E. rewrite g_S.
  pose proof (g_ge1 k) as G.
  assert (Hs : Rabs (x + y - (X + Y)) <= (g k - 1) * (AX + AY)).
  { replace (x + y - (X + Y)) with ((x - X) + (y - Y)) by ring.
    eapply Rle_trans; [apply Rabs_triang|]. lra. }
  assert (Hxy : Rabs (x + y) <= g k * (AX + AY)).
  { replace (x + y) with ((x + y - (X + Y)) + (X + Y)) by ring.
    eapply Rle_trans; [apply Rabs_triang|]. pose proof (Rabs_triang X Y). lra. }
  replace (radd x y - (X + Y)) with ((radd x y - (x + y)) + (x + y - (X + Y))) by ring.
  eapply Rle_trans; [apply Rabs_triang|]. nra.
Qed.

Lemma weaken j k e A : (j <= k)%nat -> 0 <= A -> e <= (g j - 1) * A -> e <= (g k - 1) * A.
Proof. intros H HA He. pose proof (g_mono j k H). nra. Qed.

Definition good (k : nat) (l : list R) (s : R) : Prop :=
  fmt s /\ Rabs (s - Rsum l) <= (g k - 1) * Rsum_abs l.

Lemma fold_good l : Forall fmt l -> forall pre s k, good k pre s ->
  good (k + length l) (pre ++ l) (fold_left radd l s).
Proof.
  induction l as [|x l IH]; intros HF pre s k Hs; simpl.
  - rewrite app_nil_r. now replace (k + 0)%nat with k by lia.
  - inversion HF as [|? ? Fx Fl]; subst. replace (pre ++ x :: l) with ((pre ++ [x]) ++ l) by (now rewrite <- app_assoc).
    replace (k + S (length l))%nat with (S k + length l)%nat by lia.
    apply IH; [exact Fl|]. destruct Hs as [Fs Es]. split; [now apply radd_fmt|].
    rewrite Rsum_app, Rsum_abs_app.
    replace (Rsum [x]) with x by (unfold Rsum; simpl; ring).
    replace (Rsum_abs [x]) with (Rabs x) by (unfold Rsum_abs; simpl; ring).
    apply step_err; auto; try lra.
    + apply Rsum_le_abs.
    + replace (x - x) with 0 by ring. rewrite Rabs_R0. pose proof (g_ge1 k). pose proof (Rabs_pos x). nra.
Qed.

Lemma pairwise_sum_error L : forall l, (length l <= 64 * 2 ^ L)%nat -> Forall fmt l ->
  good (64 + L) l (fst (filter_reduce_associative false l radd f_all 0)).
Proof.
  induction L as [|L IH]; intros l Hl HF; unfold filter_reduce_associative.
  - rewrite pairwise_unfold by (unfold PW_BLOCKSIZE; lia).
    simpl in Hl. unfold PW_BLOCKSIZE.
    rewrite (proj2 (Nat.leb_le (length l) 64)) by lia. cbn [fst snd].
    rewrite filter_reduce_spec, filter_all. simpl fst.
    pose proof (fold_good l HF [] 0 0%nat) as G0. simpl app in G0.
    destruct G0 as [Ff Ef].
    { split; [exact fmt0|]. unfold Rsum, Rsum_abs. simpl. unfold g. simpl. rewrite Rminus_0_r, Rabs_R0. lra. }
    split; [exact Ff|]. apply (weaken (0 + length l)); [lia|apply Rsum_abs_nonneg|exact Ef].
  - rewrite pairwise_unfold by (unfold PW_BLOCKSIZE; lia).
    destruct (Nat.leb_spec (length l) PW_BLOCKSIZE) as [Hle|Hgt].
    + assert (H64 : (length l <= 64 * 2 ^ L)%nat).
      { unfold PW_BLOCKSIZE in Hle. pose proof (Nat.pow_nonzero 2 L). nia. }
      specialize (IH l H64 HF). unfold filter_reduce_associative in IH.
      rewrite pairwise_unfold in IH by (unfold PW_BLOCKSIZE; lia).
      rewrite (proj2 (Nat.leb_le _ _) Hle) in IH. destruct IH as [Ff Ef]. split; [exact Ff|].
      apply (weaken (64 + L)); [lia|apply Rsum_abs_nonneg|exact Ef].
    + set (m := (length l / 2)%nat).
      assert (Hm := Nat.div_mod (length l) 2 ltac:(lia)).
      assert (Hb := Nat.mod_upper_bound (length l) 2 ltac:(lia)). fold m in Hm.
      assert (Hpow : (2 ^ S L = 2 * 2 ^ L)%nat) by (simpl; lia).
      assert (H1 : (length (firstn m l) <= 64 * 2 ^ L)%nat) by (rewrite firstn_length; nia).
      assert (H2 : (length (skipn m l) <= 64 * 2 ^ L)%nat) by (rewrite skipn_length; nia).
      assert (HFs : Forall fmt (firstn m l) /\ Forall fmt (skipn m l)).
      { rewrite <- (firstn_skipn m l) in HF. now apply Forall_app in HF. }
      destruct HFs as [HF1 HF2].
      pose proof (IH _ H1 HF1) as [F1 E1]. pose proof (IH _ H2 HF2) as [F2 E2].
      unfold filter_reduce_associative in F1, E1, F2, E2.
      destruct (pairwise_accumulate PW_BLOCKSIZE _ _ (firstn m l)) as [x1 n1].
      destruct (pairwise_accumulate PW_BLOCKSIZE _ _ (skipn m l)) as [x2 n2].
      simpl fst in *. split; [now apply radd_fmt|].
      rewrite <- (firstn_skipn m l), Rsum_app, Rsum_abs_app.
      replace (64 + S L)%nat with (S (64 + L)) by lia.
      apply step_err; auto using Rsum_le_abs.
Qed.

Lemma pairwise_sum_error_bound L l : (length l <= 64 * 2 ^ L)%nat -> Forall fmt l ->
  Rabs (fst (filter_reduce_associative false l radd f_all 0) - Rsum l)
  <= ((1 + u) ^ (64 + L) - 1) * Rsum_abs l.
Proof. intros Hl HF. apply (pairwise_sum_error L l Hl HF). Qed.
End Err.

(** Instance: IEEE binary64, round to nearest even, exponent unbounded above (no overflow). *)
From Flocq Require Import Core Plus_error Relative.
Definition b64 (x : R) : Prop := generic_format radix2 (FLT_exp (-1074) 53) x.
Definition b64_add (x y : R) : R := round radix2 (FLT_exp (-1074) 53) ZnearestE (x + y).

Lemma b64_add_fmt x y : b64_add x y = b64_add x y -> b64 (b64_add x y).
Proof. intros _. apply generic_format_round; [apply FLT_exp_valid; reflexivity|apply valid_rnd_N]. Qed.

Lemma b64_0 : b64 0.
Proof. apply generic_format_0. Qed.

Lemma b64_add_err x y : b64 x -> b64 y ->
  Rabs (b64_add x y - (x + y)) <= bpow radix2 (-53) * Rabs (x + y).
Proof.
  intros Hx Hy. unfold b64_add.
  assert (Prec_gt_0 53) by reflexivity.
  destruct (@FLT_plus_error_N_ex radix2 (-1074) 53 H (fun n => negb (Z.even n)) x y Hx Hy) as [eps [He Hr]].
  change (Znearest (fun n => negb (Z.even n))) with ZnearestE in Hr. rewrite Hr.
  replace ((x + y) * (1 + eps) - (x + y)) with (eps * (x + y)) by ring.
  rewrite Rabs_mult. apply Rmult_le_compat_r; [apply Rabs_pos|].
  eapply Rle_trans; [exact He|].
  assert (Hu : u_ro radix2 53 = bpow radix2 (-53)).
  { unfold u_ro. replace (/ 2) with (bpow radix2 (-1)) by reflexivity. rewrite <- bpow_plus. reflexivity. }
  rewrite Hu. pose proof (bpow_gt_0 radix2 (-53)) as Hp.
  apply Rmult_le_reg_r with (1 + bpow radix2 (-53)); [lra|].
  unfold Rdiv. rewrite Rmult_assoc, Rinv_l by lra. nra.
Qed.

Lemma pairwise_sum_error_b64 L l : (length l <= 64 * 2 ^ L)%nat -> Forall b64 l ->
  Rabs (fst (filter_reduce_associative false l b64_add f_all 0) - Rsum l)
  <= ((1 + bpow radix2 (-53)) ^ (64 + L) - 1) * Rsum_abs l.
Proof.
  apply pairwise_sum_error_bound with (fmt := b64).
  - left. apply bpow_gt_0.
  - exact b64_0.
  - intros x y _ _. now apply b64_add_fmt.
  - apply b64_add_err.
Qed.
