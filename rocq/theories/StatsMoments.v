(** Mean, covariance, variance: proofs about Stats.v *)
From Coq Require Import ZArith Field Permutation.
From Verif Require Import Base Functional FunctionalProofs Spec Numeric NumericProofs NumericFacts BaseFl FlFacts Stats.
Open Scope nat_scope.

(** *** Textbook formulas over a field with a conjugation *)
Section Field.
Context (K : Type) (k0 k1 : K) (kadd kmul ksub : K -> K -> K) (kopp : K -> K) (kdiv : K -> K -> K) (kinv : K -> K)
        (conj : K -> K) (ofnat : nat -> K).
Hypothesis Fth : field_theory k0 k1 kadd kmul ksub kopp kdiv kinv eq.
Add Field KF : Fth.
Hypothesis conj_add : forall x y, conj (kadd x y) = kadd (conj x) (conj y).
Hypothesis conj_mul : forall x y, conj (kmul x y) = kmul (conj x) (conj y).
Hypothesis conj_nat : forall n, conj (ofnat n) = ofnat n.
Hypothesis ofnat_0 : ofnat 0 = k0.
Hypothesis ofnat_1 : ofnat 1 = k1.
Hypothesis ofnat_add : forall m n, ofnat (m + n) = kadd (ofnat m) (ofnat n).
Hypothesis ofnat_nz : forall n, n <> 0 -> ofnat n <> k0.
Notation "a + b" := (kadd a b). Notation "a * b" := (kmul a b). Notation "a - b" := (ksub a b). Notation "a / b" := (kdiv a b).
Notation ksum := (bigop kadd k0).

Definition kmean (x : list K) : K := ksum x / ofnat (length x).
(** sum of (x_i - mean x) * conj (y_i - mean y) *)
Definition kcodev (l : list (K * K)) : K :=
  ksum (map (fun p => (fst p - kmean (map fst l)) * conj (snd p - kmean (map snd l))) l).

Lemma conj_0 : conj k0 = k0. Proof. rewrite <- ofnat_0. apply conj_nat. Qed.
Lemma conj_opp x : conj (kopp x) = kopp (conj x).
Proof.
  assert (H : conj (kopp x) + conj x = k0) by (rewrite <- conj_add, <- conj_0; f_equal; ring).
  replace (conj (kopp x)) with (conj (kopp x) + conj x - conj x) by ring. rewrite H. ring.
Qed.
Lemma conj_sub x y : conj (x - y) = conj x - conj y.
Proof. replace (x - y) with (x + kopp y) by ring. rewrite conj_add, conj_opp. ring. Qed.
Lemma conj_div_nat x n : n <> 0%nat -> conj (x / ofnat n) = conj x / ofnat n.
Proof.
  intros Hn. assert (H := ofnat_nz n Hn).
  assert (E : conj (x / ofnat n) * ofnat n = conj x).
  { rewrite <- (conj_nat n) at 2. rewrite <- conj_mul. f_equal. field. exact H. }
  rewrite <- E. field. exact H.
Qed.
Lemma ksum_app a b : ksum (a ++ b) = ksum a + ksum b.
Proof. apply bigop_app; intros; ring. Qed.
Lemma ksum_codev (m1 m2 : K) l :
  ksum (map (fun p => (fst p - m1) * conj (snd p - m2)) l) =
  ksum (map (fun p => fst p * conj (snd p)) l) - m1 * conj (ksum (map snd l)) - conj m2 * ksum (map fst l)
    + ofnat (length l) * (m1 * conj m2).
Proof.
  induction l as [|[u v] l IH]; simpl.
  - rewrite ofnat_0, conj_0. ring.
  - rewrite IH, conj_sub, conj_add. replace (S (length l)) with (1 + length l)%nat by lia. rewrite ofnat_add, ofnat_1. ring.
Qed.
(** the one-pass form *)
Lemma kcodev_closed l : l <> [] ->
  kcodev l = ksum (map (fun p => fst p * conj (snd p)) l) - ksum (map fst l) * conj (ksum (map snd l)) / ofnat (length l).
Proof.
  intros Hl. assert (Hn : length l <> 0%nat) by (destruct l; simpl; congruence).
  unfold kcodev. rewrite ksum_codev. unfold kmean. rewrite !map_length, conj_div_nat by exact Hn.
  field. now apply ofnat_nz.
Qed.

Lemma cov_combine_spec l1 l2 : l1 <> [] -> l2 <> [] ->
  cov_combine k1 kadd ksub kmul kdiv conj ofnat
    (kmean (map fst l1), kmean (map snd l1), kcodev l1, length l1)
    (kmean (map fst l2), kmean (map snd l2), kcodev l2, length l2) =
  (kmean (map fst (l1 ++ l2)), kmean (map snd (l1 ++ l2)), kcodev (l1 ++ l2), length (l1 ++ l2)).
Proof.
  intros H1 H2. assert (N1 : length l1 <> 0%nat) by (destruct l1; simpl; congruence).
  assert (N2 : length l2 <> 0%nat) by (destruct l2; simpl; congruence).
  assert (N12 : (length l1 + length l2)%nat <> 0%nat) by lia.
  assert (E1 := ofnat_nz _ N1). assert (E2 := ofnat_nz _ N2). assert (E12 := ofnat_nz _ N12). rewrite ofnat_add in E12.
  unfold cov_combine. rewrite !kcodev_closed by (auto; destruct l1; simpl; congruence).
  unfold kmean. rewrite !map_app, !ksum_app, !app_length, !map_length, !ofnat_add, conj_sub, !conj_div_nat, !conj_add by assumption.
  apply f_equal2; [apply f_equal2; [apply f_equal2|]|reflexivity].
  - field. auto.
  - field. auto.
  - field. auto.
Qed.

Lemma fold_codev (p : K -> bool) m1 m2 l : forall r c,
  fold_left (fun st xy => if p (fst xy) && p (snd xy) then (fst st + (fst xy - m1) * conj (snd xy - m2), S (snd st)) else st)
    l (r, c) =
  (r + ksum (map (fun q => (fst q - m1) * conj (snd q - m2)) (filter (fun q => p (fst q) && p (snd q)) l)),
   (c + length (filter (fun q => p (fst q) && p (snd q)) l))%nat).
Proof.
  induction l as [|[u v] l IH]; intros r c; simpl; [f_equal; [ring|lia]|].
  destruct (p u && p v); simpl; rewrite IH; f_equal; [ring|lia].
Qed.

Lemma mean_all integral nan x : x <> [] -> mean k0 nan kadd kdiv ofnat integral x = kmean x.
Proof.
  intros Hx. unfold mean, mean_filter. destruct (Nat.eqb_spec (length x) 0) as [E|_]; [destruct x; simpl in E; congruence|].
  unfold sum_filter. rewrite filter_reduce_associative_spec by (intros; ring). rewrite filter_all. unfold kmean.
  f_equal. apply fold_left_bigop; intros; ring.
Qed.

Lemma filter_all2 {A} (l : list (A * A)) : filter (fun q => f_all (fst q) && f_all (snd q)) l = l.
Proof. induction l as [|q l IH]; [reflexivity|]. cbn [filter]. unfold f_all at 1 2. cbn [andb]. f_equal. exact IH. Qed.

Lemma covariance_spec nan inf (ofint : Z -> K) ddof x y : length x = length y -> x <> [] ->
  covariance k0 k1 nan inf kadd ksub kmul kdiv conj ofnat ofint false ddof x y =
  Ok (if (Z.of_nat (length x) - ddof <=? 0)%Z then inf else kcodev (combine x y) / ofint (Z.of_nat (length x) - ddof)%Z).
Proof.
  intros Hl Hx. unfold covariance, covariance_filter, require.
  rewrite (proj2 (Nat.eqb_eq _ _) Hl). destruct (Nat.eqb_spec (length x) 0) as [E|_]; [destruct x; simpl in E; congruence|].
  unfold pairwise_accumulate2, require. rewrite (proj2 (Nat.eqb_eq _ _) Hl). cbn [bind].
  assert (H : forall l : list (K * K), l <> [] ->
    pairwise_accumulate 64 (cov_block k0 nan kadd ksub kmul kdiv conj ofnat false f_all) (cov_combine k1 kadd ksub kmul kdiv conj ofnat) l =
    (kmean (map fst l), kmean (map snd l), kcodev l, length l)).
  { intros l. apply (pairwise_ind 64 _ _ (fun l r => l <> [] -> r = (kmean (map fst l), kmean (map snd l), kcodev l, length l))); [lia| |].
    - clear l. intros l _ Hl'. unfold cov_block.
      assert (A1 : map fst l <> []) by (destruct l; simpl; congruence). assert (A2 : map snd l <> []) by (destruct l; simpl; congruence).
      pose proof (mean_all false nan (map fst l) A1) as M1. pose proof (mean_all false nan (map snd l) A2) as M2.
      unfold mean in M1, M2. rewrite M1, M2, fold_codev, filter_all2. unfold kcodev. f_equal. f_equal. ring.
    - clear l. intros a b ra rb HB [B1 B2] Ha Hb _.
      rewrite Ha by (destruct a; simpl in *; [lia|congruence]). rewrite Hb by (destruct b; simpl in *; [lia|congruence]).
      apply cov_combine_spec; [destruct a|destruct b]; simpl in *; congruence || lia. }
  assert (Hc : combine x y <> []) by (destruct x, y; simpl in *; congruence).
  rewrite H by exact Hc. rewrite combine_length, <- Hl, Nat.min_id. unfold omap.
  destruct (Z.leb_spec (Z.of_nat (length x) - ddof) 0); reflexivity.
Qed.
End Field.
