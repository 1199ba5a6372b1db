(** Finite sums over a commutative ring and the Cauchy product of sequences. *)
From Coq Require Import ZArith Ring.
From Verif Require Import Base Spec.
Open Scope nat_scope.

Section Sums.
Context {T : Type} {rO rI : T} {radd rmul rsub : T -> T -> T} {ropp : T -> T}.
Hypothesis Rth : ring_theory rO rI radd rmul rsub ropp eq.
Add Ring TRS : Rth.
Notation "a [+] b" := (radd a b) (at level 50, left associativity).
Notation "a [*] b" := (rmul a b) (at level 40, left associativity).
Notation sum := (nsum rO radd).

Lemma sum_ext f g n : (forall k, k < n -> f k = g k) -> sum f n = sum g n.
Proof. induction n as [|n IH]; intros H; simpl; [reflexivity|]. rewrite IH, H; auto. Qed.
Lemma sum_zero f n : (forall k, k < n -> f k = rO) -> sum f n = rO.
Proof. induction n as [|n IH]; intros H; simpl; [reflexivity|]. rewrite IH, H; auto. ring. Qed.
Lemma sum_add f g n : sum (fun k => f k [+] g k) n = sum f n [+] sum g n.
Proof. induction n as [|n IH]; simpl; [ring|]. rewrite IH. ring. Qed.
Lemma sum_scale_l c f n : sum (fun k => c [*] f k) n = c [*] sum f n.
Proof. induction n as [|n IH]; simpl; [ring|]. rewrite IH. ring. Qed.
Lemma sum_scale_r c f n : sum (fun k => f k [*] c) n = sum f n [*] c.
Proof. induction n as [|n IH]; simpl; [ring|]. rewrite IH. ring. Qed.
Lemma sum_opp f n : sum (fun k => ropp (f k)) n = ropp (sum f n).
Proof. induction n as [|n IH]; simpl; [ring|]. rewrite IH. ring. Qed.
Lemma sum_split f m n : sum f (m + n) = sum f m [+] sum (fun k => f (m + k)) n.
Proof.
  induction n as [|n IH]; simpl; [rewrite Nat.add_0_r; ring|].
  rewrite Nat.add_succ_r. simpl. rewrite IH. ring.
Qed.
Lemma sum_first f n : sum f (S n) = f 0 [+] sum (fun k => f (S k)) n.
Proof. change (S n) with (1 + n). rewrite (sum_split f 1 n). simpl. ring. Qed.
Lemma sum_rev f n : sum f n = sum (fun k => f (n - 1 - k)) n.
Proof.
  revert f. induction n as [|n IH]; intros f; [reflexivity|].
  rewrite (sum_first (fun k => f (S n - 1 - k))). simpl sum. rewrite IH.
  replace (S n - 1 - 0) with n by lia.
  rewrite (sum_ext (fun k => f (S n - 1 - S k)) (fun k => f (n - 1 - k))); [ring|]. intros k Hk. f_equal. lia.
Qed.
Lemma sum_window f lo cnt n : lo + cnt <= n -> (forall k, k < lo -> f k = rO) -> (forall k, lo + cnt <= k < n -> f k = rO) ->
  sum f n = sum (fun k => f (lo + k)) cnt.
Proof.
  intros H H1 H2. replace n with (lo + (cnt + (n - lo - cnt))) by lia. rewrite sum_split, (sum_zero f lo) by exact H1.
  rewrite sum_split, (sum_zero (fun k => f (lo + (cnt + k)))); [ring|]. intros k Hk. apply H2. lia.
Qed.
Lemma sum_extend f m n : m <= n -> (forall k, m <= k < n -> f k = rO) -> sum f n = sum f m.
Proof. intros H H1. rewrite (sum_window f 0 m n); auto. intros; lia. Qed.
(** exchange of the order of summation over a rectangle *)
Lemma sum_swap f m n : sum (fun i => sum (fun j => f i j) n) m = sum (fun j => sum (fun i => f i j) m) n.
Proof.
  induction m as [|m IH]; simpl; [now rewrite sum_zero|]. rewrite IH, <- sum_add. apply sum_ext. reflexivity.
Qed.
(** and over a triangle i + j <= n *)
Lemma sum_triangle f n : sum (fun i => sum (fun j => f j (i - j)) (S i)) n = sum (fun j => sum (fun l => f j l) (n - j)) n.
Proof.
  induction n as [|n IH]; [reflexivity|].
  change (sum (fun i => sum (fun j => f j (i - j)) (S i)) n [+] sum (fun j => f j (n - j)) (S n) =
          sum (fun j => sum (fun l => f j l) (S n - j)) n [+] sum (fun l => f n l) (S n - n)).
  rewrite IH. replace (S n - n) with 1 by lia. simpl (sum _ 1). simpl sum.
  rewrite (sum_ext (fun j => sum (fun l => f j l) (S n - j)) (fun j => sum (fun l => f j l) (n - j) [+] f j (n - j))).
  - rewrite sum_add. replace (n - n) with 0 by lia. ring.
  - intros k Hk. replace (S n - k) with (S (n - k)) by lia. reflexivity.
Qed.

(** Cauchy product of two sequences *)
Definition cauchy (f g : nat -> T) (k : nat) : T := sum (fun i => f i [*] g (k - i)) (S k).
Lemma cauchy_comm f g k : cauchy f g k = cauchy g f k.
Proof.
  unfold cauchy. rewrite sum_rev. apply sum_ext. intros i Hi. replace (S k - 1 - i) with (k - i) by lia.
  replace (k - (k - i)) with i by lia. ring.
Qed.
Lemma cauchy_ext f f' g g' k : (forall i, i <= k -> f i = f' i) -> (forall i, i <= k -> g i = g' i) -> cauchy f g k = cauchy f' g' k.
Proof. intros H1 H2. unfold cauchy. apply sum_ext. intros i Hi. rewrite H1, H2 by lia. reflexivity. Qed.
Lemma cauchy_assoc f g h k : cauchy (cauchy f g) h k = cauchy f (cauchy g h) k.
Proof.
  unfold cauchy.
  transitivity (sum (fun i => sum (fun j => (f j [*] g (i - j)) [*] h (k - (j + (i - j)))) (S i)) (S k)).
  { apply sum_ext. intros i Hi. rewrite <- sum_scale_r. apply sum_ext. intros j Hj. do 2 f_equal. lia. }
  rewrite (sum_triangle (fun j l => (f j [*] g l) [*] h (k - (j + l))) (S k)).
  apply sum_ext. intros j Hj. rewrite <- sum_scale_l. replace (S k - j) with (S (k - j)) by lia. apply sum_ext. intros l Hl.
  replace (k - (j + l)) with (k - j - l) by lia. ring.
Qed.
Lemma cauchy_add_l f g h k : cauchy (fun i => f i [+] g i) h k = cauchy f h k [+] cauchy g h k.
Proof. unfold cauchy. rewrite <- sum_add. apply sum_ext. intros; ring. Qed.
Lemma cauchy_scale_l c f h k : cauchy (fun i => c [*] f i) h k = c [*] cauchy f h k.
Proof. unfold cauchy. rewrite <- sum_scale_l. apply sum_ext. intros; ring. Qed.

(** coefficients of a list *)
Definition coef (P : list T) (k : nat) : T := nth k P rO.
Lemma coef_out P k : length P <= k -> coef P k = rO.
Proof. intros H. now apply nth_overflow. Qed.
Lemma coef_list P n (f : nat -> T) : P = map f (seq 0 n) -> forall k, k < n -> coef P k = f k.
Proof.
  intros -> k Hk. unfold coef. apply nth_error_nth. rewrite nth_error_map.
  rewrite nth_error_nth' with (d := 0) by (rewrite seq_length; exact Hk). now rewrite seq_nth.
Qed.
Lemma list_ext P Q : length P = length Q -> (forall k, k < length P -> coef P k = coef Q k) -> P = Q.
Proof.
  unfold coef. revert Q. induction P as [|x P IH]; intros [|y Q] H H0; simpl in *; try lia; [reflexivity|].
  f_equal; [apply (H0 0); lia|]. apply IH; [lia|]. intros k Hk. apply (H0 (S k)). lia.
Qed.
(** value of a coefficient sequence of length n at x *)
Notation pow := (rpow rI rmul).
Definition evalf (f : nat -> T) (n : nat) (x : T) : T := sum (fun i => f i [*] pow x i) n.
Lemma pow_add x m n : pow x (m + n) = pow x m [*] pow x n.
Proof. induction m as [|m IH]; simpl; [ring|]. rewrite IH. ring. Qed.
Lemma eval_cauchy f g x m n : (forall k, m <= k -> f k = rO) -> (forall k, n <= k -> g k = rO) -> 1 <= m + n ->
  evalf (cauchy f g) (m + n - 1) x = evalf f m x [*] evalf g n x.
Proof.
  intros Hf Hg Hmn. unfold evalf, cauchy.
  set (N := m + n - 1).
  transitivity (sum (fun i => sum (fun j => (f j [*] pow x j) [*] (g (i - j) [*] pow x (i - j))) (S i)) N).
  { apply sum_ext. intros i Hi. rewrite <- sum_scale_r. apply sum_ext. intros j Hj.
    replace (pow x i) with (pow x j [*] pow x (i - j)) by (rewrite <- pow_add; f_equal; lia). ring. }
  rewrite (sum_triangle (fun j l => (f j [*] pow x j) [*] (g l [*] pow x l)) N).
  rewrite <- sum_scale_r.
  transitivity (sum (fun j => sum (fun l => (f j [*] pow x j) [*] (g l [*] pow x l)) n) m).
  - destruct (Nat.le_gt_cases m N) as [L|L].
    + rewrite (sum_extend _ m N L).
      * apply sum_ext. intros j Hj. apply sum_extend; [lia|]. intros l Hl. rewrite (Hg l) by lia. ring.
      * intros j Hj. apply sum_zero. intros l Hl. rewrite (Hf j) by lia. ring.
    + (* m > N, so n = 0 *)
      assert (n = 0) by lia. subst n. replace m with (S N) by lia. simpl.
      rewrite (sum_zero (fun j => rO)) by reflexivity.
      rewrite sum_zero; [ring|]. intros j Hj. apply sum_zero. intros l Hl. rewrite (Hg l) by lia. ring.
  - apply sum_ext. intros j Hj. now rewrite sum_scale_l.
Qed.
End Sums.
