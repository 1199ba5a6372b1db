(** ct_root: integers, reals and binary64. *)
From Verif Require Import Base Arith ArithFacts.
From Coq Require Import ZArith Zpow_facts Lia List Reals.
From Coq Require Import Lra Psatz.
Open Scope nat_scope.
Set Implicit Arguments.

(** ** ct_root on an integer type: truncating division, quiet_NaN() is 0. *)
Definition ct_root_int (fuel : nat) (N x : Z) : option Z :=
  ct_root 0%Z 1%Z Z.add Z.mul Z.quot Z.eqb Z.ltb (fun z => z) 0%Z fuel N x.
Definition istep (N x c : Z) : Z := newton_step 1%Z Z.add Z.mul Z.quot (fun z => z) N x c.
Definition irnr := root_newton_raphson 1%Z Z.add Z.mul Z.quot Z.eqb (fun z => z).

Lemma istep_eq N x c : (2 <= N)%Z -> (0 <= x)%Z -> (1 <= c)%Z ->
  istep N x c = (((N - 1) * c + x / c ^ (N - 1)) / N)%Z.
Proof.
  intros HN Hx Hc. unfold istep, newton_step. fold (ipower c (N - 1)). rewrite ipower_eq by lia.
  assert (0 < c ^ (N - 1))%Z by (apply Z.pow_pos_nonneg; lia).
  rewrite (Z.quot_div_nonneg x) by lia.
  rewrite Z.quot_div_nonneg; [reflexivity| |lia].
  assert (0 <= x / c ^ (N - 1))%Z by (apply Z.div_pos; lia). nia.
Qed.

(** The tangent of t^N at c lies below the curve. *)
Lemma amgm_Z N s c : (1 <= N)%Z -> (0 <= s)%Z -> (1 <= c)%Z ->
  (c ^ (N - 1) * (N * s - (N - 1) * c) <= s ^ N)%Z.
Proof.
  intros HN Hs Hc. replace N with (Z.succ (N - 1)) by lia.
  assert (P : forall m, (0 <= m)%Z -> (c ^ m * ((m + 1) * s - m * c) <= s ^ Z.succ m)%Z).
  { apply natlike_ind.
    - rewrite Z.pow_0_r. change (Z.succ 0) with 1%Z. rewrite Z.pow_1_r. lia.
    - intros m Hm IH. rewrite (Z.pow_succ_r s (Z.succ m)) by lia. rewrite (Z.pow_succ_r c m) by lia.
      assert (0 < c ^ m)%Z by (apply Z.pow_pos_nonneg; lia).
      assert (s * (c ^ m * ((m + 1) * s - m * c)) <= s * s ^ Z.succ m)%Z by nia.
      assert (c * c ^ m * ((Z.succ m + 1) * s - Z.succ m * c) =
              s * (c ^ m * ((m + 1) * s - m * c)) - c ^ m * ((m + 1) * ((s - c) * (s - c))))%Z
        by (unfold Z.succ; ring).
      assert (0 <= c ^ m * ((m + 1) * ((s - c) * (s - c))))%Z.
      { apply Z.mul_nonneg_nonneg; [lia|]. apply Z.mul_nonneg_nonneg; [lia|]. apply Z.square_nonneg. }
      lia. }
  specialize (P (N - 1)%Z ltac:(lia)).
  replace (Z.succ (N - 1) - 1)%Z with (N - 1)%Z by lia.
  replace (Z.succ (N - 1))%Z with (N - 1 + 1)%Z at 1 by lia. exact P.
Qed.

Lemma pow_succ_big N c : (1 <= N)%Z -> (1 <= c)%Z -> (c ^ (N - 1) * (c + N) <= (c + 1) ^ N)%Z.
Proof.
  intros HN Hc. pose proof (@amgm_Z N (c + 1) c HN ltac:(lia) Hc).
  replace (N * (c + 1) - (N - 1) * c)%Z with (c + N)%Z in H by ring. exact H.
Qed.

Section IntNewton.
  Variables (N x s : Z).
  Hypothesis HN : (2 <= N)%Z.
  Hypothesis Hs : (1 <= s)%Z.
  Hypothesis Hroot : (s ^ N <= x < (s + 1) ^ N)%Z.

  Lemma pow_split c : (c ^ N = c * c ^ (N - 1))%Z.
  Proof. replace N with (Z.succ (N - 1)) at 1 by lia. rewrite Z.pow_succ_r by lia. reflexivity. Qed.

  Lemma x_pos : (1 <= x)%Z.
  Proof. assert (0 < s ^ N)%Z by (apply Z.pow_pos_nonneg; lia). lia. Qed.

  Lemma istep_ge c : (1 <= c)%Z -> (s <= istep N x c)%Z.
  Proof.
    intros Hc. pose proof x_pos. rewrite istep_eq by lia.
    assert (0 < c ^ (N - 1))%Z by (apply Z.pow_pos_nonneg; lia).
    apply Z.div_le_lower_bound; [lia|].
    assert (N * s - (N - 1) * c <= x / c ^ (N - 1))%Z; [|lia].
    apply Z.div_le_lower_bound; [lia|].
    pose proof (@amgm_Z N s c ltac:(lia) ltac:(lia) Hc). lia.
  Qed.

  Lemma istep_lt c : (s < c)%Z -> (istep N x c < c)%Z.
  Proof.
    intros Hc. pose proof x_pos. rewrite istep_eq by lia.
    assert (0 < c ^ (N - 1))%Z by (apply Z.pow_pos_nonneg; lia).
    apply Z.div_lt_upper_bound; [lia|].
    assert (x / c ^ (N - 1) < c)%Z; [|lia].
    apply Z.div_lt_upper_bound; [lia|].
    assert ((s + 1) ^ N <= c ^ N)%Z by (apply Z.pow_le_mono_l; lia).
    rewrite (pow_split c) in H1. lia.
  Qed.

  Lemma istep_root : istep N x s = s <-> (x < s ^ (N - 1) * (s + N))%Z.
  Proof.
    pose proof x_pos. rewrite istep_eq by lia.
    assert (0 < s ^ (N - 1))%Z by (apply Z.pow_pos_nonneg; lia).
    assert (Q : (s <= x / s ^ (N - 1))%Z).
    { apply Z.div_le_lower_bound; [lia|]. rewrite pow_split in Hroot. lia. }
    split.
    - intros E. assert ((N - 1) * s + x / s ^ (N - 1) < N * (s + 1))%Z.
      { rewrite <- E at 3. pose proof (Z.mul_succ_div_gt ((N - 1) * s + x / s ^ (N - 1)) N ltac:(lia)). lia. }
      assert (x / s ^ (N - 1) < s + N)%Z by lia.
      pose proof (Z.mul_succ_div_gt x (s ^ (N - 1)) ltac:(lia)). nia.
    - intros L. assert (x / s ^ (N - 1) < s + N)%Z by (apply Z.div_lt_upper_bound; lia).
      symmetry. apply Z.div_unique with (r := (x / s ^ (N - 1) - s)%Z); [left; lia|lia].
  Qed.

  Lemma irnr_none : ~ (x < s ^ (N - 1) * (s + N))%Z ->
    forall fuel c p, (s <= c)%Z -> c <> p -> irnr fuel N x c p = None.
  Proof.
    intros HX. induction fuel as [|fuel IH]; intros c p Hc Hcp; [reflexivity|].
    unfold irnr. cbn [root_newton_raphson]. apply Z.eqb_neq in Hcp. rewrite Hcp. fold irnr.
    fold (istep N x c). apply IH; [apply istep_ge; lia|].
    destruct (Z.eq_dec c s) as [->|]; [intros E; apply HX, istep_root, E|].
    pose proof (@istep_lt c ltac:(lia)). lia.
  Qed.

  Lemma irnr_some : (x < s ^ (N - 1) * (s + N))%Z ->
    forall fuel c p, (s <= c)%Z -> (c - s + 2 <= Z.of_nat fuel)%Z -> (c = p -> c = s) ->
    irnr fuel N x c p = Some s.
  Proof.
    intros HX. induction fuel as [|fuel IH]; intros c p Hc Hf Hcp; [lia|].
    unfold irnr. cbn [root_newton_raphson]. fold irnr. fold (istep N x c).
    destruct (Z.eqb_spec c p) as [E|E]; [rewrite Hcp by exact E; reflexivity|].
    destruct (Z.eq_dec c s) as [->|].
    - rewrite (proj2 istep_root HX). destruct fuel as [|fuel]; [lia|].
      unfold irnr. cbn [root_newton_raphson]. rewrite Z.eqb_refl. reflexivity.
    - pose proof (@istep_lt c ltac:(lia)). apply IH; [apply istep_ge; lia|lia|lia].
  Qed.

  Lemma root_le_x : (s <= x)%Z.
  Proof.
    assert (s ^ 1 <= s ^ N)%Z by (apply Z.pow_le_mono_r; lia). rewrite Z.pow_1_r in H. lia.
  Qed.
  
  Lemma ct_root_int_some : (x < s ^ (N - 1) * (s + N))%Z ->
    forall fuel, (x + 2 <= Z.of_nat fuel)%Z -> ct_root_int fuel N x = Some s.
  Proof.
    intros HX fuel Hf. pose proof x_pos. pose proof root_le_x. unfold ct_root_int, ct_root.
    destruct (Z.ltb_spec x 0); [lia|]. destruct (Z.eqb_spec N 1); [lia|].
    fold irnr. apply irnr_some; auto; lia.
  Qed.
  Lemma ct_root_int_none : ~ (x < s ^ (N - 1) * (s + N))%Z -> forall fuel, ct_root_int fuel N x = None.
  Proof.
    intros HX fuel. pose proof x_pos. pose proof root_le_x. unfold ct_root_int, ct_root.
    destruct (Z.ltb_spec x 0); [lia|]. destruct (Z.eqb_spec N 1); [lia|].
    fold irnr. apply irnr_none; auto; lia.
  Qed.
End IntNewton.

(** ** ct_root over the reals *)
Definition Reqb (a b : R) : bool := if Req_EM_T a b then true else false.
Definition Rltb' (a b : R) : bool := if Rlt_dec a b then true else false.
Definition ct_root_real (fuel : nat) (N : Z) (x : R) : option R :=
  ct_root 0%R 1%R Rplus Rmult Rdiv Reqb Rltb' IZR 0%R fuel N x.
Definition rstep (N : Z) (x c : R) : R := newton_step 1%R Rplus Rmult Rdiv IZR N x c.
Definition rrnr := root_newton_raphson 1%R Rplus Rmult Rdiv Reqb IZR.

Lemma rpower_pos (a : R) p : ct_power_pos 1%R Rmult a p = (a ^ Pos.to_nat p)%R.
Proof.
  induction p; cbn [ct_power_pos].
  - rewrite IHp, Pos2Nat.inj_xI. cbn [pow]. replace (2 * Pos.to_nat p)%nat with (Pos.to_nat p + Pos.to_nat p)%nat by lia.
    rewrite pow_add. ring.
  - rewrite IHp, Pos2Nat.inj_xO. replace (2 * Pos.to_nat p)%nat with (Pos.to_nat p + Pos.to_nat p)%nat by lia.
    rewrite pow_add. ring.
  - change (Pos.to_nat 1) with 1%nat. rewrite pow_1. ring.
Qed.
Lemma rpower_eq (a : R) n : (0 <= n)%Z -> ct_power 1%R Rmult a n = (a ^ Z.to_nat n)%R.
Proof. intros H. unfold ct_power. destruct n; [reflexivity|apply rpower_pos|lia]. Qed.

Lemma amgm_R n (s c : R) : (0 <= s)%R -> (0 < c)%R ->
  (c ^ n * ((INR n + 1) * s - INR n * c) <= s ^ S n)%R.
Proof.
  intros Hs Hc. induction n as [|n IH]; [cbn; lra|].
  change (s ^ S (S n))%R with (s * s ^ S n)%R. change (c ^ S n)%R with (c * c ^ n)%R. rewrite S_INR.
  assert (0 < c ^ n)%R by (apply pow_lt; exact Hc). pose proof (pos_INR n).
  assert (s * (c ^ n * ((INR n + 1) * s - INR n * c)) <= s * s ^ S n)%R by (apply Rmult_le_compat_l; assumption).
  assert (E : (c * c ^ n * ((INR n + 1 + 1) * s - (INR n + 1) * c) =
            s * (c ^ n * ((INR n + 1) * s - INR n * c)) - c ^ n * ((INR n + 1) * ((s - c) * (s - c))))%R) by ring.
  rewrite E.
  assert (0 <= c ^ n * ((INR n + 1) * ((s - c) * (s - c))))%R.
  { apply Rmult_le_pos; [lra|]. apply Rmult_le_pos; [lra|]. apply Rle_0_sqr. }
  lra.
Qed.

Lemma rstep_eq n (x c : R) : rstep (Z.of_nat (S n)) x c = ((INR n * c + x / c ^ n) / INR (S n))%R.
Proof.
  unfold rstep, newton_step. rewrite rpower_eq by lia.
  replace (Z.of_nat (S n) - 1)%Z with (Z.of_nat n) by lia. rewrite Nat2Z.id, <- !INR_IZR_INZ. reflexivity.
Qed.

Lemma rstep_ge n (r x c : R) : (0 <= r)%R -> (r ^ S n = x)%R -> (0 < c)%R ->
  (r <= rstep (Z.of_nat (S n)) x c)%R.
Proof.
  intros Hr Hx Hc. rewrite rstep_eq.
  assert (0 < INR (S n))%R by (apply lt_0_INR; lia). assert (0 < c ^ n)%R by (apply pow_lt; exact Hc).
  apply (Rmult_le_reg_r (INR (S n))); [assumption|]. unfold Rdiv at 1. rewrite Rmult_assoc, Rinv_l, Rmult_1_r by lra.
  assert ((INR n + 1) * r - INR n * c <= x / c ^ n)%R.
  { apply (Rmult_le_reg_r (c ^ n)); [assumption|]. unfold Rdiv. rewrite Rmult_assoc, Rinv_l, Rmult_1_r by lra.
    rewrite <- Hx, Rmult_comm. apply amgm_R; assumption. }
  rewrite S_INR. lra.
Qed.

Lemma rstep_contract n (r x c : R) : (0 <= r)%R -> (r ^ S n = x)%R -> (0 < c)%R -> (r <= c)%R ->
  (rstep (Z.of_nat (S n)) x c - r <= INR n / INR (S n) * (c - r))%R.
Proof.
  intros Hr Hx Hc Hrc. rewrite rstep_eq.
  assert (0 < INR (S n))%R by (apply lt_0_INR; lia). assert (0 < c ^ n)%R by (apply pow_lt; exact Hc).
  assert (Q : (x / c ^ n <= r)%R).
  { apply (Rmult_le_reg_r (c ^ n)); [assumption|]. unfold Rdiv. rewrite Rmult_assoc, Rinv_l, Rmult_1_r by lra.
    rewrite <- Hx. cbn [pow]. apply Rmult_le_compat_l; [assumption|]. apply pow_incr. split; assumption. }
  apply (Rmult_le_reg_r (INR (S n))); [assumption|].
  replace (((INR n * c + x / c ^ n) / INR (S n) - r) * INR (S n))%R
    with (INR n * c + x / c ^ n - r * INR (S n))%R by (field; split; lra).
  replace (INR n / INR (S n) * (c - r) * INR (S n))%R with (INR n * (c - r))%R by (field; lra).
  rewrite S_INR. lra.
Qed.

(** The k-th iterate of the recursion started by ct_root. *)
Fixpoint newton_iter (N : Z) (x : R) (k : nat) : R :=
  match k with O => x | S j => rstep N x (newton_iter N x j) end.

Lemma newton_iter_pos n (r x : R) k : (0 < r)%R -> (r ^ S n = x)%R -> (0 < newton_iter (Z.of_nat (S n)) x k)%R.
Proof.
  intros Hr Hx. assert (0 < x)%R by (rewrite <- Hx; apply pow_lt; exact Hr).
  induction k; cbn [newton_iter]; [assumption|].
  apply (Rlt_le_trans _ r); [assumption|]. apply rstep_ge; [lra|exact Hx|exact IHk].
Qed.

Lemma newton_converges n (r x : R) k : (0 < r)%R -> (r ^ S n = x)%R ->
  (0 <= newton_iter (Z.of_nat (S n)) x (S k) - r <=
   (INR n / INR (S n)) ^ k * (newton_iter (Z.of_nat (S n)) x 1 - r))%R.
Proof.
  intros Hr Hx. split.
  - pose proof (@rstep_ge n r x (newton_iter (Z.of_nat (S n)) x k) ltac:(lra) Hx (@newton_iter_pos n r x k Hr Hx)).
    cbn [newton_iter]. lra.
  - induction k as [|k IH]; [cbn [pow]; lra|].
    pose proof (@rstep_ge n r x (newton_iter (Z.of_nat (S n)) x k) ltac:(lra) Hx (@newton_iter_pos n r x k Hr Hx)) as G.
    pose proof (@rstep_contract n r x (newton_iter (Z.of_nat (S n)) x (S k)) ltac:(lra) Hx
                  (@newton_iter_pos n r x (S k) Hr Hx) G) as C.
    change (newton_iter (Z.of_nat (S n)) x (S (S k))) with (rstep (Z.of_nat (S n)) x (newton_iter (Z.of_nat (S n)) x (S k))).
    assert (0 <= INR n / INR (S n))%R.
    { apply Rmult_le_pos; [apply pos_INR|]. left. apply Rinv_0_lt_compat, lt_0_INR. lia. }
    cbn [pow]. rewrite Rmult_assoc.
    eapply Rle_trans; [exact C|]. apply Rmult_le_compat_l; assumption.
Qed.

(** If the recursion stops, it stops on the root. *)
Lemma rrnr_exact n (x : R) : (0 < x)%R -> forall fuel k v prev,
  (k = 0%nat /\ prev = 0%R \/ exists j, k = S j /\ prev = newton_iter (Z.of_nat (S n)) x j) ->
  (forall k, 0 < newton_iter (Z.of_nat (S n)) x k)%R ->
  rrnr fuel (Z.of_nat (S n)) x (newton_iter (Z.of_nat (S n)) x k) prev = Some v -> (v ^ S n = x)%R.
Proof.
  intros Hx fuel. induction fuel as [|fuel IH]; intros k v prev Hp Pos; [discriminate|].
  unfold rrnr. cbn [root_newton_raphson]. fold rrnr. unfold Reqb.
  destruct (Req_EM_T (newton_iter (Z.of_nat (S n)) x k) prev) as [E|E].
  - intros Hv. assert (Ev : v = prev) by congruence. clear Hv. subst v. destruct Hp as [[-> ->]|[j [-> ->]]].
    + specialize (Pos 0%nat). lra.
    + cbn [newton_iter] in E. set (c := newton_iter (Z.of_nat (S n)) x j) in *.
      assert (0 < c)%R by apply Pos. rewrite rstep_eq in E.
      assert (0 < INR (S n))%R by (apply lt_0_INR; lia). assert (0 < c ^ n)%R by (apply pow_lt; assumption).
      assert (E2 : (INR n * c + x / c ^ n = c * INR (S n))%R).
      { rewrite <- E at 3. field. split; lra. }
      rewrite S_INR in E2. assert (E3 : (x / c ^ n = c)%R) by lra.
      cbn [pow]. rewrite <- E3 at 1. field. lra.
  - intros H. apply (IH (S k) v (newton_iter (Z.of_nat (S n)) x k)); auto. right. eauto.
Qed.

(** ** ct_root on binary64 *)
From Coq Require Import Floats.
From Verif Require Import RangeFacts.
Definition ct_root_f64 (fuel : nat) (N : Z) (x : float) : option float :=
  ct_root 0%float 1%float PrimFloat.add PrimFloat.mul PrimFloat.div PrimFloat.eqb PrimFloat.ltb
          (fun z => float_of_nat (Z.to_nat z)) nan fuel N x.

Section Cycle.
  Variable T : Type.
  Variables (tone : T) (tadd tmul tdiv : T -> T -> T) (teq : T -> T -> bool) (ofZ : Z -> T).
  Variables (N : Z) (x : T).
  Let step := newton_step tone tadd tmul tdiv ofZ N x.
  Let run fuel := root_newton_raphson tone tadd tmul tdiv teq ofZ fuel N x.

  Fixpoint newton_drive (m : nat) (c p : T) : option (T * T) :=
    match m with
    | O => Some (c, p)
    | S m' => if teq c p then None else newton_drive m' (step c) c
    end.

  Lemma newton_drive_none m : forall c p c' p', newton_drive m c p = Some (c', p') ->
    (forall f, run f c' p' = None) -> forall f, run f c p = None.
  Proof.
    induction m as [|m IH]; cbn [newton_drive]; intros c p c' p' H HN f; [injection H as <- <-; apply HN|].
    destruct (teq c p) eqn:E; [discriminate|].
    destruct f as [|f]; [reflexivity|]. unfold run. cbn [root_newton_raphson]. rewrite E.
    apply (IH (step c) c c' p' H HN f).
  Qed.

  Lemma newton_cycle2 a b : step a = b -> step b = a -> teq a b = false -> teq b a = false ->
    forall f, run f a b = None /\ run f b a = None.
  Proof.
    intros H1 H2 E1 E2. induction f as [|f [IH1 IH2]]; [split; reflexivity|].
    unfold run in *. cbn [root_newton_raphson]. rewrite E1, E2. fold (step a). fold (step b).
    unfold step in *. rewrite H1, H2. split; assumption.
  Qed.
End Cycle.

Definition f64_ofZ (z : Z) : float := float_of_nat (Z.to_nat z).
Lemma f64_never (N : Z) (x : float) m a b :
  newton_drive 1%float PrimFloat.add PrimFloat.mul PrimFloat.div PrimFloat.eqb f64_ofZ N x m x 0%float = Some (a, b) ->
  newton_step 1%float PrimFloat.add PrimFloat.mul PrimFloat.div f64_ofZ N x a = b ->
  newton_step 1%float PrimFloat.add PrimFloat.mul PrimFloat.div f64_ofZ N x b = a ->
  PrimFloat.eqb a b = false -> PrimFloat.eqb b a = false -> PrimFloat.ltb x 0%float = false -> N <> 1%Z ->
  forall fuel, ct_root_f64 fuel N x = None.
Proof.
  intros H H1 H2 E1 E2 L HN fuel. unfold ct_root_f64, ct_root. rewrite L.
  destruct (Z.eqb_spec N 1); [contradiction|].
  apply (newton_drive_none _ _ _ _ _ _ _ _ _ _ _ H). intros f.
  apply (newton_cycle2 _ _ _ _ _ _ _ _ H1 H2 E1 E2).
Qed.
