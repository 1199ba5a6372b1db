(** Facts about the constants. *)
From Coq Require Import ZArith QArith Qreals Reals.
From Flocq Require Import Core Relative.
From Verif Require Import Base Arith Quantity UnitsTable PiBound Constants.
From Coq Require Import Lra Psatz Lia.
Open Scope nat_scope.
Set Implicit Arguments.

(** ** Euler's number *)
Fixpoint zfact (n : nat) : Z := match n with 0 => 1%Z | S m => (Z.of_nat n * zfact m)%Z end.
Lemma zfact_eq n : zfact n = Z.of_nat (fact n).
Proof. induction n as [|n IH]; [reflexivity|]. cbn [zfact]. rewrite IH. change (fact (S n)) with (S n * fact n). now rewrite Nat2Z.inj_mul. Qed.
Fixpoint esum (n : nat) : Q := match n with 0 => 1%Q | S m => Qred (esum m + / inject_Z (zfact (S m)))%Q end.
Lemma esum_R n : Q2R (esum n) = sum_f_R0 (fun i => / INR (fact i) * 1 ^ i)%R n.
Proof.
  induction n as [|n IH]; [unfold Q2R; simpl; field|]. cbn [esum sum_f_R0]. rewrite (Qeq_eqR _ _ (Qred_correct _)), Q2R_plus, IH. f_equal.
  rewrite zfact_eq, pow1, Rmult_1_r, Q2R_inv; [f_equal; rewrite INR_IZR_INZ; unfold Q2R, inject_Z; cbn [Qnum Qden]; rewrite Rinv_1; ring|].
  unfold Qeq, inject_Z. cbn [Qnum Qden]. pose proof (fact_neq_0 (S n)). lia.
Qed.
Lemma e_sums : infinite_sum (fun i => / INR (fact i) * 1 ^ i)%R (exp 1).
Proof. unfold exp. destruct (exist_exp 1) as [l H]. exact H. Qed.
Definition vseq (n : nat) : R := (sum_f_R0 (fun i => / INR (fact i) * 1 ^ i) n + / (INR n * INR (fact n)))%R.
Lemma vseq_dec n : 1 <= n -> (vseq (S n) <= vseq n)%R.
Proof.
  intros H. unfold vseq. cbn [sum_f_R0]. rewrite pow1, Rmult_1_r. change (fact (S n)) with (S n * fact n). rewrite mult_INR, S_INR.
  assert (0 < INR n)%R by (apply lt_0_INR; lia). assert (0 < INR (fact n))%R by (apply lt_0_INR, lt_O_fact).
  set (N := INR n) in *. set (F := INR (fact n)) in *. apply Rminus_le.
  replace (_ - _)%R with (- / (N * ((N + 1) * ((N + 1) * F))))%R by (field; lra).
  apply Ropp_le_cancel. rewrite Ropp_0, Ropp_involutive. left. apply Rinv_0_lt_compat. repeat apply Rmult_lt_0_compat; lra.
Qed.
Lemma vseq_le n k : 1 <= n -> (vseq (n + k) <= vseq n)%R.
Proof. intros H. induction k as [|k IH]; [rewrite Nat.add_0_r; lra|]. rewrite Nat.add_succ_r. eapply Rle_trans; [apply vseq_dec; lia|exact IH]. Qed.
Lemma sum_mono n k : (sum_f_R0 (fun i => / INR (fact i) * 1 ^ i) n <= sum_f_R0 (fun i => / INR (fact i) * 1 ^ i) (n + k))%R.
Proof.
  induction k as [|k IH]; [rewrite Nat.add_0_r; lra|]. rewrite Nat.add_succ_r. cbn [sum_f_R0]. rewrite pow1, Rmult_1_r.
  assert (0 < / INR (fact (S (n + k))))%R by (apply Rinv_0_lt_compat, lt_0_INR, lt_O_fact). lra.
Qed.
Lemma e_bounds n : 1 <= n -> (Q2R (esum n) <= exp 1 <= vseq n)%R.
Proof.
  intros H. rewrite esum_R. split.
  - destruct (Rle_or_lt (sum_f_R0 (fun i => / INR (fact i) * 1 ^ i)%R n) (exp 1)) as [G|G]; [exact G|exfalso].
    destruct (e_sums (Rlt_Rminus _ _ G)) as [N HN]. specialize (HN (n + N) ltac:(lia)). pose proof (sum_mono n N) as M.
    unfold R_dist in HN. apply Rabs_def2 in HN. lra.
  - destruct (Rle_or_lt (exp 1) (vseq n)) as [G|G]; [exact G|exfalso].
    destruct (e_sums (Rlt_Rminus _ _ G)) as [N HN]. specialize (HN (n + N) ltac:(lia)). pose proof (vseq_le N H) as M.
    unfold vseq in M at 1. assert (0 < / (INR (n + N) * INR (fact (n + N))))%R.
    { apply Rinv_0_lt_compat, Rmult_lt_0_compat; apply lt_0_INR; [lia|apply lt_O_fact]. }
    unfold R_dist in HN. apply Rabs_def2 in HN. lra.
Qed.
Definition e_q : Q := 27182818284590452353 # 10000000000000000000.
Lemma vseq_Q n : 1 <= n -> vseq n = Q2R (esum n + / inject_Z (Z.of_nat n * zfact n)).
Proof.
  intros H. unfold vseq. rewrite <- esum_R, Q2R_plus. f_equal. rewrite zfact_eq, Q2R_inv.
  - f_equal. rewrite <- mult_INR, INR_IZR_INZ, Nat2Z.inj_mul. unfold Q2R, inject_Z. cbn [Qnum Qden]. rewrite Rinv_1. ring.
  - unfold Qeq, inject_Z. cbn [Qnum Qden]. pose proof (lt_O_fact n). nia.
Qed.
Lemma e_in n (p q : Q) : 1 <= n -> Qle_bool p (esum n) = true -> Qle_bool (esum n + / inject_Z (Z.of_nat n * zfact n)) q = true -> (Q2R p <= exp 1 <= Q2R q)%R.
Proof.
  intros H P U. apply Qle_bool_iff, Qle_Rle in P. apply Qle_bool_iff, Qle_Rle in U. rewrite <- vseq_Q in U by exact H. pose proof (e_bounds H). lra.
Qed.
Lemma e_q_bounds : (Q2R e_q <= exp 1 <= Q2R (e_q + (1 # 10000000000000000000)))%R.
Proof. apply (@e_in 22); [lia|vm_compute; reflexivity|vm_compute; reflexivity]. Qed.

(** ** Rounding to nearest *)
Lemma rnd_is emin prec (x : R) (ex e n : Z) : (bpow radix2 (ex - 1) <= x < bpow radix2 ex)%R -> FLT_exp emin prec ex = e ->
  (Rabs (x * bpow radix2 (- e) - IZR n) < / 2)%R -> rnd_ieee emin prec x = (IZR n * bpow radix2 e)%R.
Proof.
  intros B F H. unfold rnd_ieee, round, F2R, scaled_mantissa, cexp. cbn [Fnum Fexp]. rewrite (mag_unique_pos radix2 x ex B), F.
  now rewrite (Znearest_imp _ _ n H).
Qed.
Lemma rnd_small emin prec (x : R) : (0 < prec)%Z -> (0 < x < bpow radix2 (emin - 1))%R -> rnd_ieee emin prec x = 0%R.
Proof.
  intros Hp H. unfold rnd_ieee, round, F2R, scaled_mantissa, cexp. cbn [Fnum Fexp].
  assert (M : (mag radix2 x <= emin - 1)%Z) by (apply mag_le_bpow; [lra|rewrite Rabs_pos_eq; lra]).
  replace (FLT_exp emin prec (mag radix2 x)) with emin by (unfold FLT_exp; lia).
  rewrite (Znearest_imp _ _ 0); [simpl; ring|]. rewrite Rminus_0_r, Rabs_pos_eq by (apply Rmult_le_pos; [lra|apply bpow_ge_0]).
  apply Rlt_le_trans with (bpow radix2 (emin - 1) * bpow radix2 (- emin))%R; [apply Rmult_lt_compat_r; [apply bpow_gt_0|lra]|].
  rewrite <- bpow_plus. replace (emin - 1 + - emin)%Z with (-1)%Z by ring. simpl. lra.
Qed.
(** relative error of the formats *)
Definition accurate (rnd : R -> R) (u tiny : R) : Prop := forall x, (tiny <= x)%R -> ((1 - u) * x <= rnd x <= (1 + u) * x)%R.
Lemma rnd_accurate emin prec : (0 < prec)%Z -> accurate (rnd_ieee emin prec) (bpow radix2 (- prec)) (bpow radix2 (emin + prec - 1)).
Proof.
  intros Hp x Hx. assert (P : Prec_gt_0 prec) by exact Hp. pose proof (bpow_gt_0 radix2 (emin + prec - 1)) as B0.
  pose proof (relative_error_N_FLT radix2 emin prec Hp (fun z => negb (Z.even z)) x) as E. rewrite (Rabs_pos_eq x) in E by lra. specialize (E Hx).
  replace (/ 2 * bpow radix2 (- prec + 1))%R with (bpow radix2 (- prec)) in E.
  - unfold rnd_ieee. apply Rabs_le_inv in E. lra.
  - rewrite bpow_plus. change (bpow radix2 1) with 2%R. field.
Qed.

(** ** pi and e *)
Ltac q2r := unfold Q2R; cbn [Qnum Qden Qplus pi_q e_q Pos.mul Pos.add Z.add Z.mul Z.pow_pos].
Lemma pi_range : (21053343141 / 6701487259 <= PI <= 21053343141 / 6701487259 + 3 / 10000000000000000000000)%R.
Proof. pose proof pi_q_lower as L. pose proof pi_q_upper as U. unfold Q2R, pi_q in *. cbn [Qnum Qden] in *. split; lra. Qed.
Lemma e_range : (27182818284590452353 / 10000000000000000000 <= exp 1 <= 27182818284590452354 / 10000000000000000000)%R.
Proof.
  destruct e_q_bounds as [L U]. rewrite Q2R_plus in U. unfold Q2R, e_q in *. cbn [Qnum Qden] in *. split; lra.
Qed.
Ltac bp := match goal with |- context [bpow radix2 ?e] => let v := eval vm_compute in (2 ^ Z.abs e)%Z in
   (replace (bpow radix2 e) with (IZR v) by (vm_compute; reflexivity)) || (replace (bpow radix2 e) with (/ IZR v)%R by (vm_compute; reflexivity)) end.
Ltac rnd_by ex e n := rewrite (@rnd_is _ _ _ ex e n); [|split; cbn [Z.sub Z.add Z.opp Z.pos_sub]; repeat bp; try lra|reflexivity|cbn [Z.opp]; repeat bp; apply Rabs_def1; lra].
Definition pi64 : R := (7074237752028440 * / 2251799813685248)%R.
Lemma rnd64_pi x : (Rabs (x - PI) <= 1 / 10000000000000000000)%R -> rnd64 x = (7074237752028440 * bpow radix2 (-51))%R.
Proof.
  intros H. apply Rabs_le_inv in H. pose proof pi_range. unfold rnd64. rnd_by 2%Z (-51)%Z 7074237752028440%Z. reflexivity.
Qed.
Lemma rnd64_e x : (Rabs (x - exp 1) <= 1 / 1000000000000000000)%R -> rnd64 x = (6121026514868073 * bpow radix2 (-51))%R.
Proof.
  intros H. apply Rabs_le_inv in H. pose proof e_range. unfold rnd64. rnd_by 2%Z (-51)%Z 6121026514868073%Z. reflexivity.
Qed.
Lemma rnd32_pi x : (Rabs (x - PI) <= 1 / 1000000000000000)%R -> rnd32 x = (13176795 * bpow radix2 (-22))%R.
Proof.
  intros H. apply Rabs_le_inv in H. pose proof pi_range. unfold rnd32. rnd_by 2%Z (-22)%Z 13176795%Z. reflexivity.
Qed.
Lemma rnd32_e x : (Rabs (x - exp 1) <= 1 / 1000000000000000)%R -> rnd32 x = (11401300 * bpow radix2 (-22))%R.
Proof.
  intros H. apply Rabs_le_inv in H. pose proof e_range. unfold rnd32. rnd_by 2%Z (-22)%Z 11401300%Z. reflexivity.
Qed.
Lemma rnd80_pi : rnd80 PI = (14488038916154245685 * bpow radix2 (-62))%R.
Proof. pose proof pi_range. unfold rnd80. rnd_by 2%Z (-62)%Z 14488038916154245685%Z. reflexivity. Qed.
Lemma rnd80_pi64 : rnd80 (7074237752028440 * bpow radix2 (-51)) = (14488038916154245120 * bpow radix2 (-62))%R.
Proof. unfold rnd80. repeat bp. rnd_by 2%Z (-62)%Z 14488038916154245120%Z. repeat bp. lra. Qed.

(** ** Propagation of the rounding errors *)
Section Close.
Variables (rnd : R -> R) (u tiny : R).
Hypothesis (Hu : (/ 2 ^ 53 <= u <= / 2 ^ 24)%R) (Ht : (0 < tiny)%R) (A : accurate rnd u tiny).
Definition close (n : nat) (x X : R) : Prop := (0 < X /\ (1 - u) ^ n * X <= x /\ x * (1 - u) ^ n <= X)%R.
Lemma u_small : (0 < u <= / 1024)%R.
Proof. destruct Hu as [H1 H2]. assert (0 < / 2 ^ 53)%R by (apply Rinv_0_lt_compat, pow_lt; lra). split; [lra|]. eapply Rle_trans; [exact H2|]. apply Rinv_le_contravar; [lra|]. replace 1024%R with (2 ^ 10)%R by ring. apply Rle_pow; [lra|lia]. Qed.
Lemma pw n : (0 < (1 - u) ^ n)%R.
Proof. pose proof u_small. apply pow_lt. lra. Qed.
Lemma pw_lo n : (1 - INR n * u <= (1 - u) ^ n)%R.
Proof.
  pose proof u_small. induction n as [|n IH]; [simpl; lra|]. rewrite S_INR. cbn [pow]. pose proof (pos_INR n).
  destruct (Rle_or_lt 0 (1 - INR n * u)) as [P|P]; [nra|]. pose proof (pw n). assert (0 < (1 - u) * (1 - u) ^ n)%R by (apply Rmult_lt_0_compat; lra). nra.
Qed.
Lemma pw_le n m : n <= m -> ((1 - u) ^ m <= (1 - u) ^ n)%R.
Proof.
  intros H. pose proof u_small. replace m with (n + (m - n)) by lia. rewrite pow_add. pose proof (pw n). pose proof (pw (m - n)).
  assert ((1 - u) ^ (m - n) <= 1)%R by (apply Rle_trans with (1 ^ (m - n))%R; [apply pow_incr; lra|rewrite pow1; lra]). nra.
Qed.
Lemma close_pos n x X : close n x X -> (0 < x)%R.
Proof. intros (P & L & _). pose proof (pw n). nra. Qed.
Lemma close_half n x X : n <= 60 -> close n x X -> (X / 2 <= x)%R.
Proof.
  intros H (P & L & _). pose proof (pw_lo n) as Q. pose proof u_small. assert (INR n <= 60)%R by (replace 60%R with (INR 60) by (simpl; ring); now apply le_INR). pose proof (pos_INR n).
  assert (/ 2 <= (1 - u) ^ n)%R by nra. nra.
Qed.
Lemma close_rnd n x X : n <= 60 -> close n x X -> (2 * tiny <= X)%R -> close (S n) (rnd x) X.
Proof.
  intros H C T. pose proof (close_half H C) as Hf. destruct C as (P & L & U). pose proof u_small. destruct (@A x ltac:(lra)) as [A1 A2]. pose proof (pw n). split; [exact P|]. cbn [pow]. split.
  - apply Rle_trans with ((1 - u) * x)%R; [rewrite Rmult_assoc; apply Rmult_le_compat_l; lra|exact A1].
  - apply Rle_trans with ((1 + u) * x * ((1 - u) * (1 - u) ^ n))%R; [apply Rmult_le_compat_r; [nra|exact A2]|].
    replace ((1 + u) * x * ((1 - u) * (1 - u) ^ n))%R with ((1 - u * u) * (x * (1 - u) ^ n))%R by ring. assert (0 < x * (1 - u) ^ n)%R by (apply Rmult_lt_0_compat; lra). pose proof (Rmult_lt_0_compat u u ltac:(lra) ltac:(lra)). set (t := (x * (1 - u) ^ n)%R) in *. nra.
Qed.
Lemma close_weaken n m x X : n <= m -> close n x X -> close m x X.
Proof.
  intros H C. pose proof (close_pos C) as Px. destruct C as (P & L & U). pose proof (pw_le H). split; [exact P|]. pose proof (pw m). split; nra.
Qed.
Lemma close_mul n m x y X Y : close n x X -> close m y Y -> close (n + m) (x * y) (X * Y).
Proof.
  intros C D. pose proof (close_pos C) as Px. pose proof (close_pos D) as Py. destruct C as (P & L & U), D as (P' & L' & U'). pose proof (pw n). pose proof (pw m). split; [nra|]. rewrite pow_add. split.
  - replace ((1 - u) ^ n * (1 - u) ^ m * (X * Y))%R with (((1 - u) ^ n * X) * ((1 - u) ^ m * Y))%R by ring. apply Rmult_le_compat; nra.
  - replace (x * y * ((1 - u) ^ n * (1 - u) ^ m))%R with ((x * (1 - u) ^ n) * (y * (1 - u) ^ m))%R by ring. apply Rmult_le_compat; nra.
Qed.
Lemma close_inv n x X : close n x X -> close n (/ x) (/ X).
Proof.
  intros C. pose proof (close_pos C) as Px. destruct C as (P & L & U). pose proof (pw n). split; [now apply Rinv_0_lt_compat|]. split.
  - apply Rmult_le_reg_l with (x * X)%R; [now apply Rmult_lt_0_compat|]. replace (x * X * ((1 - u) ^ n * / X))%R with (x * (1 - u) ^ n)%R by (field; lra).
    replace (x * X * / x)%R with X by (field; lra). exact U.
  - apply Rmult_le_reg_l with (x * X)%R; [now apply Rmult_lt_0_compat|]. replace (x * X * (/ x * (1 - u) ^ n))%R with ((1 - u) ^ n * X)%R by (field; lra).
    replace (x * X * / X)%R with x by (field; lra). exact L.
Qed.
Lemma close_exact X : (0 < X)%R -> close 0 X X.
Proof. intros P. split; [exact P|]. simpl. lra. Qed.
Lemma close_rmul n m x y X Y : n + m <= 60 -> (2 * tiny <= X * Y)%R -> close n x X -> close m y Y -> close (S (n + m)) (rmul rnd x y) (X * Y).
Proof. intros H T C D. apply close_rnd; [exact H|now apply close_mul|exact T]. Qed.
Lemma close_rdiv n m x y X Y : n + m <= 60 -> (2 * tiny <= X / Y)%R -> close n x X -> close m y Y -> close (S (n + m)) (rdiv rnd x y) (X / Y).
Proof. intros H T C D. apply close_rnd; [exact H|apply close_mul; [exact C|now apply close_inv]|exact T]. Qed.
Lemma close_lit X : (/ 2 ^ 1000 <= X)%R -> (4 * tiny <= X)%R -> close 2 (lit rnd X) X.
Proof.
  intros H T. apply close_rnd; [lia| |lra]. pose proof u_small. assert (P : (0 < X)%R) by lra.
  destruct (@rnd_accurate (-1074) 53 ltac:(lia) X) as [A1 A2].
  { eapply Rle_trans; [|exact H]. change (bpow radix2 (-1074 + 53 - 1)) with (/ IZR (2 ^ 1022))%R. rewrite pow_IZR. apply Rinv_le_contravar; [apply IZR_lt; reflexivity|apply IZR_le; vm_compute; discriminate]. }
  fold rnd64 in A1, A2. replace (bpow radix2 (- (53))) with (/ 2 ^ 53)%R in * by (change (bpow radix2 (-(53))) with (/ IZR (2 ^ 53))%R; rewrite pow_IZR; reflexivity).
  set (v := (/ 2 ^ 53)%R) in *. assert (V : (0 < v)%R) by (apply Rinv_0_lt_compat, pow_lt; lra). split; [exact P|]. rewrite pow_1. split.
  - eapply Rle_trans; [|exact A1]. nra.
  - apply Rle_trans with ((1 + v) * X * (1 - u))%R; [apply Rmult_le_compat_r; [lra|exact A2]|]. assert ((1 + v) * (1 - u) <= 1)%R by nra. nra.
Qed.
Lemma close_abs n x X : n <= 20 -> close n x X -> (Rabs (x - X) <= 40 * u * X)%R.
Proof.
  intros H C. pose proof (@close_weaken n 20 x X H C) as D. destruct D as (P & L & U). pose proof (pw_lo 20) as Q. replace (INR 20) with 20%R in Q by (simpl; ring). pose proof u_small. apply Rabs_le. split.
  - nra.
  - assert (0 < x)%R by (eapply close_pos; exact C). assert (x * (1 - 20 * u) <= X)%R by nra. assert ((1 + 40 * u) * (1 - 20 * u) >= 1)%R by nra. nra.
Qed.
End Close.
