(** windows.hpp over exact real numbers: every sample equals the textbook formula. *)
From Coq Require Import ZArith Reals Ring.
From Verif Require Import Base Functional FunctionalProofs Spec SumLib Windows WindowsFacts.
From Coq Require Import Lra Psatz.
Open Scope nat_scope.

(** real x^y for x >= 0 *)
Definition rpower (x y : R) : R := if Req_EM_T x 0 then (if Req_EM_T y 0 then 1 else 0)%R else Rpower x y.
Definition rtrunc (x : R) : Z := if Rle_dec 0 x then Int_part x else (- Int_part (- x))%Z.
(** exact arithmetic; [I0] stands for std::cyl_bessel_i(0, .) *)
Definition rops (I0 : R -> R) : wops R := {|
  w_of := IZR; w_num := (fun n d => IZR n / IZR d)%R;
  w_add := Rplus; w_sub := Rminus; w_mul := Rmult; w_div := Rdiv; w_opp := Ropp; w_abs := Rabs;
  w_fma := (fun a b c => a * b + c)%R;
  w_cos := cos; w_sin := sin; w_exp := exp; w_sqrt := sqrt; w_pow := rpower; w_bessel_i0 := I0; w_pi := PI;
  w_le := (fun a b => if Rle_dec a b then true else false); w_iszero := (fun x => if Req_EM_T x 0 then true else false); w_trunc := rtrunc |}.

Lemma filler_formula (w : list R) g (F : nat -> R) M : length w = M ->
  (forall j, j < M -> M - 1 <= 2 * j -> g j = F j) -> (forall i, i < M -> F (M - 1 - i) = F i) ->
  symmetric_filler w g = Ok (map F (seq 0 M)).
Proof.
  intros L G S. rewrite symmetric_filler_map, L. f_equal. apply map_ext_in. intros i Hi. apply in_seq in Hi. rewrite G by lia.
  destruct (Nat.le_gt_cases (M - 1 - i) i); [now rewrite Nat.max_l by lia|]. rewrite Nat.max_r by lia. apply S. lia.
Qed.
Lemma IZR_nat n : IZR (Z.of_nat n) = INR n.
Proof. now rewrite <- INR_IZR_INZ. Qed.
Lemma INR_pred M : 1 <= M -> INR (M - 1) = (INR M - 1)%R.
Proof. intros H. now rewrite minus_INR by exact H. Qed.
Lemma INR_mirror M i : i < M -> INR (M - 1 - i) = (INR M - 1 - INR i)%R.
Proof. intros H. rewrite minus_INR, INR_pred by lia. reflexivity. Qed.
Lemma INR_ge2 M : 2 <= M -> (2 <= INR M)%R.
Proof. intros H. apply le_INR in H. simpl in H. lra. Qed.
Lemma INR_ge1 M : 1 <= M -> (1 <= INR M)%R.
Proof. intros H. apply le_INR in H. simpl in H. lra. Qed.
Lemma INR_half M j : 1 <= M -> M - 1 <= 2 * j -> (INR M - 1 <= 2 * INR j)%R.
Proof. intros H1 H. apply le_INR in H. rewrite INR_pred, mult_INR in H by exact H1. simpl in H. lra. Qed.
Lemma INR_lt_le j M : j < M -> (INR j <= INR M - 1)%R.
Proof. intros H. assert (S j <= M) by lia. apply le_INR in H0. rewrite S_INR in H0. lra. Qed.
Lemma center_R I0 M : 1 <= M -> center (rops I0) M = ((INR M - 1) / 2)%R.
Proof.
  intros H. unfold center. cbn [rops w_sub w_of w_num]. rewrite IZR_nat. pose proof (Nat.div_mod M 2 ltac:(lia)) as D. pose proof (Nat.mod_upper_bound M 2 ltac:(lia)) as B.
  assert (E : INR M = (2 * INR (M / 2) + INR (M mod 2))%R) by (rewrite D at 1; rewrite plus_INR, mult_INR; simpl; ring).
  destruct (Nat.eqb_spec (M mod 2) 0) as [Z|Z]; rewrite E.
  - rewrite Z. simpl. lra.
  - replace (M mod 2) with 1 by lia. simpl. lra.
Qed.
Ltac unf := cbn [rops w_of w_num w_add w_sub w_mul w_div w_opp w_abs w_fma w_cos w_sin w_exp w_sqrt w_pow w_bessel_i0 w_pi w_le w_iszero w_trunc]; rewrite ?IZR_nat.

Section Formulas.
Variable (I0 : R -> R).
Notation o := (rops I0).
Lemma boxcar_R M : window o Boxcar Symmetric M = Ok (map (fun _ => 1%R) (seq 0 M)).
Proof. cbn [window]. unfold boxcar. f_equal. unf. rewrite <- (seq_length M 0) at 1. generalize (seq 0 M). intros l. induction l; simpl; [reflexivity|now f_equal]. Qed.
(** 1 - |2i/(M-1) - 1| *)
Definition bartlett_formula (M i : nat) : R := (1 - Rabs (2 * INR i / (INR M - 1) - 1))%R.
Lemma bartlett_R M : 2 <= M -> window o Bartlett Symmetric M = Ok (map (bartlett_formula M) (seq 0 M)).
Proof.
  intros H. cbn [window build_window]. unfold bartlett_filler. rewrite repeat_length. unf. rewrite INR_pred by lia. pose proof (INR_ge2 M H).
  apply filler_formula; [apply repeat_length| |].
  - intros j Hj Hh. unf. unfold bartlett_formula. pose proof (INR_half M j ltac:(lia) Hh).
    rewrite Rabs_right; [field; lra|]. apply Rle_ge. apply Rmult_le_reg_r with (INR M - 1)%R; [lra|]. field_simplify; lra.
  - intros i Hi. unfold bartlett_formula. rewrite INR_mirror by exact Hi. f_equal. rewrite <- Rabs_Ropp. f_equal. field. lra.
Qed.
Definition cosine_formula (M i : nat) : R := sin (PI * (INR i + 1 / 2) / INR M).
Lemma cosine_R M : window o Cosine Symmetric M = Ok (map (cosine_formula M) (seq 0 M)).
Proof.
  cbn [window build_window]. unfold cosine_filler. rewrite repeat_length. destruct (Nat.eqb_spec M 0) as [->|N]; [reflexivity|]. pose proof (INR_ge1 M ltac:(lia)).
  apply filler_formula; [apply repeat_length| |].
  - intros j Hj Hh. unf. unfold cosine_formula. f_equal. field. lra.
  - intros i Hi. unfold cosine_formula. rewrite INR_mirror by exact Hi.
    replace (PI * (INR M - 1 - INR i + 1 / 2) / INR M)%R with (PI - PI * (INR i + 1 / 2) / INR M)%R by (field; lra). apply sin_PI_x.
Qed.
(** with x = |2i/(M-1) - 1| *)
Definition bohman_of (x : R) : R := ((1 - x) * cos (PI * x) + sin (PI * x) / PI)%R.
Definition bohman_formula (M i : nat) : R := bohman_of (Rabs (2 * INR i / (INR M - 1) - 1)).
Lemma bohman_R M : 2 <= M -> window o Bohman Symmetric M = Ok (map (bohman_formula M) (seq 0 M)).
Proof.
  intros H. cbn [window build_window]. unfold bohman_filler. rewrite repeat_length. destruct (Nat.eqb_spec M 0) as [->|N]; [lia|]. pose proof (INR_ge2 M H). unf. rewrite INR_pred by lia.
  apply filler_formula; [apply repeat_length| |].
  - intros j Hj Hh. unf. unfold bohman_formula, bohman_of. pose proof (INR_half M j ltac:(lia) Hh).
    rewrite Rabs_right.
    + replace (INR j * (2 / (INR M - 1)))%R with (2 * INR j / (INR M - 1))%R by (field; lra). reflexivity.
    + apply Rle_ge. apply Rmult_le_reg_r with (INR M - 1)%R; [lra|]. field_simplify; lra.
  - intros i Hi. unfold bohman_formula. rewrite INR_mirror by exact Hi. f_equal. rewrite <- Rabs_Ropp. f_equal. field. lra.
Qed.
(** sum_j (-1)^j a_j cos(2 pi i j / (M-1)) *)
Definition cosine_sum_formula (a : list R) (M i : nat) : R :=
  nsum 0%R Rplus (fun j => (-1) ^ j * nth j a 0 * cos (2 * PI * INR i * INR j / (INR M - 1)))%R (length a).
Lemma cosine_terms_R (scaling : R) i a : forall j sign tmp,
  cosine_terms o scaling i j a sign tmp = (tmp + nsum 0 Rplus (fun k => - sign * (-1) ^ k * nth k a 0 * cos (scaling * (INR i * INR (j + k)))) (length a))%R.
Proof.
  induction a as [|c a IH]; intros j sign tmp; cbn [cosine_terms length].
  - cbn [nsum]. ring.
  - rewrite IH. unf.
    rewrite (sum_first (rO := 0%R) (rI := 1%R) (radd := Rplus) (rmul := Rmult) (rsub := Rminus) (ropp := Ropp)) by (constructor; intros; ring).
    cbn [nth]. rewrite Nat.add_0_r, mult_INR, pow_O.
    rewrite (sum_ext (fun k => (- (sign * -(1)) * (-1) ^ k * nth k a 0 * cos (scaling * (INR i * INR (S j + k))))%R) (fun k => (- sign * (-1) ^ S k * nth k a 0 * cos (scaling * (INR i * INR (j + S k))))%R)).
    + ring.
    + intros k _. replace (S j + k) with (j + S k) by lia. simpl pow. ring.
Qed.
Lemma cos_period_Z x k : cos (x + 2 * PI * INR k) = cos x.
Proof. rewrite <- (cos_period x k). f_equal. ring. Qed.
Lemma cosine_sum_R a M : 2 <= M -> window o (GeneralCosine a) Symmetric M = Ok (map (cosine_sum_formula a M) (seq 0 M)).
Proof.
  intros H. cbn [window build_window general_cosine]. unfold general_cosine_filler. rewrite repeat_length. pose proof (INR_ge2 M H). unf. rewrite INR_pred by lia.
  apply filler_formula; [apply repeat_length| |].
  - intros j Hj Hh. rewrite cosine_terms_R. unfold cosine_sum_formula. unf. rewrite Rplus_0_l. apply sum_ext. intros k _. rewrite Nat.add_0_l.
    replace (2 * PI / (INR M - 1) * (INR j * INR k))%R with (2 * PI * INR j * INR k / (INR M - 1))%R by (field; lra). ring.
  - intros i Hi. unfold cosine_sum_formula. apply sum_ext. intros k _. f_equal. rewrite INR_mirror by exact Hi.
    replace (2 * PI * (INR M - 1 - INR i) * INR k / (INR M - 1))%R with (- (2 * PI * INR i * INR k / (INR M - 1)) + 2 * PI * INR k)%R by (field; lra).
    rewrite cos_period_Z. apply cos_neg.
Qed.
Definition cosw (M i : nat) (j : R) : R := cos (2 * PI * INR i * j / (INR M - 1)).
Lemma general_hamming_R al M : 2 <= M -> window o (GeneralHamming al) Symmetric M =
  Ok (map (fun i => al - (1 - al) * cos (2 * PI * INR i / (INR M - 1)))%R (seq 0 M)).
Proof.
  intros H. transitivity (window o (GeneralCosine [al; (1 - al)%R]) Symmetric M); [reflexivity|]. rewrite cosine_sum_R by exact H. f_equal. apply map_ext. intros i.
  unfold cosine_sum_formula. cbn [length nsum nth pow INR]. rewrite Rmult_0_r, !Rmult_1_r. replace (0 / (INR M - 1))%R with 0%R by (unfold Rdiv; ring). rewrite cos_0. ring.
Qed.
Lemma hann_R M : 2 <= M -> window o Hann Symmetric M = Ok (map (fun i => (1 - cos (2 * PI * INR i / (INR M - 1))) / 2)%R (seq 0 M)).
Proof.
  intros H. transitivity (window o (GeneralHamming (1 / 2)%R) Symmetric M); [reflexivity|]. rewrite general_hamming_R by exact H. f_equal. apply map_ext. intros i. lra.
Qed.
Lemma hamming_R M : 2 <= M -> window o Hamming Symmetric M = Ok (map (fun i => 54 / 100 - 46 / 100 * cos (2 * PI * INR i / (INR M - 1)))%R (seq 0 M)).
Proof.
  intros H. transitivity (window o (GeneralHamming (54 / 100)%R) Symmetric M); [reflexivity|]. rewrite general_hamming_R by exact H. f_equal. apply map_ext. intros i. lra.
Qed.
Lemma blackman_R M : 2 <= M -> window o Blackman Symmetric M =
  Ok (map (fun i => 42 / 100 - 50 / 100 * cos (2 * PI * INR i / (INR M - 1)) + 8 / 100 * cos (4 * PI * INR i / (INR M - 1)))%R (seq 0 M)).
Proof.
  intros H. transitivity (window o (GeneralCosine [42 / 100; 50 / 100; 8 / 100]%R) Symmetric M); [reflexivity|]. rewrite cosine_sum_R by exact H. f_equal. apply map_ext. intros i.
  unfold cosine_sum_formula. cbn [length nsum nth pow INR]. rewrite Rmult_0_r, !Rmult_1_r. replace (0 / (INR M - 1))%R with 0%R by (unfold Rdiv; ring). rewrite cos_0.
  replace (2 * PI * INR i * (1 + 1))%R with (4 * PI * INR i)%R by ring. ring.
Qed.
Definition gaussian_formula (sigma : R) (M i : nat) : R := exp (- (INR i - (INR M - 1) / 2) ^ 2 / (2 * sigma ^ 2)).
Lemma gaussian_R sigma M : sigma <> 0%R -> window o (Gaussian sigma) Symmetric M = Ok (map (gaussian_formula sigma M) (seq 0 M)).
Proof.
  intros Hs. cbn [window build_window]. unfold gaussian_filler. rewrite repeat_length. destruct (Nat.eq_dec M 0) as [->|N]; [reflexivity|]. rewrite center_R by lia.
  apply filler_formula; [apply repeat_length| |].
  - intros j Hj _. unf. unfold gaussian_formula. f_equal. field. exact Hs.
  - intros i Hi. unfold gaussian_formula. rewrite INR_mirror by exact Hi. f_equal. field. exact Hs.
Qed.
Definition general_gaussian_formula (p sigma : R) (M i : nat) : R := exp (- (1 / 2) * rpower (Rabs (INR i - (INR M - 1) / 2) / sigma) (2 * p)).
Lemma general_gaussian_R p sigma M : (0 < sigma)%R -> window o (GeneralGaussian p sigma) Symmetric M = Ok (map (general_gaussian_formula p sigma M) (seq 0 M)).
Proof.
  intros Hs. cbn [window build_window]. unfold general_gaussian_filler. rewrite repeat_length. destruct (Nat.eq_dec M 0) as [->|N]; [reflexivity|]. rewrite center_R by lia.
  apply filler_formula; [apply repeat_length| |].
  - intros j Hj Hh. unf. unfold general_gaussian_formula. pose proof (INR_half M j ltac:(lia) Hh). rewrite Rabs_right by lra. reflexivity.
  - intros i Hi. unfold general_gaussian_formula. rewrite INR_mirror by exact Hi. do 4 f_equal. rewrite <- Rabs_Ropp. f_equal. field.
Qed.
Definition kaiser_formula (beta : R) (M i : nat) : R := (I0 (Rabs beta * sqrt (1 - (2 * INR i / (INR M - 1) - 1) ^ 2)) / I0 (Rabs beta))%R.
Lemma kaiser_R beta M : 2 <= M -> window o (Kaiser beta) Symmetric M = Ok (map (kaiser_formula beta M) (seq 0 M)).
Proof.
  intros H. cbn [window build_window]. unfold kaiser_filler, require. rewrite repeat_length. unf. destruct (Rle_dec 0 (Rabs beta)) as [_|N]; [|destruct N; apply Rabs_pos].
  rewrite INR_pred by lia. pose proof (INR_ge2 M H).
  apply filler_formula; [apply repeat_length| |].
  - intros j Hj _. unf. unfold kaiser_formula. do 4 f_equal. field. lra.
  - intros i Hi. unfold kaiser_formula. rewrite INR_mirror by exact Hi. do 4 f_equal. field. lra.
Qed.
(** scipy's definition: with n = i - (M-1)/2, 1 - 6 (|n|/(M/2))^2 + 6 (|n|/(M/2))^3 where |n| <= (M-1)/4, else 2 (1 - |n|/(M/2))^3 *)
Definition parzen_formula (M i : nat) : R :=
  let n := Rabs (INR i - (INR M - 1) / 2) in
  let q := (n / (INR M / 2))%R in
  (if Rle_dec n ((INR M - 1) / 4) then 1 - 6 * q ^ 2 + 6 * q ^ 3 else 2 * (1 - q) ^ 3)%R.
Lemma quot_nat a b : 0 < b -> Z.quot (Z.of_nat a) (Z.of_nat b) = Z.of_nat (a / b).
Proof. intros H. rewrite Z.quot_div_nonneg by lia. now rewrite Nat2Z.inj_div. Qed.
Lemma parzen_R M : window o Parzen Symmetric M = Ok (map (parzen_formula M) (seq 0 M)).
Proof.
  cbn [window build_window]. unfold parzen_filler. rewrite repeat_length. destruct (Nat.eq_dec M 0) as [->|N]; [reflexivity|]. rewrite center_R by lia. pose proof (INR_ge1 M ltac:(lia)).
  apply filler_formula; [apply repeat_length| |].
  - intros j Hj Hh. unf. pose proof (INR_half M j ltac:(lia) Hh) as HR. rewrite (Rabs_right (INR j - (INR M - 1) / 2)) by lra. unfold parzen_formula.
    rewrite (Rabs_right (INR j - (INR M - 1) / 2)) by lra. cbn zeta.
    replace (Z.of_nat M - 1)%Z with (Z.of_nat (M - 1)) by lia. replace (Z.quot (Z.of_nat (M - 1)) 2) with (Z.of_nat ((M - 1) / 2)) by (symmetry; apply (quot_nat (M - 1) 2); lia).
    replace (Z.quot (Z.of_nat M) 4) with (Z.of_nat (M / 4)) by (symmetry; apply (quot_nat M 4); lia).
    pose proof (Nat.div_mod (M - 1) 2 ltac:(lia)) as D2. pose proof (Nat.mod_upper_bound (M - 1) 2 ltac:(lia)) as B2.
    pose proof (Nat.div_mod M 4 ltac:(lia)) as D4. pose proof (Nat.mod_upper_bound M 4 ltac:(lia)) as B4.
    destruct (Z.leb_spec 0 (Z.of_nat j - Z.of_nat ((M - 1) / 2))) as [_|C]; [|lia].
    assert (C : (Z.of_nat j - Z.of_nat ((M - 1) / 2) <= Z.of_nat (M / 4))%Z <-> 4 * j + 1 <= 3 * M - 2) by lia.
    assert (CR : (INR j - (INR M - 1) / 2 <= (INR M - 1) / 4)%R <-> 4 * j + 1 <= 3 * M - 2).
    { split; intros Q.
      - apply INR_le. rewrite minus_INR, plus_INR, !mult_INR by lia. simpl. lra.
      - apply le_INR in Q. rewrite minus_INR, plus_INR, !mult_INR in Q by lia. simpl in Q. lra. }
    destruct (Z.leb_spec (Z.of_nat j - Z.of_nat ((M - 1) / 2)) (Z.of_nat (M / 4))) as [L|L], (Rle_dec (INR j - (INR M - 1) / 2) ((INR M - 1) / 4)) as [Q|Q].
    + field. lra.
    + exfalso. apply Q, CR, C, L.
    + exfalso. apply CR, C in Q. lia.
    + field. lra.
  - intros i Hi. unfold parzen_formula. rewrite INR_mirror by exact Hi.
    replace (Rabs (INR M - 1 - INR i - (INR M - 1) / 2)) with (Rabs (INR i - (INR M - 1) / 2)) by (rewrite <- Rabs_Ropp; f_equal; field). reflexivity.
Qed.
Definition rsinc (x : R) : R := if Req_EM_T x 0 then 1%R else (sin (PI * x) / (PI * x))%R.
Lemma rsinc_opp x : rsinc (- x) = rsinc x.
Proof.
  unfold rsinc. destruct (Req_EM_T x 0), (Req_EM_T (- x) 0); try reflexivity; try lra.
  replace (PI * - x)%R with (- (PI * x))%R by ring. rewrite sin_neg. pose proof PI_neq0. field. split; assumption.
Qed.
Definition lanczos_formula (M i : nat) : R := rsinc (2 * INR i / (INR M - 1) - 1).
Lemma lanczos_R M : 2 <= M -> window o Lanczos Symmetric M = Ok (map (lanczos_formula M) (seq 0 M)).
Proof.
  intros H. cbn [window build_window]. unfold lanczos_filler. rewrite repeat_length. pose proof (INR_ge2 M H).
  apply filler_formula; [apply repeat_length| |].
  - intros j Hj Hh. unfold lanczos_formula. rewrite <- rsinc_opp. unfold sinc. unf. rewrite INR_pred by lia.
    replace (- (2 * INR j / (INR M - 1) - 1))%R with (1 - INR (2 * j) / (INR M - 1))%R by (rewrite mult_INR; simpl; field; lra).
    unfold rsinc. destruct (Req_EM_T _ 0); reflexivity.
  - intros i Hi. unfold lanczos_formula. rewrite INR_mirror by exact Hi. rewrite <- rsinc_opp. f_equal. field. lra.
Qed.
End Formulas.
