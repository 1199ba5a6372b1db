(** windows.hpp over exact real numbers: Tukey, remaining cosine sums, value ranges, noise bandwidth. *)
From Coq Require Import ZArith Reals Ring.
From Verif Require Import Base Functional FunctionalProofs Spec SumLib Numeric NumericProofs Windows WindowsFacts WindowsReal.
From Coq Require Import Lra Psatz.
Open Scope nat_scope.

(** *** documented formulas of all families *)
Definition tukey_formula (alpha : R) (M i : nat) : R :=
  let u := Rabs (2 * INR i / (INR M - 1) - 1) in
  (if Rle_dec u (1 - alpha) then 1 else (1 + cos (PI * (u - 1 + alpha) / alpha)) / 2)%R.

Section Formulas.
Variable (I0 : R -> R).
Notation o := (rops I0).
Lemma Int_part_le (z : Z) x : (IZR z <= x)%R <-> (z <= Int_part x)%Z.
Proof.
  pose proof (base_Int_part x) as [B1 B2]. split; intros H.
  - apply Z.lt_succ_r. apply lt_IZR. rewrite succ_IZR. lra.
  - apply Rle_trans with (IZR (Int_part x)); [now apply IZR_le|exact B1].
Qed.
Lemma tukey_odd_R al M : 3 <= M -> M mod 2 = 1 -> (0 < al < 1)%R -> window o (Tukey al) Symmetric M = Ok (map (tukey_formula al M) (seq 0 M)).
Proof.
  intros H Hodd Ha. cbn [window]. unf. destruct (Rle_dec al 0); [lra|]. destruct (Rle_dec 1 al); [lra|]. cbn [build_window]. unfold tukey_filler. rewrite repeat_length.
  pose proof (Nat.div_mod M 2 ltac:(lia)) as D. set (m := M / 2) in *. assert (HM : M = 2 * m + 1) by lia. clear D.
  replace (Z.quot (Z.of_nat M) 2) with (Z.of_nat m) by (symmetry; apply (quot_nat M 2); lia).
  replace (Z.rem (Z.of_nat M) 2) with 1%Z by (rewrite Z.rem_mod_nonneg by lia; apply (Z.mod_unique _ _ (Z.of_nat m)); lia).
  change ((1 =? 0)%Z) with false. cbn [andb].
  assert (HR : INR M = (2 * INR m + 1)%R) by (rewrite HM, plus_INR, mult_INR; simpl; ring).
  assert (Hm : (1 <= INR m)%R) by (apply INR_ge1; lia).
  apply filler_formula; [apply repeat_length| |].
  - intros j Hj Hh. unf. replace (Z.of_nat M - 1)%Z with (Z.of_nat (2 * m)) by lia.
    replace (Z.quot (Z.of_nat (2 * m)) 2) with (Z.of_nat m) by (symmetry; etransitivity; [apply (quot_nat (2 * m) 2); lia|]; f_equal; rewrite Nat.mul_comm; apply Nat.div_mul; lia).
    unf. unfold tukey_formula, rtrunc. pose proof (INR_half M j ltac:(lia) Hh) as HH.
    destruct (Rle_dec 0 ((1 - al) * INR m)) as [P|P]; [|exfalso; apply P; apply Rmult_le_pos; lra].
    rewrite Rabs_right.
    2:{ apply Rle_ge. apply Rmult_le_reg_r with (INR M - 1)%R; [lra|]. field_simplify; lra. }
    assert (E : (Z.of_nat j - Z.of_nat m <= Int_part ((1 - al) * INR m))%Z <-> (2 * INR j / (INR M - 1) - 1 <= 1 - al)%R).
    { rewrite <- Int_part_le, minus_IZR, !IZR_nat, HR. split; intros Q.
      - apply Rmult_le_reg_r with (INR m); [lra|]. replace ((2 * INR j / (2 * INR m + 1 - 1) - 1) * INR m)%R with (INR j - INR m)%R by (field; lra). exact Q.
      - apply Rmult_le_compat_r with (r := INR m) in Q; [|lra]. replace ((2 * INR j / (2 * INR m + 1 - 1) - 1) * INR m)%R with (INR j - INR m)%R in Q by (field; lra). exact Q. }
    destruct (Z.leb_spec (Z.of_nat j - Z.of_nat m) (Int_part ((1 - al) * INR m))) as [L|L], (Rle_dec (2 * INR j / (INR M - 1) - 1) (1 - al)) as [Q|Q].
    + reflexivity.
    + exfalso. now apply Q, E.
    + exfalso. apply E in Q. lia.
    + replace (PI * (2 * INR j / (INR M - 1) - 1 - 1 + al) / al)%R with (PI * (1 - 2 / al + 2 / al * INR j / INR (2 * m)))%R; [lra|].
      rewrite mult_INR, HR. simpl. field. lra.
  - intros i Hi. unfold tukey_formula. rewrite INR_mirror by exact Hi.
    replace (Rabs (2 * (INR M - 1 - INR i) / (INR M - 1) - 1)) with (Rabs (2 * INR i / (INR M - 1) - 1)) by (rewrite <- Rabs_Ropp; f_equal; field; lra). reflexivity.
Qed.
(** even length 2 h: the plateau is where the distance to the middle, counted in samples (1 for the two middle ones, h for the ends), is at most (1 - alpha) h, or 1 *)
Definition tukey_even_formula (alpha : R) (h i : nat) : R :=
  let u := Rabs (2 * INR i / (2 * INR h - 1) - 1) in
  (if Rle_dec ((u * (2 * INR h - 1) + 1) / 2) (Rmax 1 ((1 - alpha) * INR h)) then 1 else (1 + cos (PI * (u - 1 + alpha) / alpha)) / 2)%R.
Lemma tukey_even_R al h : 1 <= h -> (0 < al < 1)%R -> window o (Tukey al) Symmetric (2 * h) = Ok (map (tukey_even_formula al h) (seq 0 (2 * h))).
Proof.
  intros H Ha. cbn [window]. unf. destruct (Rle_dec al 0); [lra|]. destruct (Rle_dec 1 al); [lra|]. cbn [build_window]. unfold tukey_filler. rewrite repeat_length.
  set (M := 2 * h). assert (HM : M = 2 * h) by reflexivity. clearbody M.
  replace (Z.quot (Z.of_nat M) 2) with (Z.of_nat h) by (symmetry; etransitivity; [apply (quot_nat M 2); lia|]; f_equal; rewrite HM, Nat.mul_comm; apply Nat.div_mul; lia).
  replace (Z.rem (Z.of_nat M) 2) with 0%Z by (rewrite Z.rem_mod_nonneg by lia; apply (Z.mod_unique _ _ (Z.of_nat h)); lia).
  change ((0 =? 0)%Z) with true. cbn [andb].
  assert (HR : INR M = (2 * INR h)%R) by (rewrite HM, mult_INR; simpl; ring).
  assert (Hh : (1 <= INR h)%R) by (apply INR_ge1; lia).
  apply filler_formula; [apply repeat_length| |].
  - intros j Hj Hhj. unf. replace (Z.of_nat M - 1)%Z with (Z.of_nat (2 * h - 1)) by lia.
    replace (Z.quot (Z.of_nat (2 * h - 1)) 2) with (Z.of_nat (h - 1)) by (symmetry; etransitivity; [apply (quot_nat (2 * h - 1) 2); lia|]; f_equal; replace (2 * h - 1) with (1 + (h - 1) * 2) by lia; rewrite Nat.div_add by lia; reflexivity).
    unf. unfold tukey_even_formula, rtrunc. assert (Jh : h <= j) by lia. assert (JR : (INR h <= INR j)%R) by (now apply le_INR).
    destruct (Rle_dec 0 ((1 - al) * INR h)) as [P|P]; [|exfalso; apply P; apply Rmult_le_pos; lra].
    assert (AB : Rabs (2 * INR j / (2 * INR h - 1) - 1) = (2 * INR j / (2 * INR h - 1) - 1)%R).
    { apply Rabs_right. apply Rle_ge. apply Rmult_le_reg_r with (2 * INR h - 1)%R; [lra|]. field_simplify; lra. }
    rewrite AB. assert (D : (((2 * INR j / (2 * INR h - 1) - 1) * (2 * INR h - 1) + 1) / 2 = INR (j - (h - 1)))%R).
    { rewrite minus_INR by lia. rewrite minus_INR by lia. simpl (INR 1). field. lra. }
    rewrite D. set (I := Int_part ((1 - al) * INR h)). set (d := j - (h - 1)).
    assert (E : (Z.of_nat j - Z.of_nat (h - 1) <= (if I =? 0 then 1 else I))%Z <-> (INR d <= Rmax 1 ((1 - al) * INR h))%R).
    { replace (Z.of_nat j - Z.of_nat (h - 1))%Z with (Z.of_nat d) by (unfold d; lia). assert (I0' : (0 <= I)%Z) by (unfold I; apply Int_part_le; exact P).
      assert (EI : (Z.of_nat d <= I)%Z <-> (INR d <= (1 - al) * INR h)%R) by (unfold I; rewrite <- Int_part_le, IZR_nat; reflexivity).
      assert (E1 : d <= 1 <-> (INR d <= 1)%R) by (split; intros Q; [apply le_INR in Q; simpl in Q; lra|apply INR_le; simpl; lra]).
      split; intros Q.
      - destruct (Z.eqb_spec I 0) as [Z0|Z0]; [apply Rle_trans with 1%R; [apply E1; lia|apply Rmax_l]|apply Rle_trans with ((1 - al) * INR h)%R; [now apply EI|apply Rmax_r]].
      - unfold Rmax in Q. destruct (Rle_dec 1 ((1 - al) * INR h)) as [L|L].
        + apply EI in Q. destruct (Z.eqb_spec I 0); lia.
        + apply E1 in Q. destruct (Z.eqb_spec I 0); lia. }
    destruct (Z.leb_spec (Z.of_nat j - Z.of_nat (h - 1)) (if I =? 0 then 1 else I)%Z) as [L|L], (Rle_dec (INR d) (Rmax 1 ((1 - al) * INR h))) as [Q|Q].
    + reflexivity.
    + exfalso. now apply Q, E.
    + exfalso. apply E in Q. lia.
    + replace (PI * (2 * INR j / (2 * INR h - 1) - 1 - 1 + al) / al)%R with (PI * (1 - 2 / al + 2 / al * INR j / INR (2 * h - 1)))%R; [lra|].
      rewrite minus_INR by lia. rewrite mult_INR. simpl. field. lra.
  - intros i Hi. unfold tukey_even_formula. rewrite INR_mirror by exact Hi. rewrite HR.
    replace (Rabs (2 * (2 * INR h - 1 - INR i) / (2 * INR h - 1) - 1)) with (Rabs (2 * INR i / (2 * INR h - 1) - 1)) by (rewrite <- Rabs_Ropp; f_equal; field; lra). reflexivity.
Qed.
(** even length: tukey(8, 0.55)[5] is not 1 although 5 <= 7 (1 - 0.55/2) *)
Lemma tukey_even_wrong : exists w, window o (Tukey (55 / 100)%R) Symmetric 8 = Ok w /\ tukey_formula (55 / 100) 8 5 = 1%R /\ (nth 5 w 0 < 1)%R.
Proof.
  cbn [window]. unf. destruct (Rle_dec (55 / 100) 0); [lra|]. destruct (Rle_dec 1 (55 / 100)); [lra|]. cbn [build_window]. unfold tukey_filler. rewrite symmetric_filler_map.
  eexists. split; [reflexivity|]. split.
  - unfold tukey_formula. replace (2 * INR 5 / (INR 8 - 1) - 1)%R with (3 / 7)%R by (simpl; field). rewrite Rabs_right by lra.
    destruct (Rle_dec (3 / 7) (1 - 55 / 100)); [reflexivity|lra].
  - rewrite repeat_length. unf. cbn [seq map nth Nat.max Nat.sub].
    replace (Z.quot (Z.of_nat 8) 2) with 4%Z by reflexivity. change ((Z.rem (Z.of_nat 8) 2 =? 0)%Z) with true. cbn [andb].
    assert (T : rtrunc ((1 - 55 / 100) * 4) = 1%Z).
    { unfold rtrunc. destruct (Rle_dec 0 ((1 - 55 / 100) * 4)) as [_|C]; [|lra].
      pose proof (base_Int_part ((1 - 55 / 100) * 4)) as [B1 B2].
      assert (1 <= Int_part ((1 - 55 / 100) * 4))%Z by (apply Int_part_le; lra).
      assert (Int_part ((1 - 55 / 100) * 4) < 2)%Z by (apply lt_IZR; lra). lia. }
    rewrite T. change ((1 =? 0)%Z) with false. cbv iota. change ((Z.of_nat 5 - Z.quot (Z.of_nat 8 - 1) 2 <=? 1)%Z) with false. cbv iota.
    change (Z.of_nat 8 - 1)%Z with 7%Z.
    rewrite IZR_nat. replace (PI * (1 - 2 / (55 / 100) + 2 / (55 / 100) * INR 5 / 7))%R with (- (3 / 77 * PI))%R by (simpl; field).
    rewrite cos_neg. assert (cos (3 / 77 * PI) < 1)%R; [|lra]. rewrite <- cos_0. pose proof PI_RGT_0. apply cos_decreasing_1; lra.
Qed.
Lemma nuttall_R M : 2 <= M -> window o Nuttall Symmetric M =
  Ok (map (fun i => 3635819 / 10000000 - 4891775 / 10000000 * cos (2 * PI * INR i / (INR M - 1)) + 1365995 / 10000000 * cos (4 * PI * INR i / (INR M - 1))
                    - 106411 / 10000000 * cos (6 * PI * INR i / (INR M - 1)))%R (seq 0 M)).
Proof.
  intros H. transitivity (window o (GeneralCosine [3635819 / 10000000; 4891775 / 10000000; 1365995 / 10000000; 106411 / 10000000]%R) Symmetric M); [reflexivity|].
  rewrite cosine_sum_R by exact H. f_equal. apply map_ext. intros i. unfold cosine_sum_formula. cbn [length nsum nth pow INR].
  rewrite Rmult_0_r, !Rmult_1_r. replace (0 / (INR M - 1))%R with 0%R by (unfold Rdiv; ring). rewrite cos_0.
  replace (2 * PI * INR i * (1 + 1))%R with (4 * PI * INR i)%R by ring. replace (2 * PI * INR i * (1 + 1 + 1))%R with (6 * PI * INR i)%R by ring. ring.
Qed.
Lemma blackmanharris_R M : 2 <= M -> window o BlackmanHarris Symmetric M =
  Ok (map (fun i => 35875 / 100000 - 48829 / 100000 * cos (2 * PI * INR i / (INR M - 1)) + 14128 / 100000 * cos (4 * PI * INR i / (INR M - 1))
                    - 1168 / 100000 * cos (6 * PI * INR i / (INR M - 1)))%R (seq 0 M)).
Proof.
  intros H. transitivity (window o (GeneralCosine [35875 / 100000; 48829 / 100000; 14128 / 100000; 1168 / 100000]%R) Symmetric M); [reflexivity|].
  rewrite cosine_sum_R by exact H. f_equal. apply map_ext. intros i. unfold cosine_sum_formula. cbn [length nsum nth pow INR].
  rewrite Rmult_0_r, !Rmult_1_r. replace (0 / (INR M - 1))%R with 0%R by (unfold Rdiv; ring). rewrite cos_0.
  replace (2 * PI * INR i * (1 + 1))%R with (4 * PI * INR i)%R by ring. replace (2 * PI * INR i * (1 + 1 + 1))%R with (6 * PI * INR i)%R by ring. ring.
Qed.
Lemma flattop_R M : 2 <= M -> window o Flattop Symmetric M =
  Ok (map (fun i => 21557895 / 100000000 - 41663158 / 100000000 * cos (2 * PI * INR i / (INR M - 1)) + 277263158 / 1000000000 * cos (4 * PI * INR i / (INR M - 1))
                    - 83578947 / 1000000000 * cos (6 * PI * INR i / (INR M - 1)) + 6947368 / 1000000000 * cos (8 * PI * INR i / (INR M - 1)))%R (seq 0 M)).
Proof.
  intros H. transitivity (window o (GeneralCosine [21557895 / 100000000; 41663158 / 100000000; 277263158 / 1000000000; 83578947 / 1000000000; 6947368 / 1000000000]%R) Symmetric M); [reflexivity|].
  rewrite cosine_sum_R by exact H. f_equal. apply map_ext. intros i. unfold cosine_sum_formula. cbn [length nsum nth pow INR].
  rewrite Rmult_0_r, !Rmult_1_r. replace (0 / (INR M - 1))%R with 0%R by (unfold Rdiv; ring). rewrite cos_0.
  replace (2 * PI * INR i * (1 + 1))%R with (4 * PI * INR i)%R by ring. replace (2 * PI * INR i * (1 + 1 + 1))%R with (6 * PI * INR i)%R by ring.
  replace (2 * PI * INR i * (1 + 1 + 1 + 1))%R with (8 * PI * INR i)%R by ring. ring.
Qed.
End Formulas.

(** the table of textbook formulas (scipy.signal.windows), M samples, sample i *)
Definition doc_formula (I0 : R -> R) (fam : family (T := R)) (M i : nat) : R :=
  let c k := cos (k * PI * INR i / (INR M - 1)) in
  (match fam with
  | Boxcar => 1
  | Bartlett => 1 - Rabs (2 * INR i / (INR M - 1) - 1)
  | Cosine => sin (PI * (INR i + 1 / 2) / INR M)
  | Bohman => let x := Rabs (2 * INR i / (INR M - 1) - 1) in (1 - x) * cos (PI * x) + sin (PI * x) / PI
  | GeneralCosine a => nsum 0 Rplus (fun j => (-1) ^ j * nth j a 0 * cos (2 * PI * INR i * INR j / (INR M - 1))) (length a)
  | GeneralHamming al => al - (1 - al) * c 2
  | Hann => (1 - c 2) / 2
  | Hamming => 54 / 100 - 46 / 100 * c 2
  | Blackman => 42 / 100 - 50 / 100 * c 2 + 8 / 100 * c 4
  | Nuttall => 3635819 / 10000000 - 4891775 / 10000000 * c 2 + 1365995 / 10000000 * c 4 - 106411 / 10000000 * c 6
  | BlackmanHarris => 35875 / 100000 - 48829 / 100000 * c 2 + 14128 / 100000 * c 4 - 1168 / 100000 * c 6
  | Flattop => 21557895 / 100000000 - 41663158 / 100000000 * c 2 + 277263158 / 1000000000 * c 4 - 83578947 / 1000000000 * c 6 + 6947368 / 1000000000 * c 8
  | Gaussian sigma => exp (- (INR i - (INR M - 1) / 2) ^ 2 / (2 * sigma ^ 2))
  | GeneralGaussian p sigma => exp (- (1 / 2) * rpower (Rabs (INR i - (INR M - 1) / 2) / sigma) (2 * p))
  | Kaiser beta => I0 (Rabs beta * sqrt (1 - (2 * INR i / (INR M - 1) - 1) ^ 2)) / I0 (Rabs beta)
  | Parzen => let n := Rabs (INR i - (INR M - 1) / 2) in let q := n / (INR M / 2) in
              if Rle_dec n ((INR M - 1) / 4) then 1 - 6 * q ^ 2 + 6 * q ^ 3 else 2 * (1 - q) ^ 3
  | Lanczos => let x := 2 * INR i / (INR M - 1) - 1 in if Req_EM_T x 0 then 1 else sin (PI * x) / (PI * x)
  | Tukey al => if Rle_dec al 0 then 1 else if Rle_dec 1 al then (1 - c 2) / 2 else
                let u := Rabs (2 * INR i / (INR M - 1) - 1) in if Rle_dec u (1 - al) then 1 else (1 + cos (PI * (u - 1 + al) / al)) / 2
  end)%R.
(** parameters for which the formula is claimed *)
Definition params_ok (fam : family (T := R)) (M : nat) : Prop :=
  match fam with
  | Gaussian sigma => sigma <> 0%R
  | GeneralGaussian p sigma => (0 < sigma)%R
  | Tukey al => (al <= 0)%R \/ (1 <= al)%R \/ M mod 2 = 1
  | _ => True
  end.
Lemma all_formulas I0 fam M : 2 <= M -> params_ok fam M -> window (rops I0) fam Symmetric M = Ok (map (doc_formula I0 fam M) (seq 0 M)).
Proof.
  intros H P. destruct fam as [| | | |a|al| | | | | | |sg|p sg|be| | |al]; cbn [params_ok] in P.
  - apply boxcar_R.
  - now apply bartlett_R.
  - apply cosine_R.
  - now apply bohman_R.
  - now apply cosine_sum_R.
  - now apply general_hamming_R.
  - now apply hann_R.
  - now apply hamming_R.
  - now apply blackman_R.
  - now apply nuttall_R.
  - now apply blackmanharris_R.
  - now apply flattop_R.
  - now apply gaussian_R.
  - now apply general_gaussian_R.
  - now apply kaiser_R.
  - apply parzen_R.
  - now apply lanczos_R.
  - destruct (Rle_dec al 0) as [L|L].
    + transitivity (Ok (map (fun _ : nat => 1%R) (seq 0 M))).
      * rewrite <- (boxcar_R I0). cbn [window]. unf. destruct (Rle_dec al 0); [reflexivity|contradiction].
      * f_equal. apply map_ext. intros i. unfold doc_formula. destruct (Rle_dec al 0); [reflexivity|contradiction].
    + destruct (Rle_dec 1 al) as [L1|L1].
      * transitivity (window (rops I0) Hann Symmetric M); [cbn [window]; unf; destruct (Rle_dec al 0); [contradiction|]; destruct (Rle_dec 1 al); [reflexivity|contradiction]|].
        rewrite hann_R by exact H. f_equal. apply map_ext. intros i. unfold doc_formula. destruct (Rle_dec al 0); [contradiction|]. destruct (Rle_dec 1 al); [reflexivity|contradiction].
      * assert (Hodd : M mod 2 = 1) by (destruct P as [P|[P|P]]; [lra|lra|exact P]).
        assert (M <> 2) by (intros ->; discriminate). rewrite tukey_odd_R; [|lia|exact Hodd|lra]. f_equal. apply map_ext. intros i. unfold doc_formula, tukey_formula.
        destruct (Rle_dec al 0); [contradiction|]. destruct (Rle_dec 1 al); [contradiction|]. reflexivity.
Qed.

(** *** values in [0, 1] *)
Definition unit_family (I0 : R -> R) (fam : family (T := R)) : Prop :=
  match fam with
  | GeneralCosine _ | Flattop => False
  | GeneralHamming al => (1 / 2 <= al <= 1)%R
  | Gaussian sigma => sigma <> 0%R
  | GeneralGaussian p sigma => (0 < sigma /\ 0 < p)%R
  | Kaiser beta => (forall x, (0 <= x)%R -> (0 < I0 x)%R) /\ (forall x y, (0 <= x <= y)%R -> (I0 x <= I0 y)%R)
  | _ => True
  end.
Lemma u_range M i : 2 <= M -> i < M -> (0 <= Rabs (2 * INR i / (INR M - 1) - 1) <= 1)%R.
Proof.
  intros H Hi. split; [apply Rabs_pos|]. pose proof (INR_ge2 M H). pose proof (INR_lt_le i M Hi). pose proof (pos_INR i).
  apply Rabs_le. split.
  - apply Rmult_le_reg_r with (INR M - 1)%R; [lra|]. field_simplify; lra.
  - apply Rmult_le_reg_r with (INR M - 1)%R; [lra|]. field_simplify; lra.
Qed.
Lemma exp_le_1 x : (x <= 0)%R -> (0 <= exp x <= 1)%R.
Proof. intros H. split; [left; apply exp_pos|]. rewrite <- exp_0. destruct H as [H|H]; [left; now apply exp_increasing|right; now rewrite H]. Qed.
Lemma sin_le_id x : (0 <= x)%R -> (sin x <= x)%R.
Proof. intros H. destruct (Req_dec x 0) as [->|N]; [rewrite sin_0; lra|]. left. apply sin_lt_x. lra. Qed.
Lemma rsinc_range x : (-1 <= x <= 1)%R -> (0 <= (if Req_EM_T x 0 then 1 else sin (PI * x) / (PI * x)) <= 1)%R.
Proof.
  assert (P : forall x, (0 < x <= 1)%R -> (0 <= sin (PI * x) / (PI * x) <= 1)%R).
  { intros y [H1 H2]. pose proof PI_RGT_0. assert (0 < PI * y)%R by (apply Rmult_lt_0_compat; lra).
    assert (0 <= sin (PI * y))%R by (apply sin_ge_0; [lra|]; rewrite <- (Rmult_1_r PI) at 2; apply Rmult_le_compat_l; lra).
    pose proof (sin_le_id (PI * y) ltac:(lra)). split; [apply Rmult_le_pos; [assumption|left; now apply Rinv_0_lt_compat]|].
    apply Rmult_le_reg_r with (PI * y)%R; [assumption|]. unfold Rdiv. rewrite Rmult_assoc, Rinv_l, Rmult_1_l by lra. lra. }
  intros H. destruct (Req_EM_T x 0) as [E|E]; [lra|]. destruct (Rle_dec 0 x) as [L|L]; [apply P; lra|].
  replace (sin (PI * x) / (PI * x))%R with (sin (PI * - x) / (PI * - x))%R; [apply P; lra|].
  replace (PI * - x)%R with (- (PI * x))%R by ring. rewrite sin_neg. pose proof PI_neq0. field. split; assumption.
Qed.
(** the Bohman profile decreases from 1 to 0 on [0, 1]; its derivative is -pi (1-x) sin(pi x) *)
Lemma bohman_deriv x : derivable_pt_lim bohman_of x (- PI * (1 - x) * sin (PI * x))%R.
Proof.
  pose proof PI_neq0. unfold bohman_of.
  replace (- PI * (1 - x) * sin (PI * x))%R with (((0 - 1) * cos (PI * x) + (1 - x) * (- sin (PI * x) * (PI * 1))) + / PI * (cos (PI * x) * (PI * 1)))%R by (field; assumption).
  apply (derivable_pt_lim_ext (plus_fct (mult_fct (minus_fct (fct_cte 1) id) (comp cos (mult_real_fct PI id))) (mult_real_fct (/ PI) (comp sin (mult_real_fct PI id))))).
  { intros y. unfold plus_fct, mult_fct, minus_fct, mult_real_fct, comp, fct_cte, id. unfold Rdiv. ring. }
  apply derivable_pt_lim_plus.
  - apply (derivable_pt_lim_mult (minus_fct (fct_cte 1) id) (comp cos (mult_real_fct PI id)) x).
    + apply derivable_pt_lim_minus; [apply derivable_pt_lim_const|apply derivable_pt_lim_id].
    + apply derivable_pt_lim_comp; [apply derivable_pt_lim_scal, derivable_pt_lim_id|apply derivable_pt_lim_cos].
  - apply derivable_pt_lim_scal. apply derivable_pt_lim_comp; [apply derivable_pt_lim_scal, derivable_pt_lim_id|apply derivable_pt_lim_sin].
Qed.
Lemma bohman_mono x y : (0 <= x)%R -> (x <= y)%R -> (y <= 1)%R -> (bohman_of y <= bohman_of x)%R.
Proof.
  intros H0 H1 H2. destruct (Req_dec x y) as [->|N]; [lra|].
  destruct (MVT_cor2 bohman_of (fun c => - PI * (1 - c) * sin (PI * c))%R x y) as (c & E & C); [lra|intros; apply bohman_deriv|].
  pose proof PI_RGT_0. assert (0 <= sin (PI * c))%R by (apply sin_ge_0; [apply Rmult_le_pos; lra|rewrite <- (Rmult_1_r PI) at 2; apply Rmult_le_compat_l; lra]).
  assert (0 <= PI * (1 - c) * sin (PI * c) * (y - x))%R by (apply Rmult_le_pos; [apply Rmult_le_pos; [apply Rmult_le_pos|]|]; lra). lra.
Qed.
Lemma bohman_0 : bohman_of 0 = 1%R.
Proof. unfold bohman_of. rewrite Rmult_0_r, cos_0, sin_0. unfold Rdiv. ring. Qed.
Lemma bohman_1 : bohman_of 1 = 0%R.
Proof. unfold bohman_of. rewrite Rmult_1_r, sin_PI. unfold Rdiv. ring. Qed.
Lemma cos3 x : cos (3 * x) = (4 * cos x * cos x * cos x - 3 * cos x)%R.
Proof.
  replace (3 * x)%R with (2 * x + x)%R by ring. rewrite cos_plus, cos_2a_cos, sin_2a.
  pose proof (sin2_cos2 x) as E. unfold Rsqr in E. assert (E2 : (sin x * sin x = 1 - cos x * cos x)%R) by lra.
  transitivity ((2 * cos x * cos x - 1) * cos x - 2 * cos x * (sin x * sin x))%R; [ring|]. rewrite E2. ring.
Qed.
Lemma four_term a0 a1 a2 a3 c : (-1 <= c <= 1 -> 0 <= a1 -> 0 <= a2 -> 0 <= a3 -> a0 + a1 + a2 + a3 = 1 -> 0 <= a0 - a1 + a2 - a3 -> 12 * a3 <= 2 * a2 -> 0 <= a1 - 4 * a2 + 9 * a3 ->
  0 <= a0 - a1 * c + a2 * (2 * c * c - 1) - a3 * (4 * c * c * c - 3 * c) <= 1)%R.
Proof.
  intros C A1 A2 A3 S E K1 K2. split.
  - replace (a0 - a1 * c + a2 * (2 * c * c - 1) - a3 * (4 * c * c * c - 3 * c))%R with
      ((a0 - a1 + a2 - a3) + (1 - c) * ((a1 - 4 * a2 + 9 * a3) + (1 - c) * (2 * a2 - 12 * a3 + 4 * a3 * (1 - c))))%R by ring.
    assert (0 <= (1 - c) * (2 * a2 - 12 * a3 + 4 * a3 * (1 - c)))%R by (apply Rmult_le_pos; [lra|]; assert (0 <= a3 * (1 - c))%R by (apply Rmult_le_pos; lra); lra).
    assert (0 <= (1 - c) * ((a1 - 4 * a2 + 9 * a3) + (1 - c) * (2 * a2 - 12 * a3 + 4 * a3 * (1 - c))))%R by (apply Rmult_le_pos; lra). lra.
  - replace (a0 - a1 * c + a2 * (2 * c * c - 1) - a3 * (4 * c * c * c - 3 * c))%R with
      ((a0 + a1 + a2 + a3) - (1 + c) * (a1 + 2 * a2 * (1 - c) + a3 * ((2 * c - 1) * (2 * c - 1))))%R by ring.
    assert (0 <= (2 * c - 1) * (2 * c - 1))%R by apply Rle_0_sqr. assert (0 <= a3 * ((2 * c - 1) * (2 * c - 1)))%R by (apply Rmult_le_pos; lra).
    assert (0 <= a2 * (1 - c))%R by (apply Rmult_le_pos; lra).
    assert (0 <= (1 + c) * (a1 + 2 * a2 * (1 - c) + a3 * ((2 * c - 1) * (2 * c - 1))))%R by (apply Rmult_le_pos; lra). lra.
Qed.
Lemma doc_range I0 fam M i : 2 <= M -> i < M -> unit_family I0 fam -> (0 <= doc_formula I0 fam M i <= 1)%R.
Proof.
  intros H Hi P. pose proof (INR_ge2 M H) as M2. pose proof (INR_lt_le i M Hi) as LI. pose proof (pos_INR i) as PI0. pose proof (u_range M i H Hi) as U. pose proof PI_RGT_0 as PIP.
  pose proof (COS_bound (2 * PI * INR i / (INR M - 1))) as CB. set (th := (2 * PI * INR i / (INR M - 1))%R) in *.
  assert (C4 : cos (4 * PI * INR i / (INR M - 1)) = (2 * cos th * cos th - 1)%R).
  { rewrite <- cos_2a_cos. f_equal. unfold th. field. lra. }
  assert (C6 : cos (6 * PI * INR i / (INR M - 1)) = (4 * cos th * cos th * cos th - 3 * cos th)%R).
  { rewrite <- cos3. f_equal. unfold th. field. lra. }
  destruct fam as [| | | |a|al| | | | | | |sg|p sg|be| | |al]; cbn [unit_family] in P; unfold doc_formula; fold th; rewrite ?C4, ?C6; try (exfalso; exact P).
  - lra.
  - lra.
  - split; [|apply SIN_bound]. apply sin_ge_0.
    + apply Rmult_le_pos; [apply Rmult_le_pos; lra|left; apply Rinv_0_lt_compat; lra].
    + apply Rmult_le_reg_r with (INR M); [lra|]. unfold Rdiv. rewrite Rmult_assoc, Rinv_l, Rmult_1_r by lra. apply Rmult_le_compat_l; lra.
  - set (x := Rabs _) in *. change (0 <= bohman_of x <= 1)%R. pose proof bohman_0. pose proof bohman_1.
    pose proof (bohman_mono 0 x ltac:(lra) ltac:(lra) ltac:(lra)). pose proof (bohman_mono x 1 ltac:(lra) ltac:(lra) ltac:(lra)). lra.
  - assert (0 <= 1 - al)%R by lra. nra.
  - lra.
  - lra.
  - set (c := cos th) in *. assert (Q : ((42 / 100 - 50 / 100 * c + 8 / 100 * (2 * c * c - 1)) = (1 - c) * (34 - 16 * c) / 100)%R) by (field). rewrite Q. nra.
  - apply four_term; lra.
  - apply four_term; lra.
  - apply exp_le_1. assert (0 < sg ^ 2)%R by (simpl; rewrite Rmult_1_r; destruct (Rlt_or_le 0 sg) as [L|L]; nra).
    assert (0 <= (INR i - (INR M - 1) / 2) ^ 2 / (2 * sg ^ 2))%R by (apply Rmult_le_pos; [apply pow2_ge_0|left; apply Rinv_0_lt_compat; lra]).
    unfold Rdiv in *. rewrite Ropp_mult_distr_l_reverse. lra.
  - apply exp_le_1. assert (0 <= rpower (Rabs (INR i - (INR M - 1) / 2) / sg) (2 * p))%R; [|lra].
    unfold rpower. destruct (Req_EM_T _ 0); [destruct (Req_EM_T (2 * p) 0); lra|]. unfold Rpower. left. apply exp_pos.
  - destruct P as [P1 P2]. pose proof (Rabs_pos be) as B.
    assert (S01 : (0 <= sqrt (1 - (2 * INR i / (INR M - 1) - 1) ^ 2) <= 1)%R).
    { split; [apply sqrt_pos|]. apply Rle_trans with (sqrt 1); [|rewrite sqrt_1; lra]. apply sqrt_le_1_alt. assert (0 <= (2 * INR i / (INR M - 1) - 1) ^ 2)%R by apply pow2_ge_0. lra. }
    set (s := sqrt _) in *. assert (0 <= Rabs be * s)%R by (apply Rmult_le_pos; lra).
    assert (I0 (Rabs be * s) <= I0 (Rabs be))%R by (apply P2; split; [assumption|]; rewrite <- (Rmult_1_r (Rabs be)) at 2; apply Rmult_le_compat_l; lra).
    pose proof (P1 _ B). pose proof (P1 _ H0). split.
    + apply Rmult_le_pos; [lra|left; now apply Rinv_0_lt_compat].
    + apply Rmult_le_reg_r with (I0 (Rabs be)); [assumption|]. unfold Rdiv. rewrite Rmult_assoc, Rinv_l by lra. lra.
  - cbn zeta. set (n := Rabs _). assert (N : (0 <= n <= (INR M - 1) / 2)%R) by (split; [apply Rabs_pos|unfold n; apply Rabs_le; lra]).
    set (q := (n / (INR M / 2))%R). assert (Q : n = (q * (INR M / 2))%R) by (unfold q; field; lra).
    assert (Q0 : (0 <= q)%R) by (unfold q; apply Rmult_le_pos; [lra|left; apply Rinv_0_lt_compat; lra]).
    destruct (Rle_dec n ((INR M - 1) / 4)) as [L|L].
    + assert (q <= 1 / 2)%R by nra. simpl. split; nra.
    + assert (q <= 1)%R by nra. assert (1 / 4 <= q)%R by nra. simpl. set (b := (1 - q)%R). assert (0 <= b <= 3 / 4)%R by (unfold b; lra).
      assert (0 <= b * b <= 9 / 16)%R by nra. split; [|nra]. assert (0 <= b * b * b)%R by nra. nra.
  - cbn zeta. apply rsinc_range. destruct U as [_ U]. set (y := (2 * INR i / (INR M - 1) - 1)%R) in *. pose proof (Rle_abs y). pose proof (Rle_abs (- y)) as U2. rewrite Rabs_Ropp in U2. lra.
  - destruct (Rle_dec al 0); [lra|]. destruct (Rle_dec 1 al); [lra|]. cbn zeta. destruct (Rle_dec _ _); [lra|].
    match goal with |- context [cos ?x] => pose proof (COS_bound x) end. lra.
Qed.
Lemma doc_center I0 fam m : 1 <= m -> unit_family I0 fam -> doc_formula I0 fam (2 * m + 1) m = 1%R.
Proof.
  intros H P. pose proof (INR_ge1 m H) as M1. pose proof PI_neq0 as PN.
  assert (EM : INR (2 * m + 1) = (2 * INR m + 1)%R) by (rewrite plus_INR, mult_INR; simpl; ring).
  assert (E0 : (2 * INR m / (INR (2 * m + 1) - 1) - 1 = 0)%R) by (rewrite EM; field; lra).
  assert (E1 : (2 * PI * INR m / (INR (2 * m + 1) - 1) = PI)%R) by (rewrite EM; field; lra).
  assert (E2 : (4 * PI * INR m / (INR (2 * m + 1) - 1) = 2 * PI)%R) by (rewrite EM; field; lra).
  assert (E3 : (6 * PI * INR m / (INR (2 * m + 1) - 1) = 2 * PI + PI)%R) by (rewrite EM; field; lra).
  assert (E4 : (INR m - (INR (2 * m + 1) - 1) / 2 = 0)%R) by (rewrite EM; field).
  assert (CP3 : cos (2 * PI + PI) = (-1)%R) by (rewrite neg_cos, cos_2PI; reflexivity).
  destruct fam as [| | | |a|al| | | | | | |sg|p sg|be| | |al]; cbn [unit_family] in P; unfold doc_formula; rewrite ?E0, ?E1, ?E2, ?E3, ?E4, ?Rabs_R0, ?cos_PI, ?cos_2PI, ?CP3; try (exfalso; exact P); try lra.
  - rewrite EM. replace (PI * (INR m + 1 / 2) / (2 * INR m + 1))%R with (PI / 2)%R by (field; lra). apply sin_PI2.
  - exact bohman_0.
  - replace (- 0 ^ 2 / (2 * sg ^ 2))%R with 0%R by (simpl; unfold Rdiv; ring). apply exp_0.
  - unfold rpower. destruct (Req_EM_T (0 / sg) 0) as [_|C]; [|exfalso; apply C; unfold Rdiv; ring]. destruct (Req_EM_T (2 * p) 0); [lra|]. rewrite Rmult_0_r. apply exp_0.
  - replace (1 - 0 ^ 2)%R with 1%R by (simpl; ring). rewrite sqrt_1, Rmult_1_r. destruct P as [P1 _]. pose proof (P1 _ (Rabs_pos be)). field. lra.
  - cbn zeta. rewrite EM. destruct (Rle_dec 0 ((2 * INR m + 1 - 1) / 4)) as [_|C]; [|lra]. unfold Rdiv. rewrite Rmult_0_l. simpl. ring.
  - cbn zeta. destruct (Req_EM_T 0 0); [reflexivity|lra].
  - destruct (Rle_dec al 0); [lra|]. destruct (Rle_dec 1 al); [lra|]. cbn zeta. destruct (Rle_dec 0 (1 - al)); [reflexivity|lra].
Qed.

(** *** equivalent noise bandwidth *)
Lemma s2_bigop (w : list R) : s2 0%R Rplus Rmult w = bigop Rplus 0%R (map (fun x => x * x)%R w).
Proof.
  unfold s2, reduce, filter_reduce. assert (G : forall acc cnt, fst (filter_reduce_loop (fun r v => r + norm Rmult v)%R f_all w acc cnt) = (acc + bigop Rplus 0 (map (fun x => x * x)%R w))%R).
  { induction w as [|x w IH]; intros acc cnt; cbn [filter_reduce_loop map bigop f_all fst]; [ring|]. cbn [f_all]. rewrite IH. unfold norm. ring. }
  rewrite G. ring.
Qed.
Lemma s1_bigop (w : list R) : s1 0%R Rplus Rmult w = (bigop Rplus 0 w * bigop Rplus 0 w)%R.
Proof.
  unfold s1, norm. rewrite (ring_sum (rO := 0%R) (rI := 1%R) (radd := Rplus) (rmul := Rmult) (rsub := Rminus) (ropp := Ropp)) by (constructor; intros; ring). reflexivity.
Qed.
Lemma cauchy_schwarz_ones (w : list R) :
  (bigop Rplus 0 w * bigop Rplus 0 w <= INR (length w) * bigop Rplus 0 (map (fun x => x * x)%R w))%R.
Proof.
  set (S := bigop Rplus 0%R w). set (Q := bigop Rplus 0%R (map (fun x => x * x)%R w)). set (N := INR (length w)).
  assert (V : forall c, (bigop Rplus 0 (map (fun x => (x - c) * (x - c)) w) = Q - 2 * c * S + N * (c * c))%R).
  { intros c. unfold S, Q, N. clear. induction w as [|x w IH]; [simpl; ring|]. cbn [map bigop length]. rewrite IH, S_INR. ring. }
  assert (P : forall c, (0 <= bigop Rplus 0 (map (fun x => (x - c) * (x - c)) w))%R).
  { intros c. clear. induction w as [|x w IH]; [simpl; lra|]. cbn [map bigop]. pose proof (Rle_0_sqr (x - c)) as Z. unfold Rsqr in Z. lra. }
  destruct w as [|x0 w0]; [unfold S, N; simpl; lra|]. assert (HN : (0 < N)%R) by (unfold N; apply lt_0_INR; simpl; lia).
  pose proof (P (S / N)%R) as K. rewrite V in K. apply Rmult_le_compat_r with (r := N) in K; [|lra]. rewrite Rmult_0_l in K.
  replace ((Q - 2 * (S / N) * S + N * (S / N * (S / N))) * N)%R with (N * Q - S * S)%R in K by (field; lra). lra.
Qed.
