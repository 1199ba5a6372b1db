(** Normalisation, frequencies and the complete functions welch, csd, coherence, tfestimate. *)
From Coq Require Import ZArith Reals.
From Verif Require Import Base Functional FunctionalProofs Numeric NumericProofs Stats Spec SumLib CplxR Polynomial Fft FftFacts FftConv FftConvFacts Windows WindowsFacts WindowsReal WindowsRange SpectralConc SpectralConcFacts Spectral SpectralSpec SpectralFacts.
From Coq Require Import Lra Psatz.
Open Scope nat_scope.

Section Norm.
Context {V : Type}.
Variables (zero : V) (scale : R -> V -> V).
Hypothesis scale_scale : forall a b v, scale a (scale b v) = scale (a * b)%R v.
Hypothesis scale_1 : forall v, scale 1%R v = v.
Lemma last_indep {A} (l : list A) a b : l <> [] -> last l a = last l b.
Proof. induction l as [|x [|y l] IH]; intros H; [congruence|reflexivity|]. cbn [last]. apply IH. discriminate. Qed.
Lemma removelast_map_seq {A} (f : nat -> A) n : removelast (map f (seq 0 (S n))) = map f (seq 0 n).
Proof. rewrite seq_S, map_app. cbn [map Nat.add]. apply removelast_last. Qed.
Lemma half_front_map (f : nat -> V) n : half_front scale (map f (seq 0 (S n))) = Ok (map (fun m => if m =? 0 then scale (1 / 2)%R (f m) else f m) (seq 0 (S n))).
Proof. cbn [seq map half_front]. f_equal. f_equal. apply map_ext_in. intros m Hm. apply in_seq in Hm. destruct (Nat.eqb_spec m 0); [lia|reflexivity]. Qed.
Lemma half_back_map (f : nat -> V) n : half_back scale (map f (seq 0 (S n))) = Ok (map (fun m => if m =? n then scale (1 / 2)%R (f m) else f m) (seq 0 (S n))).
Proof.
  assert (E : map f (seq 0 (S n)) = map f (seq 0 n) ++ [f n]) by (rewrite seq_S, map_app; reflexivity).
  unfold half_back. destruct (map f (seq 0 (S n))) as [|x r] eqn:El; [discriminate|]. rewrite E, removelast_last, last_last. f_equal.
  rewrite seq_S, map_app. cbn [map Nat.add]. f_equal; [|now rewrite Nat.eqb_refl]. apply map_ext_in. intros m Hm. apply in_seq in Hm. destruct (Nat.eqb_spec m n); [lia|reflexivity].
Qed.
Lemma normalize_onesided c sc (f : nat -> V) : valid c ->
  normalize scale c sc ONESIDED (map f (seq 0 (length (c_window c) / 2 + 1))) =
  Ok (map (fun m => scale (factor c sc * onesided (length (c_window c)) m)%R (f m)) (seq 0 (length (c_window c) / 2 + 1))).
Proof.
  intros Vc. set (N := length (c_window c)). assert (HN : 1 <= N) by (unfold N; pose proof (v_window c Vc); destruct (c_window c); [congruence|cbn; lia]).
  unfold normalize. rewrite transform1_map, map_map, Nat.add_1_r, half_front_map. cbn [bind]. rewrite (v_nperseg c Vc). fold N.
  assert (ER : (Z.rem (Z.of_nat N) 2 =? 0)%Z = (N mod 2 =? 0)).
  { rewrite Z.rem_mod_nonneg by lia. destruct (Nat.eqb_spec (N mod 2) 0) as [e|e]; destruct (Z.eqb_spec (Z.of_nat N mod 2) 0) as [e'|e']; auto; pose proof (Nat2Z.inj_mod N 2) as M; cbn [Z.of_nat Pos.of_succ_nat Pos.succ] in M; lia. }
  rewrite ER.
  match goal with |- (do u <- ?X; _) = _ => assert (G : X = Ok (map (fun m => scale (onesided N m) (f m)) (seq 0 (S (N / 2))))) end.
  { unfold onesided. destruct (Nat.eqb_spec (N mod 2) 0) as [ev|od].
    - rewrite half_back_map. f_equal. apply map_ext_in. intros m Hm. apply in_seq in Hm. cbn [andb].
      pose proof (Nat.div_mod N 2 ltac:(lia)). destruct (Nat.eqb_spec m (N / 2)); destruct (Nat.eqb_spec m 0); cbn [orb]; try lia; rewrite ?scale_scale; try (f_equal; lra); reflexivity.
    - f_equal. apply map_ext. intros m. cbn [andb]. rewrite orb_false_r. destruct (Nat.eqb_spec m 0); rewrite ?scale_scale; [f_equal; lra|reflexivity]. }
  rewrite G. cbn [bind]. f_equal. unfold factor. destruct sc; rewrite ?transform1_map, ?map_map; apply map_ext; intros m; rewrite ?scale_scale; try reflexivity.
  f_equal. ring.
Qed.
Lemma normalize_twosided c sc (f : nat -> V) n :
  normalize scale c sc TWOSIDED (map f (seq 0 n)) = Ok (map (fun m => scale (factor c sc) (f m)) (seq 0 n)).
Proof.
  unfold normalize, factor. cbn [bind]. f_equal. destruct sc; rewrite ?transform1_map, ?map_map; try reflexivity. apply map_ext. intros m. now rewrite scale_1.
Qed.
End Norm.

(** ** frequencies *)
Lemma riota n : forall z, iota (fun x => (x + 1)%R) n (IZR z) = map (fun i => IZR (z + Z.of_nat i)) (seq 0 n).
Proof.
  induction n as [|n IH]; intros z; [reflexivity|]. cbn [iota seq map]. rewrite Z.add_0_r. f_equal.
  change 1%R with (IZR 1). rewrite <- plus_IZR, IH, <- seq_shift, map_map. apply map_ext. intros i. f_equal. lia.
Qed.
Lemma vlen c : valid c -> 1 <= length (c_window c).
Proof. intros V. pose proof (v_window c V). destruct (c_window c); [congruence|cbn; lia]. Qed.
Lemma freqs_r_ok c : valid c -> (0 < c_fs c)%R -> freqs_r c = Ok (map (freq_r c) (seq 0 (length (c_window c) / 2 + 1))).
Proof.
  intros V F. pose proof (vlen c V) as HN. unfold freqs_r, rfftfreq. rewrite (v_nperseg c V), Nat2Z.id. destruct (Nat.ltb_spec 0 (length (c_window c))); [|lia]. cbn [require].
  unfold Rgtb. destruct (Rlt_dec 0 (1 / c_fs c)) as [|C]; [|exfalso; apply C; apply Rdiv_lt_0_compat; lra]. cbn [require]. rewrite transform1_map, riota, map_map. f_equal.
  apply map_ext. intros m. unfold freq_r. rewrite Z.add_0_l, !IZR_nat. pose proof (INR_nz _ HN). field. lra.
Qed.
Lemma freqs_c_ok c : valid c -> (0 < c_fs c)%R -> freqs_c c = Ok (map (freq_c c) (seq 0 (length (c_window c)))).
Proof.
  intros V F. pose proof (vlen c V) as HN. unfold freqs_c, fftfreq. rewrite (v_nperseg c V), Nat2Z.id. set (n := length (c_window c)) in *. destruct (Nat.ltb_spec 0 n); [|lia]. cbn [require].
  unfold Rgtb. destruct (Rlt_dec 0 (1 / c_fs c)) as [|C]; [|exfalso; apply C; apply Rdiv_lt_0_compat; lra]. cbn [require].
  rewrite ifftshift_inplace_spec, transform1_map, quot2, riota, map_map. set (y := map _ _). assert (L : length y = n) by (unfold y; now rewrite map_length, seq_length).
  f_equal. apply map_list_eq with (d := 0%R); [now rewrite rot_length|]. intros i Hi. rewrite rot_nth by (rewrite L; auto using half_le). rewrite L.
  unfold freq_c. fold n. cbn zeta. rewrite half_up. pose proof (half_le n) as Hh. pose proof (INR_nz _ HN) as Hz.
  assert (Y : forall j, j < n -> nth j y 0%R = (IZR (Z.of_nat j - Z.of_nat (n / 2)) * c_fs c / INR n)%R).
  { intros j Hj. unfold y. rewrite nth_map_seq by exact Hj. replace (- Z.of_nat (n / 2) + Z.of_nat j)%Z with (Z.of_nat j - Z.of_nat (n / 2))%Z by lia. rewrite IZR_nat. field. lra. }
  destruct (Nat.ltb_spec i (n - n / 2)); rewrite Y by lia; do 3 f_equal; lia.
Qed.

(** ** the functions *)
Lemma Rmul_mul a b v : (a * (b * v) = a * b * v)%R. Proof. ring. Qed.
Lemma xscale_scale a b v : xscale a (xscale b v) = xscale (a * b)%R v. Proof. unfold xscale. cbn [fst snd]. f_equal; ring. Qed.
Lemma xscale_1 v : xscale 1%R v = v. Proof. destruct v. unfold xscale. cbn [fst snd]. f_equal; ring. Qed.
Lemma x_nonempty {E} (c : config) (x : list E) : valid c -> length (c_window c) <= length x -> x <> [].
Proof. intros V H. pose proof (vlen c V). destruct x; [cbn in H; lia|congruence]. Qed.
Lemma welch_r_ok c sc x r : valid c -> (0 < c_fs c)%R -> length (c_window c) <= length x ->
  welch_r c sc x r <-> r = Ok (map (freq_r c) (seq 0 (length (c_window c) / 2 + 1)),
    map (fun m => (factor c sc * onesided (length (c_window c)) m * rpsd c x m)%R) (seq 0 (length (c_window c) / 2 + 1))).
Proof.
  intros V F H. pose proof (welch_impl_ok 0%R xre spec_r (fun N => N / 2 + 1) spec_r_ok c x) as W. cbn beta in W.
  assert (E : Z.to_nat (c_nperseg c) = length (c_window c)) by (rewrite (v_nperseg c V); apply Nat2Z.id). split.
  - intros [C|p C Wi]; [now apply (x_nonempty c x V H) in C|]. rewrite E in Wi. apply W in Wi; [|assumption|assumption]. subst p. cbn [bind].
    rewrite (normalize_onesided Rmult Rmul_mul) by exact V. cbn [bind]. now rewrite freqs_r_ok.
  - intros ->. eassert (Wi : _) by (apply (wr_run c sc x (Ok (map (rpsd c x) (seq 0 (length (c_window c) / 2 + 1)))) (x_nonempty c x V H)); rewrite E; now apply W).
    cbn [bind] in Wi. rewrite (normalize_onesided Rmult Rmul_mul) in Wi by exact V. cbn [bind] in Wi. rewrite freqs_r_ok in Wi by assumption. exact Wi.
Qed.
Lemma welch_c_ok c sc x r : valid c -> (0 < c_fs c)%R -> length (c_window c) <= length x ->
  welch_c c sc x r <-> r = Ok (map (freq_c c) (seq 0 (length (c_window c))),
    map (fun m => (factor c sc * cpsd c x m)%R) (seq 0 (length (c_window c)))).
Proof.
  intros V F H. pose proof (welch_impl_ok x0 (fun z => z) spec_c (fun N => N) spec_c_ok c x) as W. cbn beta in W.
  assert (E : Z.to_nat (c_nperseg c) = length (c_window c)) by (rewrite (v_nperseg c V); apply Nat2Z.id). split.
  - intros [C|p C Wi]; [now apply (x_nonempty c x V H) in C|]. rewrite E in Wi. apply W in Wi; [|assumption|assumption]. subst p. cbn [bind].
    rewrite (normalize_twosided Rmult Rmult_1_l). cbn [bind]. now rewrite freqs_c_ok.
  - intros ->. eassert (Wi : _) by (apply (wc_run c sc x (Ok (map (cpsd c x) (seq 0 (length (c_window c))))) (x_nonempty c x V H)); rewrite E; now apply W).
    cbn [bind] in Wi. rewrite (normalize_twosided Rmult Rmult_1_l) in Wi. cbn [bind] in Wi. rewrite freqs_c_ok in Wi by assumption. exact Wi.
Qed.
Lemma csd_same_r_ok c sc x y r : valid c -> (0 < c_fs c)%R -> length (c_window c) <= length x -> length x = length y ->
  csd_same_r c sc x y r <-> r = Ok (map (freq_r c) (seq 0 (length (c_window c) / 2 + 1)),
    map (fun m => xscale (factor c sc * onesided (length (c_window c)) m)%R (rcsd c x y m)) (seq 0 (length (c_window c) / 2 + 1))).
Proof.
  intros V F H L. pose proof (welch2_impl_ok 0%R xre spec_r (fun N => N / 2 + 1) spec_r_ok c x y) as W. cbn beta in W.
  assert (E : Z.to_nat (c_nperseg c) = length (c_window c)) by (rewrite (v_nperseg c V); apply Nat2Z.id). split.
  - intros [p Wi]. rewrite E in Wi. apply W in Wi; [|assumption|assumption|assumption]. subst p. cbn [bind].
    rewrite (normalize_onesided xscale xscale_scale) by exact V. cbn [bind]. now rewrite freqs_r_ok.
  - intros ->. eassert (Wi : _) by (apply (cr_run c sc x y (Ok (map (rcsd c x y) (seq 0 (length (c_window c) / 2 + 1))))); rewrite E; now apply W).
    cbn [bind] in Wi. rewrite (normalize_onesided xscale xscale_scale) in Wi by exact V. cbn [bind] in Wi. rewrite freqs_r_ok in Wi by assumption. exact Wi.
Qed.
Lemma csd_same_c_ok c sc x y r : valid c -> (0 < c_fs c)%R -> length (c_window c) <= length x -> length x = length y ->
  csd_same_c c sc x y r <-> r = Ok (map (freq_c c) (seq 0 (length (c_window c))),
    map (fun m => xscale (factor c sc) (ccsd c x y m)) (seq 0 (length (c_window c)))).
Proof.
  intros V F H L. pose proof (welch2_impl_ok x0 (fun z => z) spec_c (fun N => N) spec_c_ok c x y) as W. cbn beta in W.
  assert (E : Z.to_nat (c_nperseg c) = length (c_window c)) by (rewrite (v_nperseg c V); apply Nat2Z.id). split.
  - intros [p Wi]. rewrite E in Wi. apply W in Wi; [|assumption|assumption|assumption]. subst p. cbn [bind].
    rewrite (normalize_twosided xscale xscale_1). cbn [bind]. now rewrite freqs_c_ok.
  - intros ->. eassert (Wi : _) by (apply (cc_run c sc x y (Ok (map (ccsd c x y) (seq 0 (length (c_window c)))))); rewrite E; now apply W).
    cbn [bind] in Wi. rewrite (normalize_twosided xscale xscale_1) in Wi. cbn [bind] in Wi. rewrite freqs_c_ok in Wi by assumption. exact Wi.
Qed.
Section CsdGen.
Context {E : Type}.
Variables (zero : E) (same : config -> scaling -> list E -> list E -> outcome (list R * list cx) -> Prop).
Lemma csd_gen c sc x y r : x <> [] -> y <> [] -> csd zero same c sc x y r <-> same c sc (padded zero x (length y)) (padded zero y (length x)) r.
Proof.
  intros Hx Hy. assert (PS : forall (a : list E) n, n <= length a -> padded zero a n = a) by (intros a n L; unfold padded; replace (n - length a) with 0 by lia; apply app_nil_r).
  assert (PZ : forall (a : list E) n, length a < n -> zero_padding_const zero a n = Ok (padded zero a n)).
  { intros a n L. rewrite zero_padding_const_spec. unfold padded. now rewrite firstn_all2 by lia. }
  split.
  - intros [[C|C]|r' _ _ L S|y' r' _ _ L P S|x' r' _ _ L P S]; try contradiction.
    + now rewrite !PS by lia.
    + rewrite PZ in P by exact L. injection P as <-. rewrite PS by lia. exact S.
    + rewrite PZ in P by exact L. injection P as <-. rewrite (PS y) by lia. exact S.
  - intros S. destruct (Nat.lt_trichotomy (length x) (length y)) as [L|[L|L]].
    + eapply cs_pad_x; eauto. now rewrite (PS y) in S by lia.
    + apply cs_same; auto. now rewrite !PS in S by lia.
    + eapply cs_pad_y; eauto. now rewrite (PS x) in S by lia.
Qed.
Lemma padded_length (x : list E) n : length (padded zero x n) = Nat.max (length x) n.
Proof. unfold padded. rewrite app_length, repeat_length. lia. Qed.
Lemma padded_nth (x : list E) n k : nth k (padded zero x n) zero = nth k x zero.
Proof.
  unfold padded. destruct (Nat.lt_ge_cases k (length x)); [now rewrite app_nth1|]. rewrite app_nth2 by assumption. rewrite (nth_overflow x) by assumption.
  apply nth_repeat.
Qed.
End CsdGen.
