(** C120: the windows of signal/windows.hpp as computed in floating point. *)
From Coq Require Import List Arith ZArith Reals Bool.
From Flocq Require Import Core Mult_error Relative.
From Verif Require Import Base Functional SumLib Windows WindowsFacts WindowsReal WindowsRange FloatArith FloatArithFacts PropFloatArith FloatVarFacts PropFloatVar FloatWindows FloatWindowsFacts.
From Coq Require Import Lra Psatz Lia.
Import ListNotations.
Open Scope R_scope.

(** sum over j of j |a_j| *)
Definition weighted (a : list R) : R := total (map (fun p => INR (fst p) * Rabs (snd p)) (combine (seq 0 (length a)) a)).
(** a cosine sum with [m] roundings per term; each angle 2 pi i j / (M - 1) carries 5 *)
Definition cosine_sum_error (prec : Z) (eps : R) (m : nat) (a : list R) : R :=
  gamma prec m * total_abs a + (1 + uro prec) ^ m * (eps * total_abs a + gamma prec 5 * (2 * PI * weighted a)).
(** the claimed distance to the textbook value, for each window *)
Definition window_error (prec : Z) (eps : R) (fam : family (T := R)) : R :=
  match fam with
  | Boxcar => 0
  | Bartlett => gamma prec 3
  | Cosine => eps + gamma prec 3 * PI
  | Bohman => (2 + / PI) * (gamma prec 6 + (1 + uro prec) ^ 6 * (eps + gamma prec 5 * (2 * PI)))
  | GeneralCosine a => cosine_sum_error prec eps (1 + length a) a
  | GeneralHamming al => cosine_sum_error prec eps 4 [al; 1 - al]
  | Hann => cosine_sum_error prec eps 3 [1 / 2; 1 / 2]
  | Hamming => cosine_sum_error prec eps 6 [54 / 100; 46 / 100]
  | Blackman => cosine_sum_error prec eps 5 [42 / 100; 50 / 100; 8 / 100]
  | Nuttall => cosine_sum_error prec eps 6 [3635819 / 10000000; 4891775 / 10000000; 1365995 / 10000000; 106411 / 10000000]
  | BlackmanHarris => cosine_sum_error prec eps 6 [35875 / 100000; 48829 / 100000; 14128 / 100000; 1168 / 100000]
  | Flattop => cosine_sum_error prec eps 7 [21557895 / 100000000; 41663158 / 100000000; 277263158 / 1000000000; 83578947 / 1000000000; 6947368 / 1000000000]
  | Gaussian _ => eps + gamma prec 5 * exp (-1)
  | Parzen => 2 * gamma prec 9
  | Lanczos => gamma prec 1 + (1 + uro prec) * (eps + gamma prec 4 * PI)
  | GeneralGaussian _ _ | Kaiser _ | Tukey _ => 0
  end.
(** the windows and parameters the bound is claimed for *)
Definition analysed (prec : Z) (fam : family (T := R)) : Prop :=
  match fam with
  | GeneralCosine a => Forall (in_flx prec) a
  | GeneralHamming al => in_flx prec al
  | Gaussian sigma => sigma <> 0
  | GeneralGaussian _ _ | Kaiser _ | Tukey _ => False
  | _ => True
  end.
(** a mathematical library accurate to [eps]: sine relative to its value, cosine absolutely, exponential absolutely on non-positive arguments *)
Definition library (eps : R) (sinl cosl expl : R -> R) : Prop :=
  (forall x, Rabs (sinl x - sin x) <= eps * Rabs (sin x)) /\ (forall x, Rabs (cosl x - cos x) <= eps) /\ (forall x, x <= 0 -> Rabs (expl x - exp x) <= eps).

Lemma asum_eq a : asum a = total_abs a.
Proof. unfold total_abs, total. induction a as [|c a IH]; cbn [asum map fold_right]; [reflexivity|]. now rewrite IH. Qed.
Lemma wsum_eq' a : forall j, wsum j a = total (map (fun p => INR (fst p) * Rabs (snd p)) (combine (seq j (length a)) a)).
Proof. unfold total. induction a as [|c a IH]; intros j; cbn [wsum length seq combine map fold_right fst snd]; [reflexivity|]. rewrite IH. ring. Qed.
Lemma cse_eq prec eps m a : csum_bound (uro prec) eps m a = cosine_sum_error prec eps m a.
Proof. unfold csum_bound, cosine_sum_error, weighted, gamma. rewrite asum_eq, (wsum_eq' a 0). reflexivity. Qed.
Lemma flx_half prec z : (0 < prec)%Z -> (Z.abs z <= 2 ^ prec)%Z -> in_flx prec (IZR z / 2).
Proof.
  intros Hp Hz. replace (IZR z / 2) with (IZR z * bpow radix2 (-1)) by (cbn; field). apply mult_bpow_exact_FLX. now apply flx_integer.
Qed.
Lemma nearest_inv prec ties x : (0 < prec)%Z -> Rabs (nearest_flx prec ties x - x) <= uro prec * Rabs (nearest_flx prec ties x).
Proof.
  intros Hp. unfold nearest_flx, uro. replace (bpow radix2 (- prec)) with (/ 2 * bpow radix2 (- prec + 1)); [now apply relative_error_N_FLX_round|].
  replace (/ 2) with (bpow radix2 (-1)) by reflexivity. rewrite <- bpow_plus. f_equal. lia.
Qed.
Theorem C120_accuracy : forall (prec : Z) (ties : Z -> bool) (eps : R) (sinl cosl expl I0l I0 : R -> R) (powl : R -> R -> R) (fam : family (T := R)) (sym : symmetry) (M : nat),
  (3 <= prec)%Z -> library eps sinl cosl expl -> analysed prec fam -> (2 <= M)%nat -> (2 * Z.of_nat (S M) <= 2 ^ prec)%Z ->
  exists w, window (fl_wops (nearest_flx prec ties) sinl cosl expl I0l powl) fam sym M = Ok w /\ length w = M /\
    forall i, (i < M)%nat -> Rabs (nth i w 0 - doc_formula I0 fam (match sym with Symmetric => M | Periodic => S M end) i) <= window_error prec eps fam.
Proof.
  intros prec ties eps sinl cosl expl I0l I0 powl fam sym M Hp (Hs & Hc & He) Ha HM HB.
  pose proof (flx_rounding prec ties ltac:(lia)) as RD. change (bpow radix2 (- prec)) with (uro prec) in RD. change (round radix2 (FLX_exp prec) (Znearest ties)) with (nearest_flx prec ties) in RD.
  pose proof (fun x => nearest_inv prec ties x ltac:(lia)) as Hinv.
  assert (H8 : (8 <= 2 ^ prec)%Z) by (change 8%Z with (2 ^ 3)%Z; apply Z.pow_le_mono_r; lia).
  assert (E0 : 0 <= eps) by (pose proof (Hc 0); pose proof (Rabs_pos (cosl 0 - cos 0)); lra).
  assert (Hs' : forall x, Rabs (sinl x - sin x) <= eps). { intros x. eapply Rle_trans; [apply Hs|]. assert (Rabs (sin x) <= 1) by (apply Rabs_le, SIN_bound). nra. }
  assert (Fh := fun z => flx_half prec z ltac:(lia)). assert (Fi := fun z => flx_integer prec z ltac:(lia)).
  assert (Fo : forall x, in_flx prec x -> in_flx prec (- x)) by (intros x; apply generic_format_opp).
  assert (SYM : forall m, (2 <= m)%nat -> (2 * Z.of_nat m <= 2 ^ prec)%Z -> exists w, window (fl_wops (nearest_flx prec ties) sinl cosl expl I0l powl) fam Symmetric m = Ok w /\ length w = m /\
    forall i, (i < m)%nat -> Rabs (nth i w 0 - doc_formula I0 fam m i) <= window_error prec eps fam).
  { intros m Hm HmB. destruct fam as [| | | |a|al| | | | | | |sg|p sg|be| | |al]; cbn [analysed window_error] in *; try contradiction; rewrite <- ?cse_eq.
    - exists (repeat 1 m). split; [|split; [apply repeat_length|]].
      + cbn [window]. unfold boxcar. cbn [fl_wops w_of]. rewrite (rd_id _ _ _ _ RD 1); [reflexivity|]. apply (Fi 1%Z). lia.
      + intros i Hi. cbn [doc_formula]. rewrite (nth_indep _ 0 1) by (now rewrite repeat_length). rewrite nth_repeat. unfold Rminus. rewrite Rplus_opp_r, Rabs_R0. lra.
    - exact (bartlett_close _ _ _ RD Hinv _ H8 Fi sinl cosl expl I0l powl I0 m Hm HmB).
    - exact (cosine_close _ _ _ RD Hinv _ H8 Fh Fi sinl cosl expl I0l powl eps I0 m Hs' Hm HmB).
    - exact (bohman_close _ _ _ RD Hinv _ H8 Fi sinl cosl expl I0l powl eps Hc I0 m Hs' Hm HmB).
    - refine (cosines_close _ _ _ RD Hinv Fo _ H8 Fi sinl cosl expl I0l powl eps Hc I0 a a 0 m Hm HmB _). clear - Ha RD. induction Ha as [|c a Hc _ IH]; [apply Forall2_nil|apply Forall2_cons; [exact (coef_fmt _ _ _ RD c Hc)|exact IH]].
    - exact (general_hamming_close _ _ _ RD Hinv Fo _ H8 Fi sinl cosl expl I0l powl eps Hc I0 al m Ha Hm HmB).
    - exact (hann_close _ _ _ RD Hinv Fo _ H8 Fh Fi sinl cosl expl I0l powl eps Hc I0 m Hm HmB).
    - exact (hamming_close _ _ _ RD Hinv Fo _ H8 Fi sinl cosl expl I0l powl eps Hc I0 m Hm HmB).
    - exact (blackman_close _ _ _ RD Hinv Fo _ H8 Fi sinl cosl expl I0l powl eps Hc I0 m Hm HmB).
    - exact (nuttall_close _ _ _ RD Hinv Fo _ H8 Fi sinl cosl expl I0l powl eps Hc I0 m Hm HmB).
    - exact (blackmanharris_close _ _ _ RD Hinv Fo _ H8 Fi sinl cosl expl I0l powl eps Hc I0 m Hm HmB).
    - exact (flattop_close _ _ _ RD Hinv Fo _ H8 Fi sinl cosl expl I0l powl eps Hc I0 m Hm HmB).
    - exact (gaussian_close _ _ _ RD Hinv _ H8 Fh Fi sinl cosl expl I0l powl eps I0 sg m He Ha Hm HmB).
    - exact (parzen_close _ _ _ RD Hinv _ H8 Fh Fi sinl cosl expl I0l powl I0 m Hm HmB).
    - rewrite <- (Rmult_1_r (1 + uro prec)). exact (lanczos_close _ _ _ RD Hinv _ H8 Fi sinl cosl expl I0l powl eps Hc I0 m Hs Hm HmB). }
  destruct sym; [apply SYM; lia|].
  destruct (proj2 (window_good (fl_wops (nearest_flx prec ties) sinl cosl expl I0l powl) fam M ltac:(destruct fam; cbn in *; tauto))) as (w & w' & E1 & E2 & Ew).
  destruct (SYM (S M) ltac:(lia) HB) as (w2 & E3 & L & Q). rewrite E2 in E3. injection E3 as ->. exists w. split; [exact E1|]. subst w. split; [rewrite firstn_length; lia|].
  intros i Hi. rewrite <- (firstn_skipn M w2) in Q. specialize (Q i ltac:(lia)). rewrite app_nth1 in Q by (rewrite firstn_length; lia). exact Q.
Qed.
Print Assumptions C120_accuracy.

(** The windows with values in [0, 1] leave that interval by no more than the error bound. *)
Theorem C120_range : forall (prec : Z) (ties : Z -> bool) (eps : R) (sinl cosl expl I0l : R -> R) (powl : R -> R -> R) (fam : family (T := R)) (sym : symmetry) (M : nat),
  (3 <= prec)%Z -> library eps sinl cosl expl -> analysed prec fam ->
  match fam with GeneralCosine _ | Flattop => False | GeneralHamming al => 1 / 2 <= al <= 1 | _ => True end ->
  (2 <= M)%nat -> (2 * Z.of_nat (S M) <= 2 ^ prec)%Z ->
  exists w, window (fl_wops (nearest_flx prec ties) sinl cosl expl I0l powl) fam sym M = Ok w /\ length w = M /\
    forall x, In x w -> - window_error prec eps fam <= x <= 1 + window_error prec eps fam.
Proof.
  intros prec ties eps sinl cosl expl I0l powl fam sym M Hp Hl Ha Hu HM HB.
  destruct (C120_accuracy prec ties eps sinl cosl expl I0l (fun _ => 1) powl fam sym M Hp Hl Ha HM HB) as (w & E & L & Q). exists w. split; [exact E|split; [exact L|]].
  intros x Hx. destruct (In_nth w x 0 Hx) as (i & Hi & <-). specialize (Q i ltac:(lia)). apply Rabs_le_inv in Q.
  pose proof (doc_range (fun _ => 1) fam (match sym with Symmetric => M | Periodic => S M end) i ltac:(destruct sym; lia) ltac:(destruct sym; lia)) as D.
  assert (UF : unit_family (fun _ => 1) fam) by (destruct fam; cbn in *; tauto). specialize (D UF). lra.
Qed.
Print Assumptions C120_range.

(** double precision (53 bits) with a library accurate to one unit roundoff: every window without parameters is within 2^-46 of its textbook value *)
Lemma g_small u k : 0 <= u <= 1 / 1000 -> (k <= 9)%nat -> 1 <= (1 + u) ^ k <= 1 + 101 / 100 * INR k * u.
Proof.
  intros Hu. induction k as [|k IH]; intros Hk; [cbn; lra|]. specialize (IH ltac:(lia)). rewrite S_INR. cbn [pow]. assert (K : 0 <= INR k <= 8) by (split; [apply pos_INR|replace 8 with (INR 8) by (cbn; lra); apply le_INR; lia]).
  assert (A : 0 <= INR k * u <= 8 / 1000) by nra. assert (B : 0 <= INR k * u * u <= 8 / 1000 * u) by nra. split; [nra|]. apply (Rle_trans _ ((1 + u) * (1 + 101 / 100 * INR k * u))); [apply Rmult_le_compat_l; lra|]. lra.
Qed.
Theorem C120_binary64 : forall (ties : Z -> bool) (eps : R) (sinl cosl expl I0l I0 : R -> R) (powl : R -> R -> R) (fam : family (T := R)) (sym : symmetry) (M : nat),
  library eps sinl cosl expl -> eps <= bpow radix2 (-53) ->
  In fam [Boxcar; Bartlett; Cosine; Hann; Hamming; Blackman; Nuttall; BlackmanHarris; Flattop; Bohman; Parzen; Lanczos] ->
  (2 <= M)%nat -> (Z.of_nat M < 2 ^ 52)%Z ->
  exists w, window (fl_wops (nearest_flx 53 ties) sinl cosl expl I0l powl) fam sym M = Ok w /\ length w = M /\
    forall i, (i < M)%nat -> Rabs (nth i w 0 - doc_formula I0 fam (match sym with Symmetric => M | Periodic => S M end) i) <= bpow radix2 (-46).
Proof.
  intros ties eps sinl cosl expl I0l I0 powl fam sym M Hl He Hf HM HB.
  destruct (C120_accuracy 53 ties eps sinl cosl expl I0l I0 powl fam sym M ltac:(lia) Hl) as (w & E & L & Q); [|exact HM|lia|].
  { cbn [In] in Hf. repeat destruct Hf as [<- | Hf]; try exact I. contradiction. }
  exists w. split; [exact E|split; [exact L|]]. intros i Hi. eapply Rle_trans; [exact (Q i Hi)|]. clear Q E.
  replace (bpow radix2 (-46)) with (128 * bpow radix2 (-53)) by (replace 128 with (bpow radix2 7) by (cbn; lra); rewrite <- bpow_plus; reflexivity).
  set (v := bpow radix2 (-53)) in *. assert (Hv : 0 < v <= 1 / 1000). { split; [apply bpow_gt_0|]. unfold v. apply (Rle_trans _ (bpow radix2 (-10))); [apply bpow_le; lia|]. cbn. lra. }
  assert (E0 : 0 <= eps) by (destruct Hl as (_ & Hc & _); pose proof (Hc 0); pose proof (Rabs_pos (cosl 0 - cos 0)); lra).
  pose proof PI_RGT_0. pose proof PI_4. pose proof PI2_1 as P2.
  assert (G : forall k, (k <= 9)%nat -> 0 <= gamma 53 k <= 101 / 100 * INR k * v) by (intros k Hk; unfold gamma; change (uro 53) with v; pose proof (g_small v k ltac:(lra) Hk); lra).
  assert (GG : forall k, (k <= 9)%nat -> 1 <= (1 + uro 53) ^ k <= 101 / 100) by (intros k Hk; change (uro 53) with v; pose proof (g_small v k ltac:(lra) Hk); assert (0 <= INR k <= 9) by (split; [apply pos_INR|replace 9 with (INR 9) by (cbn; lra); apply le_INR; lia]); nra).
  assert (CS : forall m a s w', (m <= 9)%nat -> total_abs a = s -> weighted a = w' -> 0 <= s <= 101 / 100 -> 0 <= w' <= 126 / 100 -> cosine_sum_error 53 eps m a <= 128 * v).
  { intros m a s w' Hm <- <- Hs Hw. unfold cosine_sum_error. pose proof (G m Hm) as Gm. pose proof (GG m Hm) as GGm. pose proof (G 5%nat ltac:(lia)) as G5. cbn [INR] in G5.
    assert (INR m <= 9) by (replace 9 with (INR 9) by (cbn; lra); apply le_INR; lia). pose proof (pos_INR m).
    assert (T1 : gamma 53 m * total_abs a <= 10 * v) by nra. assert (T2 : eps * total_abs a <= 2 * v) by nra.
    assert (T3 : 2 * PI * weighted a <= 11) by nra. assert (T3' : 0 <= 2 * PI * weighted a) by (apply Rmult_le_pos; lra). assert (T4 : gamma 53 5 * (2 * PI * weighted a) <= 60 * v) by nra. nra. }
  pose proof (G 1%nat ltac:(lia)) as G1. pose proof (G 3%nat ltac:(lia)) as G3. pose proof (G 4%nat ltac:(lia)) as G4. pose proof (G 5%nat ltac:(lia)) as G5. pose proof (G 6%nat ltac:(lia)) as G6. pose proof (G 9%nat ltac:(lia)) as G9. cbn [INR] in G1, G3, G4, G5, G6, G9.
  assert (AB : forall x y, 0 < x -> 0 < y -> Rabs (x / y) = x / y) by (intros x y Hx Hy; apply Rabs_pos_eq; apply Rmult_le_pos; [lra|left; now apply Rinv_0_lt_compat]).
  cbn [In] in Hf. repeat destruct Hf as [<- | Hf]; cbn [window_error]; try contradiction.
  - lra.
  - lra.
  - nra.
  - eapply CS; [lia|reflexivity|reflexivity| |]; unfold weighted, total_abs, total; cbn [map fold_right combine seq length fst snd INR]; rewrite !AB by lra; lra.
  - eapply CS; [lia|reflexivity|reflexivity| |]; unfold weighted, total_abs, total; cbn [map fold_right combine seq length fst snd INR]; rewrite !AB by lra; lra.
  - eapply CS; [lia|reflexivity|reflexivity| |]; unfold weighted, total_abs, total; cbn [map fold_right combine seq length fst snd INR]; rewrite !AB by lra; lra.
  - eapply CS; [lia|reflexivity|reflexivity| |]; unfold weighted, total_abs, total; cbn [map fold_right combine seq length fst snd INR]; rewrite !AB by lra; lra.
  - eapply CS; [lia|reflexivity|reflexivity| |]; unfold weighted, total_abs, total; cbn [map fold_right combine seq length fst snd INR]; rewrite !AB by lra; lra.
  - eapply CS; [lia|reflexivity|reflexivity| |]; unfold weighted, total_abs, total; cbn [map fold_right combine seq length fst snd INR]; rewrite !AB by lra; lra.
  - pose proof (GG 6%nat ltac:(lia)) as GG6. assert (I1 : / PI <= / 2) by (apply Rinv_le_contravar; lra). assert (I0' : 0 < / PI) by (apply Rinv_0_lt_compat; lra).
    assert (T : gamma 53 5 * (2 * PI) <= 41 * v) by nra. assert (T0 : 0 <= gamma 53 5 * (2 * PI)) by (apply Rmult_le_pos; lra).
    assert (U : gamma 53 6 + (1 + uro 53) ^ 6 * (eps + gamma 53 5 * (2 * PI)) <= 50 * v) by nra. assert (U0 : 0 <= gamma 53 6 + (1 + uro 53) ^ 6 * (eps + gamma 53 5 * (2 * PI))) by nra. nra.
  - lra.
  - pose proof (GG 1%nat ltac:(lia)) as GG1. cbn [pow] in GG1. rewrite Rmult_1_r in GG1. assert (T : gamma 53 4 * PI <= 17 * v) by nra. nra.
Qed.
Print Assumptions C120_binary64.

(** The interval [0, 1] itself is not respected: the two ends of the 6-point triangular window are -2^-53 in double precision, not 0. *)
Theorem C120_bartlett_negative_ends : forall (ties : Z -> bool) (sinl cosl expl I0l : R -> R) (powl : R -> R -> R),
  exists w, window (fl_wops (nearest_flx 53 ties) sinl cosl expl I0l powl) Bartlett Symmetric 6 = Ok w /\ nth 0 w 0 = - bpow radix2 (-53) /\ nth 5 w 0 = - bpow radix2 (-53).
Proof.
  intros ties sinl cosl expl I0l powl. pose proof (flx_rounding 53 ties ltac:(lia)) as RD. change (round radix2 (FLX_exp 53) (Znearest ties)) with (nearest_flx 53 ties) in RD.
  assert (Z : forall z, (Z.abs z <= 2 ^ 53)%Z -> nearest_flx 53 ties (IZR z) = IZR z) by (intros z Hz; apply (rd_id _ _ _ _ RD); now apply flx_integer).
  assert (S1 : nearest_flx 53 ties (- (2) / 5) = -7205759403792794 * bpow radix2 (-54)).
  { unfold nearest_flx, round, scaled_mantissa, cexp. rewrite (mag_unique radix2 (- (2) / 5) (-1)); [|rewrite Rabs_left by lra; cbn; lra].
    replace (FLX_exp 53 (-1)) with (-54)%Z by reflexivity. rewrite (Znearest_imp _ _ (-7205759403792794)); [reflexivity|]. replace (bpow radix2 (- (-54))) with 18014398509481984 by (cbn; lra). rewrite Rabs_pos_eq; lra. }
  assert (S2 : nearest_flx 53 ties (-7205759403792794 * bpow radix2 (-54) * 5 + 2) = - bpow radix2 (-53)).
  { replace (-7205759403792794 * bpow radix2 (-54) * 5 + 2) with (- bpow radix2 (-53)) by (cbn; lra). apply (rd_id _ _ _ _ RD). apply generic_format_opp, generic_format_bpow. cbn. lia. }
  cbn [window build_window]. unfold bartlett_filler. rewrite symmetric_filler_map, repeat_length. eexists. split; [reflexivity|]. cbn [seq map Nat.max Nat.sub nth fl_wops w_fma w_div w_opp w_of].
  rewrite !Z by (cbn; lia). cbn [Z.of_nat Pos.of_succ_nat Pos.succ]. rewrite S1, S2. split; reflexivity.
Qed.
Print Assumptions C120_bartlett_negative_ends.
Example C120_nonvacuous : library 0 sin cos exp /\ analysed 53 (GeneralCosine [1 / 2; 1 / 2]) /\
  forall ties, exists w, window (fl_wops (nearest_flx 53 ties) sin cos exp (fun _ => 1) (fun _ _ => 1)) Hann Periodic 8 = Ok w /\ length w = 8%nat /\ forall x, In x w -> - bpow radix2 (-46) <= x <= 1 + bpow radix2 (-46).
Proof.
  assert (L : library 0 sin cos exp) by (repeat split; intros; unfold Rminus; rewrite Rplus_opp_r, Rabs_R0; lra). split; [exact L|split].
  - repeat apply Forall_cons; try apply Forall_nil; apply (flx_half 53 1); lia.
  - intros ties. destruct (C120_binary64 ties 0 sin cos exp (fun _ => 1) (fun _ => 1) (fun _ _ => 1) Hann Periodic 8 L (bpow_ge_0 _ _) ltac:(cbn; tauto) ltac:(lia) ltac:(lia)) as (w & E & Lw & Q).
    exists w. split; [exact E|split; [exact Lw|]]. intros x Hx. destruct (In_nth w x 0 Hx) as (i & Hi & <-). specialize (Q i ltac:(lia)). apply Rabs_le_inv in Q. cbv iota in Q.
    pose proof (doc_range (fun _ => 1) Hann 9 i ltac:(lia) ltac:(lia) I). lra.
Qed.
