(** Rounding errors of FloatSpectral.v: the result of any schedule is a sum in some order. *)
From Coq Require Import ZArith Reals Permutation.
From Verif Require Import Base Functional FunctionalProofs Numeric CplxR Polynomial Fft FftConv FftFacts Spec NumericProofs SpectralConc SpectralConcFacts Spectral FloatSpectral
  FloatSpectralFacts FloatArithFacts FloatVarFacts FloatWindowsFacts.
From Coq Require Import Lra Lia Psatz.
Open Scope nat_scope.
Set Implicit Arguments.

Lemma compute_order {T} (zero : T) add divn nthreads nfft n psd r : (forall x y, add x y = add y x) ->
  (forall i, i < Z.to_nat n -> exists v, psd i = Ok v /\ length v = nfft) -> compute_spectrum zero add divn nthreads nfft n psd r ->
  exists order, Permutation order (seq 0 (Z.to_nat n)) /\
    r = Ok (map (fun k => divn (bigop add zero (map (fun i => nth k (seg psd i) zero) order)) n) (seq 0 nfft)).
Proof.
  intros comm H C.
  assert (V : forall l, transform1 (fun v => divn v n) (vsum zero add nfft psd l) = map (fun k => divn (bigop add zero (map (fun i => nth k (seg psd i) zero) l)) n) (seq 0 nfft)).
  { intros l. rewrite transform1_map. unfold vsum. now rewrite map_map. }
  destruct C as [r _ E|s _ _ R M _|s _ _ R F].
  - exists (rev (seq 0 (Z.to_nat n))). split; [symmetry; apply Permutation_rev|]. rewrite <- E.
    rewrite <- (vsum_nil zero add nfft psd). rewrite (accumulate_spec zero add comm (Z.to_nat n) nfft psd H) by lia.
    cbn [bind]. now rewrite app_nil_r, V.
  - pose proof (inv_reachable zero add comm nthreads (Z.to_nat n) nfft psd H s R) as I. destruct I as [F L Nx IM W K (ad & A1 & A2 & A3)]. unfold main_ok in IM. rewrite M in IM.
    destruct IM as (E & IM). rewrite !(over_none _ _ IM) in *. rewrite !app_nil_r in *. rewrite E in *. exists ad. split; [exact A1|].
    destruct A3 as [[_ ->]|[C _]]; [now rewrite V|discriminate].
  - pose proof (i_failed _ _ _ _ _ _ _ (inv_reachable zero add comm nthreads (Z.to_nat n) nfft psd H s R)). congruence.
Qed.

(** ** segments *)
Record usable (c : config) : Prop := {
  us_nperseg : c_nperseg c = Z.of_nat (length (c_window c)); us_window : c_window c <> []; us_overlap : (c_noverlap c < c_nperseg c)%Z }.
Definition hop (c : config) : nat := Z.to_nat (c_nperseg c - c_noverlap c).
Definition nsegments (c : config) (n : nat) : nat := 1 + (n - length (c_window c)) / hop c.
Definition slice {E} (c : config) (x : list E) (i : nat) : list E := firstn (length (c_window c)) (skipn (i * hop c) x).
Lemma hop_pos c : usable c -> 1 <= hop c.
Proof. intros U. pose proof (us_overlap U). unfold hop. lia. Qed.
Lemma nstep_hop c : usable c -> nstep c = Z.of_nat (hop c).
Proof. intros U. pose proof (us_overlap U). unfold nstep, hop. rewrite Z2Nat.id by lia. reflexivity. Qed.
Lemma nseg_usable c n : usable c -> length (c_window c) <= n -> nseg c n = Ok (Z.of_nat (nsegments c n)).
Proof.
  intros U H. unfold nseg. rewrite nstep_hop by exact U. pose proof (hop_pos U) as P. destruct (Z.eqb_spec (Z.of_nat (hop c)) 0); [lia|].
  rewrite (us_nperseg U). f_equal. rewrite <- Nat2Z.inj_sub by exact H. rewrite Z.quot_div_nonneg by lia. rewrite <- Nat2Z.inj_div. unfold nsegments. lia.
Qed.
Lemma segment_usable {E} c (x : list E) i : usable c -> length (c_window c) <= length x -> i < nsegments c (length x) ->
  segment c x i = Ok (slice c x i) /\ length (slice c x i) = length (c_window c).
Proof.
  intros U H Hi. pose proof (hop_pos U) as P. unfold nsegments in Hi. set (N := length (c_window c)) in *.
  assert (F : i * hop c + N <= length x).
  { pose proof (Nat.div_mod (length x - N) (hop c) ltac:(lia)) as D. set (q := (length x - N) / hop c) in *.
    assert (i * hop c <= q * hop c) by (apply Nat.mul_le_mono_r; lia). lia. }
  assert (L : length (slice c x i) = N) by (unfold slice; rewrite firstn_length, skipn_length; fold N; lia). split; [|exact L].
  unfold segment, subvector. rewrite (us_nperseg U), (nstep_hop U). fold N. rewrite Z.min_l by lia.
  destruct (Z.leb_spec 0 (Z.of_nat i * Z.of_nat (hop c))); [|lia]. destruct (Z.leb_spec 0 (Z.of_nat N)); [|lia].
  destruct (Z.leb_spec (Z.of_nat i * Z.of_nat (hop c) + Z.of_nat N) (Z.of_nat (length x))); [|lia]. cbn [andb bind].
  rewrite Nat2Z.id. replace (Z.to_nat (Z.of_nat i * Z.of_nat (hop c))) with (i * hop c) by lia. fold N in L. unfold slice in *. fold N in L. fold N.
  rewrite L, Nat.eqb_refl. reflexivity.
Qed.

(** ** normalize *)
Lemma nth_map_default {A B} (f : A -> B) l k d e : k < length l -> nth k (map f l) d = f (nth k l e).
Proof. intros H. rewrite (nth_indep _ d (f e)) by (now rewrite map_length). apply map_nth. Qed.
Definition finish {V} (rnd : R -> R) (q : V -> R -> V) (c : config) (sc : scaling) (x : V) : V :=
  match sc with DENSITY => q x (fs_mul rnd (c_fs c) (c_s2 c)) | SPECTRUM => q x (c_s1 c) | NONE => x end.
Definition unpaired (sd : sides) (N k : nat) : bool := match sd with TWOSIDED => true | ONESIDED => (k =? 0) || (2 * k =? N) end.
Lemma normalize_nth {V} rnd (s : R -> V -> V) q c sc sd v d : usable c -> length v = nbins sd c -> (forall x, In x v -> s (1 / 2)%R (s 2%R x) = x) ->
  exists u, fl_normalize rnd s q c sc sd v = Ok u /\ length u = nbins sd c /\
    forall k, k < nbins sd c -> nth k u d = finish rnd q c sc (if unpaired sd (length (c_window c)) k then nth k v d else s 2%R (nth k v d)).
Proof.
  intros U L H. set (N := length (c_window c)) in *. assert (N1 : 1 <= N) by (pose proof (us_window U); subst N; destruct (c_window c); [contradiction|cbn; lia]).
  assert (exists w, match sd with ONESIDED => do a <- half_front s (transform1 (s 2%R) v); if (Z.rem (c_nperseg c) 2 =? 0)%Z then half_back s a else Ok a | TWOSIDED => Ok v end = Ok w /\
    length w = length v /\ forall k, k < length v -> nth k w d = if unpaired sd N k then nth k v d else s 2%R (nth k v d)) as (w & Ew & Lw & Cw).
  { destruct sd; [|exists v; auto]. unfold nbins in L. rewrite (us_nperseg U), Nat2Z.id in L. fold N in L. rewrite transform1_map.
    destruct v as [|v0 r]; [cbn [length] in L; lia|]. cbn [map half_front bind]. rewrite H by (left; reflexivity). rewrite (us_nperseg U). fold N.
    replace (Z.rem (Z.of_nat N) 2) with (Z.of_nat (N mod 2)) by (rewrite Z.rem_mod_nonneg, Nat2Z.inj_mod by lia; reflexivity).
    pose proof (Nat.div_mod N 2 ltac:(lia)) as D. pose proof (Nat.mod_upper_bound N 2 ltac:(lia)) as Mb. cbn [length] in L.
    destruct (Z.eqb_spec (Z.of_nat (N mod 2)) 0) as [Ev|Od].
    - assert (Nr : r <> []) by (destruct r; [cbn [length] in L; lia|discriminate]). destruct (exists_last Nr) as (r' & z & ->). rewrite app_length in L. cbn [length] in L.
      exists (v0 :: map (s 2%R) r' ++ [z]). split; [|split].
      + unfold half_back. rewrite map_app. cbn [map]. rewrite (app_comm_cons (map (s 2%R) r') _ v0). rewrite removelast_last, last_last.
        rewrite H by (right; apply in_or_app; right; left; reflexivity). reflexivity.
      + cbn. now rewrite !app_length, map_length.
      + intros k Hk. cbn [length] in Hk. rewrite app_length in Hk. cbn [length] in Hk. unfold unpaired. destruct k as [|k]; [reflexivity|]. cbn [nth Nat.eqb orb].
        destruct (Nat.eqb_spec (2 * S k) N) as [Q|Q].
        * rewrite !app_nth2 by (rewrite ?map_length; lia). rewrite map_length. now replace (k - length r') with 0 by lia.
        * rewrite !app_nth1 by (rewrite ?map_length; lia). apply nth_map_default. lia.
    - exists (v0 :: map (s 2%R) r). split; [reflexivity|]. split; [cbn; now rewrite map_length|]. intros k Hk. cbn [length] in Hk. unfold unpaired.
      destruct k as [|k]; [reflexivity|]. cbn [nth Nat.eqb orb]. destruct (Nat.eqb_spec (2 * S k) N) as [Q|Q]; [lia|]. apply nth_map_default. lia. }
  unfold fl_normalize. rewrite Ew. cbn [bind]. eexists. split; [reflexivity|]. rewrite <- L. split; [destruct sc; rewrite ?transform1_map, ?map_length; exact Lw|].
  intros k Hk. unfold finish. destruct sc; rewrite ?transform1_map; rewrite <- ?(Cw k Hk); try reflexivity; (rewrite <- Lw in Hk; rewrite (nth_map_default _ _ d d Hk); reflexivity).
Qed.

Lemma x_ne {E} c (x : list E) : usable c -> length (c_window c) <= length x -> x <> [].
Proof. intros U Hx. pose proof (us_window U). destruct x; [|discriminate]. destruct (c_window c); [contradiction|cbn in Hx; lia]. Qed.
Section Err.
Variables (u : R) (fmt : R -> Prop) (rnd : R -> R).
Hypothesis RD : rounding u 0 fmt rnd.
Hypothesis Hinv : forall x, (Rabs (rnd x - x) <= u * Rabs (rnd x))%R.
Hypothesis Hdbl : forall x, fmt x -> fmt (2 * x)%R.
Notation rel := (rel u).
Notation acc := (acc u).
Open Scope R_scope.
Let Id := rd_id _ _ _ _ RD.
Let Fm := rd_fmt _ _ _ _ RD.
Lemma rel_add k x y X Y : 0 <= X -> 0 <= Y -> rel k x X -> rel k y Y -> rel k (x + y) (X + Y).
Proof.
  intros HX HY (r & [R1 R2] & ->) (s & [S1 S2] & ->). destruct (Req_dec (X + Y) 0) as [Z|Z].
  - exists r. split; [lra|]. assert (X = 0) by lra. assert (Y = 0) by lra. subst. ring.
  - exists ((X * r + Y * s) / (X + Y)). split; [|field; exact Z]. assert (P : 0 < X + Y) by lra. split.
    + apply (Rmult_le_reg_r (X + Y)); [exact P|]. replace ((X * r + Y * s) / (X + Y) * (X + Y)) with (X * r + Y * s) by (field; lra). nra.
    + apply (Rmult_le_reg_r (X + Y)); [exact P|]. replace ((X * r + Y * s) / (X + Y) * (X + Y)) with (X * r + Y * s) by (field; lra). nra.
Qed.
Lemma gmono j k : (j <= k)%nat -> FloatArithFacts.g u j <= FloatArithFacts.g u k. Proof. apply (gmon u fmt rnd RD). Qed.
Lemma rel_weak j k x X : (j <= k)%nat -> rel j x X -> rel k x X.
Proof.
  intros H (r & [R1 R2] & ->). exists r. split; [|reflexivity]. pose proof (gmono H). pose proof (gi u fmt rnd RD j). pose proof (gp u fmt rnd RD j).
  split; [|lra]. apply Rle_trans with (/ FloatArithFacts.g u j); [|exact R1]. apply Rinv_le_contravar; lra.
Qed.
Lemma norm_rel z : rel 2 (fs_norm rnd z) (xnorm2 z) /\ fmt (fs_norm rnd z) /\ 0 <= xnorm2 z.
Proof.
  split; [|split; [apply Fm|unfold xnorm2; nra]]. unfold fs_norm, xnorm2. apply (rel_rnd u fmt rnd RD Hinv). apply rel_add; try apply Rle_0_sqr; apply (rel_rnd1 u fmt rnd RD Hinv).
Qed.
(** a rounded sum of n positive terms, in the order of the list: n - 1 roundings (0 + x is exact) *)
Lemma sum_rel (f F : nat -> R) j l : l <> [] -> (forall i, In i l -> rel j (f i) (F i) /\ fmt (f i) /\ 0 <= F i) ->
  rel (j + (length l - 1)) (bigop (fs_add rnd) 0 (map f l)) (bigop Rplus 0 (map F l)) /\ fmt (bigop (fs_add rnd) 0 (map f l)) /\ 0 <= bigop Rplus 0 (map F l).
Proof.
  intros N H. induction l as [|i l IH]; [contradiction|]. cbn [map bigop]. destruct (H i (or_introl eq_refl)) as (H1 & H2 & H3).
  destruct l as [|i2 l].
  - cbn [map bigop]. unfold fs_add. rewrite !Rplus_0_r, Id by exact H2. cbn [length]. replace (j + (1 - 1))%nat with j by lia. auto.
  - destruct (IH ltac:(discriminate) (fun i' Hi => H i' (or_intror Hi))) as (K1 & K2 & K3). split; [|split; [apply Fm|lra]].
    set (s := bigop (fs_add rnd) 0 (map f (i2 :: l))) in *. set (S0 := bigop Rplus 0 (map F (i2 :: l))) in *.
    replace (j + (length (i :: i2 :: l) - 1))%nat with (S (j + (length (i2 :: l) - 1))) by (cbn [length]; lia). apply (rel_rnd u fmt rnd RD Hinv).
    apply rel_add; [exact H3|exact K3| |exact K1]. revert H1. apply rel_weak. lia.
Qed.
Lemma Rsum_perm l l' (F : nat -> R) : Permutation l l' -> bigop Rplus 0 (map F l) = bigop Rplus 0 (map F l').
Proof. intros H. apply bigop_perm; [intros; ring|intros; ring|now apply Permutation_map]. Qed.

Definition extra (sc : scaling) : nat := match sc with DENSITY => 2 | SPECTRUM => 1 | NONE => 0 end.
Definition divisor (c : config) (sc : scaling) : R := match sc with DENSITY => c_fs c * c_s2 c | SPECTRUM => c_s1 c | NONE => 1 end.
Lemma finish_rel c sc k x X : rel k x X -> rel (k + extra sc) (finish rnd (fs_div rnd) c sc x) (X / divisor c sc).
Proof.
  intros H. unfold finish, divisor, extra. destruct sc.
  - replace (X / 1) with X by field. revert H. apply rel_weak. lia.
  - replace (k + 2)%nat with (S (k + 1)) by lia. apply (rel_rnd u fmt rnd RD Hinv). apply (rel_div u fmt rnd RD); [exact H|]. apply (rel_rnd1 u fmt rnd RD Hinv).
  - replace (k + 1)%nat with (S (k + 0)) by lia. apply (rel_rnd u fmt rnd RD Hinv). apply (rel_div u fmt rnd RD); [exact H|]. apply (rel_0 u fmt rnd RD).
Qed.
Lemma dbl x : fmt x -> fs_mul rnd 2 x = 2 * x /\ fs_mul rnd (1 / 2) (fs_mul rnd 2 x) = x.
Proof.
  intros H. unfold fs_mul. rewrite (@Id (2 * x)) by (now apply Hdbl). split; [reflexivity|]. replace (1 / 2 * (2 * x)) with x by field. now apply Id.
Qed.
Definition weight (sd : sides) (N k : nat) : R := if unpaired sd N k then 1 else 2.

Section Welch.
Context {E : Type}.
Variables (spec : list R -> list E -> outcome (list cx)) (sd : sides) (c : config) (x : list E) (X : nat -> list cx).
Hypothesis U : usable c.
Hypothesis Hx : (length (c_window c) <= length x)%nat.
Let n := nsegments c (length x).
Hypothesis HX : forall i, (i < n)%nat -> spec (c_window c) (slice c x i) = Ok (X i) /\ length (X i) = nbins sd c.
Lemma psd_ok_fl i : (i < n)%nat -> fl_psd_segment rnd spec c x i = Ok (map (fs_norm rnd) (X i)).
Proof.
  intros Hi. destruct (segment_usable x U Hx Hi) as (Es & _). destruct (HX Hi) as (Ef & _). unfold fl_psd_segment. rewrite Es. cbn [bind]. rewrite Ef. cbn [bind]. now rewrite transform1_map.
Qed.
Definition power (k : nat) : R := bigop Rplus 0 (map (fun i => xnorm2 (nth k (X i) x0)) (seq 0 n)).
Lemma welch_rel sc r : fl_welch rnd spec sd c sc x r -> exists v, r = Ok v /\ length v = nbins sd c /\
  forall k, (k < nbins sd c)%nat -> rel (n + 3 + extra sc) (nth k v 0) (weight sd (length (c_window c)) k * (power k / INR n) / divisor c sc).
Proof.
  intros H. destruct H as [C|p _ H]; [now apply (x_ne U Hx) in C|]. pose proof (nseg_usable U Hx) as En. fold n in En.
  assert (n1 : (1 <= n)%nat) by (unfold n, nsegments; lia).
  destruct H as [m r Em C|Em]; [|congruence]. assert (m = Z.of_nat n) by congruence. subst m. clear Em.
  apply compute_order in C; [|intros; unfold fs_add; now rewrite Rplus_comm|intros i Hi; rewrite Nat2Z.id in Hi; exists (map (fs_norm rnd) (X i)); rewrite (psd_ok_fl Hi), map_length; split; [reflexivity|apply (HX Hi)]].
  destruct C as (order & PO & ->). cbn [bind]. rewrite Nat2Z.id in PO.
  set (S0 := fun k => bigop (fs_add rnd) 0 (map (fun i => nth k (seg (fl_psd_segment rnd spec c x) i) 0) order)).
  set (v := map (fun k => fs_div rnd (S0 k) (rnd (IZR (Z.of_nat n)))) (seq 0 (nbins sd c))).
  assert (Lv : length v = nbins sd c) by (unfold v; now rewrite map_length, seq_length).
  assert (Cv : forall k, (k < nbins sd c)%nat -> nth k v 0 = fs_div rnd (S0 k) (rnd (IZR (Z.of_nat n)))).
  { intros k Hk. unfold v. rewrite (nth_map_default _ _ 0 0%nat) by (now rewrite seq_length). now rewrite seq_nth. }
  assert (Lo : length order = n) by (apply Permutation_length in PO; now rewrite seq_length in PO).
  assert (In_o : forall i, In i order -> (i < n)%nat) by (intros i Hi; apply (Permutation_in _ PO) in Hi; apply in_seq in Hi; lia).
  assert (RS : forall k, (k < nbins sd c)%nat -> rel (n + 1) (S0 k) (power k)).
  { intros k Hk. destruct (@sum_rel (fun i => nth k (seg (fl_psd_segment rnd spec c x) i) 0) (fun i => xnorm2 (nth k (X i) x0)) 2 order) as (Q & _).
    - intros C. rewrite C in Lo. cbn in Lo. lia.
    - intros i Hi. apply In_o in Hi. unfold seg. rewrite (psd_ok_fl Hi). rewrite (nth_map_default _ _ 0 x0) by (rewrite (proj2 (HX Hi)); exact Hk). apply norm_rel.
    - fold (S0 k) in Q. rewrite (Rsum_perm _ PO) in Q. fold (power k) in Q. rewrite Lo in Q. revert Q. apply rel_weak. lia. }
  assert (Rv : forall k, (k < nbins sd c)%nat -> rel (n + 3) (nth k v 0) (power k / INR n)).
  { intros k Hk. rewrite (Cv k Hk). replace (n + 3)%nat with (S ((n + 1) + 1)) by lia. apply (rel_rnd u fmt rnd RD Hinv). apply (rel_div u fmt rnd RD); [now apply RS|].
    rewrite INR_IZR_INZ. apply (rel_rnd1 u fmt rnd RD Hinv). }
  destruct (@normalize_nth R rnd (fs_mul rnd) (fs_div rnd) c sc sd v 0 U Lv) as (w & Ew & Lw & Cw).
  { intros y Hy. apply dbl. unfold v in Hy. apply in_map_iff in Hy. destruct Hy as (k & <- & _). apply Fm. }
  exists w. split; [exact Ew|]. split; [exact Lw|]. intros k Hk. rewrite (Cw k Hk). apply finish_rel. unfold weight.
  destruct (unpaired sd (length (c_window c)) k).
  - rewrite Rmult_1_l. now apply Rv.
  - rewrite (proj1 (dbl (x := nth k v 0) ltac:(rewrite (Cv k Hk); apply Fm))). apply (rel_mul u fmt rnd RD 0); [apply (rel_0 u fmt rnd RD)|now apply Rv].
Qed.
End Welch.

(** ** cross spectra *)
Lemma acc0 k A B E x X : (A <= B) -> E <= 0 -> acc k A E x X -> acc k B 0 x X.
Proof. intros H1 H2 H. revert H. apply (acc_weak u fmt rnd RD); [lia|exact H1|exact H2]. Qed.
Lemma acc_quot j k x X A y Y : acc j A 0 x X -> rel k y Y -> acc (S (j + k)) (A / Rabs Y) 0 (rnd (x / y)) (X / Y).
Proof.
  intros H R. apply (acc_rnd u fmt rnd RD). pose proof (rel_inv u fmt rnd RD k y Y R) as Ri.
  pose proof (rel_acc u fmt rnd RD k (/ y) (/ Y) (Rabs (/ Y)) (Rle_refl _) Ri) as Ai. pose proof (acc_mul u fmt rnd RD j k _ _ _ _ _ _ _ _ H Ai) as Q. revert Q.
  apply acc0; [|lra]. apply Req_le. unfold Rdiv. destruct (Req_dec Y 0) as [->|NY]; [rewrite Rinv_0, Rabs_R0, Rinv_0; reflexivity|]. now rewrite Rabs_inv.
Qed.
Lemma sum_acc (f F A : nat -> R) j l : l <> [] -> (forall i, In i l -> acc j (A i) 0 (f i) (F i) /\ fmt (f i)) ->
  acc (j + (length l - 1)) (bigop Rplus 0 (map A l)) 0 (bigop (fs_add rnd) 0 (map f l)) (bigop Rplus 0 (map F l)) /\ fmt (bigop (fs_add rnd) 0 (map f l)).
Proof.
  intros N H. induction l as [|i l IH]; [contradiction|]. cbn [map bigop]. destruct (H i (or_introl eq_refl)) as (H1 & H2).
  destruct l as [|i2 l].
  - cbn [map bigop]. unfold fs_add. rewrite !Rplus_0_r, Id by exact H2. cbn [length]. replace (j + (1 - 1))%nat with j by lia. auto.
  - destruct (IH ltac:(discriminate) (fun i' Hi => H i' (or_intror Hi))) as (K1 & K2). split; [|apply Fm].
    set (s := bigop (fs_add rnd) 0 (map f (i2 :: l))) in *. set (S0 := bigop Rplus 0 (map F (i2 :: l))) in *. set (A0 := bigop Rplus 0 (map A (i2 :: l))) in *.
    replace (j + (length (i :: i2 :: l) - 1))%nat with (S (j + (length (i2 :: l) - 1))) by (cbn [length]; lia). apply (acc_rnd u fmt rnd RD).
    eapply acc0; [apply Rle_refl| |apply (acc_add u); [|exact K1]; apply (acc_weak u fmt rnd RD j _ (A i) (A i) 0 0); [lia|lra|lra|exact H1]]. lra.
Qed.
Lemma prod_acc a b : acc 1 (Rabs (a * b)) 0 (rnd (a * b)) (a * b).
Proof. apply (acc_rnd u fmt rnd RD). apply (acc_exact u fmt rnd RD). apply Rle_refl. Qed.
(** the two parts of conj(a) b *)
Definition cross (a b : cx) : cx := xmul (xconj a) b.
Definition mag_re (a b : cx) : R := Rabs (fst a * fst b) + Rabs (snd a * snd b).
Definition mag_im (a b : cx) : R := Rabs (fst a * snd b) + Rabs (snd a * fst b).
Lemma cross_acc a b : (acc 2 (mag_re a b) 0 (fst (fs_cmul rnd (xconj a) b)) (fst (cross a b)) /\ fmt (fst (fs_cmul rnd (xconj a) b))) /\
  (acc 2 (mag_im a b) 0 (snd (fs_cmul rnd (xconj a) b)) (snd (cross a b)) /\ fmt (snd (fs_cmul rnd (xconj a) b))).
Proof.
  destruct a as [a1 a2], b as [b1 b2]. unfold cross, xmul, xconj, fs_cmul, mag_re, mag_im. cbn [fst snd]. split; (split; [|apply Fm]).
  - apply (acc_rnd u fmt rnd RD). eapply acc0; [| |apply (acc_sub u); apply prod_acc]; [|lra]. apply Req_le. f_equal. rewrite <- Ropp_mult_distr_l. apply Rabs_Ropp.
  - apply (acc_rnd u fmt rnd RD). eapply acc0; [| |apply (acc_add u); apply prod_acc]; [|lra]. apply Req_le. f_equal. rewrite <- Ropp_mult_distr_l. apply Rabs_Ropp.
Qed.
Lemma fst_sum (f : nat -> cx) l : fst (bigop (fs_cadd rnd) x0 (map f l)) = bigop (fs_add rnd) 0 (map (fun i => fst (f i)) l).
Proof. induction l as [|i l IH]; [reflexivity|]. cbn [map bigop]. change (fst (fs_cadd rnd (f i) (bigop (fs_cadd rnd) x0 (map f l)))) with (fs_add rnd (fst (f i)) (fst (bigop (fs_cadd rnd) x0 (map f l)))). now rewrite IH. Qed.
Lemma snd_sum (f : nat -> cx) l : snd (bigop (fs_cadd rnd) x0 (map f l)) = bigop (fs_add rnd) 0 (map (fun i => snd (f i)) l).
Proof. induction l as [|i l IH]; [reflexivity|]. cbn [map bigop]. change (snd (fs_cadd rnd (f i) (bigop (fs_cadd rnd) x0 (map f l)))) with (fs_add rnd (snd (f i)) (snd (bigop (fs_cadd rnd) x0 (map f l)))). now rewrite IH. Qed.
Lemma finish_acc c sc k A x X : acc k A 0 x X -> acc (k + extra sc) (A / Rabs (divisor c sc)) 0 (finish rnd (fs_div rnd) c sc x) (X / divisor c sc).
Proof.
  intros H. unfold finish, divisor, extra. destruct sc.
  - rewrite Rabs_R1. replace (A / 1) with A by field. replace (X / 1) with X by field. now rewrite Nat.add_0_r.
  - replace (k + 2)%nat with (S (k + 1)) by lia. apply acc_quot; [exact H|]. apply (rel_rnd1 u fmt rnd RD Hinv).
  - replace (k + 1)%nat with (S (k + 0)) by lia. apply acc_quot; [exact H|]. apply (rel_0 u fmt rnd RD).
Qed.
Lemma finish_fst c sc z : fst (finish rnd (fs_cdiv rnd) c sc z) = finish rnd (fs_div rnd) c sc (fst z). Proof. now destruct sc. Qed.
Lemma finish_snd c sc z : snd (finish rnd (fs_cdiv rnd) c sc z) = finish rnd (fs_div rnd) c sc (snd z). Proof. now destruct sc. Qed.
Lemma weight_acc sd N k j A x X : fmt x -> acc j A 0 x X ->
  acc j (weight sd N k * A) 0 (if unpaired sd N k then x else fs_mul rnd 2 x) (weight sd N k * X).
Proof.
  intros F H. unfold weight. destruct (unpaired sd N k); [now rewrite !Rmult_1_l|]. rewrite (proj1 (dbl F)).
  pose proof (acc_scale u fmt rnd RD j A 0 2 x X H) as Q. revert Q. apply acc0; [rewrite Rabs_pos_eq by lra; lra|lra].
Qed.
Section Csd.
Context {E1 E2 : Type}.
Variables (zero1 : E1) (zero2 : E2) (spec1 : list R -> list E1 -> outcome (list cx)) (spec2 : list R -> list E2 -> outcome (list cx)) (sd : sides) (c : config)
  (x : list E1) (y : list E2) (X Y : nat -> list cx).
Hypothesis U : usable c.
Hypothesis Hx : (length (c_window c) <= length x)%nat.
Hypothesis Hxy : length x = length y.
Let n := nsegments c (length x).
Hypothesis HX : forall i, (i < n)%nat -> spec1 (c_window c) (slice c x i) = Ok (X i) /\ length (X i) = nbins sd c.
Hypothesis HY : forall i, (i < n)%nat -> spec2 (c_window c) (slice c y i) = Ok (Y i) /\ length (Y i) = nbins sd c.
Definition bin2 (i k : nat) (P : cx -> cx -> R) : R := P (nth k (X i) x0) (nth k (Y i) x0).
Lemma csd_ok_fl i : (i < n)%nat -> exists z, fl_csd_segment rnd spec1 spec2 c x y i = Ok z /\ length z = nbins sd c /\
  forall k, (k < nbins sd c)%nat -> nth k z x0 = fs_cmul rnd (xconj (nth k (X i) x0)) (nth k (Y i) x0).
Proof.
  intros Hi. destruct (segment_usable x U Hx Hi) as (Es & _). destruct (segment_usable y U ltac:(now rewrite <- Hxy) ltac:(rewrite <- Hxy; exact Hi)) as (Et & _).
  destruct (HX Hi) as (Ef & Lx). destruct (HY Hi) as (Eg & Ly). unfold fl_csd_segment. rewrite Es, Et. cbn [bind]. rewrite Ef, Eg. cbn [bind]. rewrite transform1_map.
  rewrite map2_ok by (rewrite map_length; congruence). eexists. split; [reflexivity|]. split; [rewrite map_length, combine_length, map_length; lia|].
  intros k Hk. rewrite (nth_map_default _ _ x0 (xconj x0, x0)) by (rewrite combine_length, map_length; lia). rewrite combine_nth by (rewrite map_length; congruence). cbn [fst snd].
  now rewrite map_nth.
Qed.
Definition csum (P : cx -> cx -> R) (k : nat) : R := bigop Rplus 0 (map (fun i => P (nth k (X i) x0) (nth k (Y i) x0)) (seq 0 n)).
Lemma csd_acc sc r : fl_csd rnd zero1 zero2 spec1 spec2 sd c sc x y r -> exists v, r = Ok v /\ length v = nbins sd c /\
  forall k, (k < nbins sd c)%nat ->
    acc (n + 3 + extra sc) (weight sd (length (c_window c)) k * (csum mag_re k / INR n) / Rabs (divisor c sc)) 0 (fst (nth k v x0))
        (weight sd (length (c_window c)) k * (csum (fun a b => fst (cross a b)) k / INR n) / divisor c sc) /\
    acc (n + 3 + extra sc) (weight sd (length (c_window c)) k * (csum mag_im k / INR n) / Rabs (divisor c sc)) 0 (snd (nth k v x0))
        (weight sd (length (c_window c)) k * (csum (fun a b => snd (cross a b)) k / INR n) / divisor c sc).
Proof.
  intros H. assert (Nx : x <> []) by exact (x_ne U Hx). assert (Ny : y <> []) by (apply (x_ne U); now rewrite <- Hxy).
  destruct H as [[C|C]|r' _ _ _ H|y' r' _ _ L _ _|x' r' _ _ L _ _]; [contradiction|contradiction| |lia|lia]. destruct H as [p H].
  pose proof (nseg_usable U Hx) as En. fold n in En. assert (n1 : (1 <= n)%nat) by (unfold n, nsegments; lia).
  destruct H as [C|m r Lxy Em C|Lxy Em]; [contradiction| |congruence]. assert (m = Z.of_nat n) by congruence. subst m. clear Em.
  apply compute_order in C; [|intros [] []; unfold fs_cadd; cbn [fst snd]; f_equal; f_equal; apply Rplus_comm|
    intros i Hi; rewrite Nat2Z.id in Hi; destruct (csd_ok_fl Hi) as (z & Ez & Lz & _); exists z; auto].
  destruct C as (order & PO & ->). cbn [bind]. rewrite Nat2Z.id in PO.
  set (S0 := fun k => bigop (fs_cadd rnd) x0 (map (fun i => nth k (seg (fl_csd_segment rnd spec1 spec2 c x y) i) x0) order)).
  set (v := map (fun k => fs_cdiv rnd (S0 k) (rnd (IZR (Z.of_nat n)))) (seq 0 (nbins sd c))).
  assert (Lv : length v = nbins sd c) by (unfold v; now rewrite map_length, seq_length).
  assert (Cv : forall k, (k < nbins sd c)%nat -> nth k v x0 = fs_cdiv rnd (S0 k) (rnd (IZR (Z.of_nat n)))).
  { intros k Hk. unfold v. rewrite (nth_map_default _ _ x0 0%nat) by (now rewrite seq_length). now rewrite seq_nth. }
  assert (Lo : length order = n) by (apply Permutation_length in PO; now rewrite seq_length in PO).
  assert (No : order <> []) by (intros C; rewrite C in Lo; cbn in Lo; lia).
  assert (In_o : forall i, In i order -> (i < n)%nat) by (intros i Hi; apply (Permutation_in _ PO) in Hi; apply in_seq in Hi; lia).
  assert (SE : forall k i, (k < nbins sd c)%nat -> In i order -> nth k (seg (fl_csd_segment rnd spec1 spec2 c x y) i) x0 = fs_cmul rnd (xconj (nth k (X i) x0)) (nth k (Y i) x0)).
  { intros k i Hk Hi. destruct (csd_ok_fl (In_o i Hi)) as (z & Ez & _ & Cz). unfold seg. rewrite Ez. now apply Cz. }
  assert (RN : rel 1 (rnd (IZR (Z.of_nat n))) (INR n)) by (rewrite INR_IZR_INZ; apply (rel_rnd1 u fmt rnd RD Hinv)).
  assert (PN : Rabs (INR n) = INR n) by (apply Rabs_pos_eq, pos_INR).
  assert (RV1 : forall k, (k < nbins sd c)%nat -> acc (n + 3) (csum mag_re k / INR n) 0 (fst (nth k v x0)) (csum (fun a b => fst (cross a b)) k / INR n)).
  { intros k Hk. rewrite (Cv k Hk). cbn [fs_cdiv fst]. unfold S0. rewrite fst_sum.
    destruct (@sum_acc (fun i => fst (nth k (seg (fl_csd_segment rnd spec1 spec2 c x y) i) x0)) (fun i => fst (cross (nth k (X i) x0) (nth k (Y i) x0)))
      (fun i => mag_re (nth k (X i) x0) (nth k (Y i) x0)) 2 order No) as (Q & _).
    { intros i Hi. rewrite (SE k i Hk Hi). apply cross_acc. }
    rewrite !(Rsum_perm _ PO) in Q. rewrite Lo in Q. pose proof (acc_quot Q RN) as W. rewrite PN in W. revert W. apply (acc_weak u fmt rnd RD); [lia|apply Rle_refl|lra]. }
  assert (RV2 : forall k, (k < nbins sd c)%nat -> acc (n + 3) (csum mag_im k / INR n) 0 (snd (nth k v x0)) (csum (fun a b => snd (cross a b)) k / INR n)).
  { intros k Hk. rewrite (Cv k Hk). cbn [fs_cdiv snd]. unfold S0. rewrite snd_sum.
    destruct (@sum_acc (fun i => snd (nth k (seg (fl_csd_segment rnd spec1 spec2 c x y) i) x0)) (fun i => snd (cross (nth k (X i) x0) (nth k (Y i) x0)))
      (fun i => mag_im (nth k (X i) x0) (nth k (Y i) x0)) 2 order No) as (Q & _).
    { intros i Hi. rewrite (SE k i Hk Hi). apply cross_acc. }
    rewrite !(Rsum_perm _ PO) in Q. rewrite Lo in Q. pose proof (acc_quot Q RN) as W. rewrite PN in W. revert W. apply (acc_weak u fmt rnd RD); [lia|apply Rle_refl|lra]. }
  assert (FV : forall k, (k < nbins sd c)%nat -> fmt (fst (nth k v x0)) /\ fmt (snd (nth k v x0))) by (intros k Hk; rewrite (Cv k Hk); split; apply Fm).
  destruct (@normalize_nth cx rnd (fs_cscale rnd) (fs_cdiv rnd) c sc sd v x0 U Lv) as (w & Ew & Lw & Cw).
  { intros z Hz. destruct (In_nth v z x0 Hz) as (k & Hk & <-). rewrite Lv in Hk. destruct (FV k Hk) as (F1 & F2). destruct (nth k v x0) as [p q]. cbn [fst snd] in F1, F2.
    unfold fs_cscale. cbn [fst snd]. f_equal; [apply (dbl F1)|apply (dbl F2)]. }
  exists w. split; [exact Ew|]. split; [exact Lw|]. intros k Hk. rewrite (Cw k Hk). destruct (FV k Hk) as (F1 & F2).
  rewrite finish_fst, finish_snd. split; apply finish_acc.
  - pose proof (weight_acc sd (length (c_window c)) k F1 (RV1 k Hk)) as Q. destruct (unpaired sd (length (c_window c)) k); exact Q.
  - pose proof (weight_acc sd (length (c_window c)) k F2 (RV2 k Hk)) as Q. destruct (unpaired sd (length (c_window c)) k); exact Q.
Qed.
End Csd.
End Err.
