(** More about FloatSpectral.v: which results the schedules give; coherence and transfer function of a signal with itself. *)
From Coq Require Import ZArith Reals Permutation.
From Verif Require Import Base Functional FunctionalProofs Numeric CplxR Polynomial Fft FftConv FftFacts Spec NumericProofs SpectralConc SpectralConcFacts Spectral FloatSpectral
  FloatSpectralFacts FloatSpectralErr SchedFacts FloatArithFacts FloatVarFacts FloatWindowsFacts.
From Coq Require Import Lra Lia Psatz.
Open Scope nat_scope.
Set Implicit Arguments.

(** additions in the order of the list *)
Definition rsum_from (rnd : R -> R) (s : R) (l : list R) : R := fold_left (fun a x => rnd (a + x)%R) l s.
Lemma bigop_rsum rnd l : bigop (fs_add rnd) 0%R l = rsum_from rnd 0 (rev l).
Proof.
  induction l as [|a l IH]; [reflexivity|]. cbn [bigop rev]. unfold rsum_from. rewrite fold_left_app. cbn [fold_left]. fold (rsum_from rnd 0 (rev l)). rewrite <- IH.
  unfold fs_add. now rewrite Rplus_comm.
Qed.
Section Orders.
Variable rnd : R -> R.
Context {E : Type}.
Variables (spec : list R -> list E -> outcome (list cx)) (sd : sides) (c : config) (x : list E) (X : nat -> list cx).
Hypothesis U : usable c.
Hypothesis Hx : length (c_window c) <= length x.
Let n := nsegments c (length x).
Hypothesis HX : forall i, i < n -> spec (c_window c) (slice c x i) = Ok (X i) /\ length (X i) = nbins sd c.
(** the averages, when the segments are added in this order *)
Definition averages (order : list nat) : list R :=
  map (fun k => rnd (rsum_from rnd 0 (map (fun i => fs_norm rnd (nth k (X i) x0)) order) / rnd (INR n))%R) (seq 0 (nbins sd c)).
Lemma psd_seg i k : i < n -> k < nbins sd c -> nth k (seg (fl_psd_segment rnd spec c x) i) 0%R = fs_norm rnd (nth k (X i) x0).
Proof.
  intros Hi Hk. unfold seg. rewrite (@psd_ok_fl rnd _ spec sd c x X U Hx HX i Hi). apply nth_map_default. now rewrite (proj2 (HX Hi)).
Qed.
Lemma avg_eq order : (forall i, In i order -> i < n) ->
  map (fun k => fs_div rnd (bigop (fs_add rnd) 0%R (map (fun i => nth k (seg (fl_psd_segment rnd spec c x) i) 0%R) order)) (rnd (IZR (Z.of_nat n)))) (seq 0 (nbins sd c)) = averages (rev order).
Proof.
  intros H. unfold averages. apply map_ext_in. intros k Hk. apply in_seq in Hk. rewrite bigop_rsum, INR_IZR_INZ. unfold fs_div. f_equal. f_equal. f_equal. rewrite <- map_rev.
  apply map_ext_in. intros i Hi. apply psd_seg; [|lia]. apply H. now apply in_rev.
Qed.
Lemma psd_ok_all i : i < n -> exists v, fl_psd_segment rnd spec c x i = Ok v /\ length v = nbins sd c.
Proof. intros Hi. exists (map (fs_norm rnd) (X i)). rewrite (@psd_ok_fl rnd _ spec sd c x X U Hx HX i Hi), map_length. split; [reflexivity|apply (HX Hi)]. Qed.
Lemma welch_some_order sc r : fl_welch rnd spec sd c sc x r -> exists order, Permutation order (seq 0 n) /\ r = fl_normalize rnd (fs_mul rnd) (fs_div rnd) c sc sd (averages order).
Proof.
  intros H. destruct H as [C|p _ H]; [now apply (x_ne U Hx) in C|]. pose proof (nseg_usable U Hx) as En. fold n in En.
  destruct H as [m r Em C|Em]; [|congruence]. assert (m = Z.of_nat n) by congruence. subst m.
  apply compute_order in C; [|intros; unfold fs_add; now rewrite Rplus_comm|rewrite Nat2Z.id; exact psd_ok_all].
  destruct C as (order & PO & ->). rewrite Nat2Z.id in PO. exists (rev order). split; [now rewrite <- Permutation_rev|]. cbn [bind]. f_equal. apply avg_eq.
  intros i Hi. apply (Permutation_in _ PO) in Hi. apply in_seq in Hi. lia.
Qed.
Lemma welch_all_orders sc order : c_nthreads c = n -> 2 <= n -> Permutation order (seq 0 n) ->
  fl_welch rnd spec sd c sc x (fl_normalize rnd (fs_mul rnd) (fs_div rnd) c sc sd (averages order)).
Proof.
  intros Hn H2 PO. change (fl_normalize rnd (fs_mul rnd) (fs_div rnd) c sc sd (averages order)) with (do v <- Ok (averages order); fl_normalize rnd (fs_mul rnd) (fs_div rnd) c sc sd v).
  apply fw_run; [exact (x_ne U Hx)|]. eapply fwi_run; [apply (nseg_usable U Hx)|]. fold n.
  assert (PR : Permutation (rev order) (seq 0 n)) by (now rewrite <- Permutation_rev).
  destruct (every_order 0%R (fs_add rnd) ltac:(intros; unfold fs_add; now rewrite Rplus_comm) n (nbins sd c) (fl_psd_segment rnd spec c x) psd_ok_all ltac:(lia) (rev order) PR) as (s & R & M & F & Es).
  rewrite <- (rev_involutive order), <- avg_eq.
  - replace (map _ (seq 0 (nbins sd c))) with (transform1 (fun v => fs_div rnd v (rnd (IZR (Z.of_nat n)))) (res s)).
    + apply (@cs_threads _ 0%R (fs_add rnd) (fun v n => fs_div rnd v (rnd (IZR n))) (c_nthreads c) (nbins sd c) (Z.of_nat n) (fl_psd_segment rnd spec c x) s); [lia|lia| |exact M|exact F]. rewrite Hn, Nat2Z.id. exact R.
    + rewrite Es, transform1_map. unfold vsum. now rewrite map_map.
  - intros i Hi. apply in_rev in Hi. apply (Permutation_in _ PO) in Hi. apply in_seq in Hi. lia.
Qed.
End Orders.
Lemma welch_det rnd {E} (spec : list R -> list E -> outcome (list cx)) sd c sc x r r' : c_nthreads c <= 1 -> fl_welch rnd spec sd c sc x r -> fl_welch rnd spec sd c sc x r' -> r = r'.
Proof.
  intros Hn [Hx|p Nx H] [Hx'|p' Nx' H']; try reflexivity; try contradiction. f_equal.
  destruct H as [m r1 Em C|Em], H' as [m' r1' Em' C'|Em']; try congruence; assert (m = m') by congruence; subst m'.
  destruct C as [r2 _ <-|s H _ _ _ _|s H _ _ _], C' as [r2' _ <-|s' H' _ _ _ _|s' H' _ _ _]; try lia. reflexivity.
Qed.

Section Ratios.
Variables (u : R) (fmt : R -> Prop) (rnd : R -> R).
Hypothesis RD : rounding u 0 fmt rnd.
Hypothesis Hinv : forall x, (Rabs (rnd x - x) <= u * Rabs (rnd x))%R.
Hypothesis Hdbl : forall x, fmt x -> fmt (2 * x)%R.
Hypothesis F1 : fmt 1%R.
Hypothesis odd : forall x, rnd (- x) = (- rnd x)%R.
Context {E : Type}.
Variables (zero : E) (spec : list R -> list E -> outcome (list cx)) (sd : sides) (c : config) (x : list E) (X : nat -> list cx).
Hypothesis U : usable c.
Hypothesis Hx : length (c_window c) <= length x.
Let n := nsegments c (length x).
Hypothesis HX : forall i, i < n -> spec (c_window c) (slice c x i) = Ok (X i) /\ length (X i) = nbins sd c.
Notation rel := (rel u).
Notation W k := (weight sd (length (c_window c)) k * (power c x X k / INR n) / 1)%R.
Lemma three v1 v2 v3 : fl_csd rnd zero zero spec spec sd c NONE x x v1 -> fl_welch rnd spec sd c NONE x v2 -> fl_welch rnd spec sd c NONE x v3 ->
  exists a b d, v1 = Ok (map (fun p => (p, 0)%R) a) /\ v2 = Ok b /\ v3 = Ok d /\ length a = nbins sd c /\ length b = nbins sd c /\ length d = nbins sd c /\
    (forall k, k < nbins sd c -> rel (n + 3) (nth k a 0%R) (W k) /\ rel (n + 3) (nth k b 0%R) (W k) /\ rel (n + 3) (nth k d 0%R) (W k)) /\
    (c_nthreads c <= 1 -> a = b /\ b = d).
Proof.
  intros H1 H2 H3. apply csd_self in H1; [|exact odd]. destruct H1 as (p & Hp & ->).
  destruct (welch_rel RD Hinv Hdbl X U Hx HX Hp) as (a & -> & La & Ra). destruct (welch_rel RD Hinv Hdbl X U Hx HX H2) as (b & -> & Lb & Rb).
  destruct (welch_rel RD Hinv Hdbl X U Hx HX H3) as (d & -> & Ld & Rd). exists a, b, d. repeat (split; [reflexivity || assumption|]). split.
  - intros k Hk. specialize (Ra k Hk). specialize (Rb k Hk). specialize (Rd k Hk). cbn [extra] in *. rewrite Nat.add_0_r in *. auto.
  - intros Hn. split; [pose proof (welch_det Hn Hp H2)|pose proof (welch_det Hn H2 H3)]; congruence.
Qed.
Lemma map2_ok_nth {A B C} (op : A -> B -> C) a b d1 d2 d3 : length a = length b -> exists r, map2 op a b = Ok r /\ length r = length a /\
  forall k, k < length a -> nth k r d3 = op (nth k a d1) (nth k b d2).
Proof.
  intros L. rewrite map2_ok by exact L. eexists. split; [reflexivity|]. split; [rewrite map_length, combine_length; lia|]. intros k Hk.
  rewrite (nth_map_default _ _ d3 (d1, d2)) by (rewrite combine_length; lia). now rewrite combine_nth.
Qed.
Lemma W_pos k i : i < n -> nth k (X i) x0 <> x0 -> (0 < W k)%R.
Proof.
  intros Hi Hz. assert (P : (0 < power c x X k)%R).
  { unfold power. fold n. assert (In i (seq 0 n)) as Hin by (apply in_seq; lia). revert Hin. generalize (seq 0 n). induction l as [|j l IH]; intros [].
    - subst j. cbn [map bigop]. assert (0 <= bigop Rplus 0 (map (fun i => xnorm2 (nth k (X i) x0)) l))%R.
      { clear. induction l; cbn [map bigop]; [lra|]. unfold xnorm2 at 1. nra. }
      assert (0 < xnorm2 (nth k (X i) x0))%R; [|lra]. destruct (Req_dec (xnorm2 (nth k (X i) x0)) 0) as [Z|Z]; [now apply xnorm2_zero in Z|]. unfold xnorm2 in *. nra.
    - cbn [map bigop]. specialize (IH H). unfold xnorm2 at 1. nra. }
  assert (0 < INR n)%R by (apply lt_0_INR; lia). unfold weight. unfold Rdiv at 1. rewrite Rinv_1, Rmult_1_r. apply Rmult_lt_0_compat; [destruct (unpaired _ _ _); lra|].
  now apply Rdiv_lt_0_compat.
Qed.
Lemma rel_ne k a A : (0 < A)%R -> rel k a A -> a <> 0%R.
Proof. intros HA (r & [R1 R2] & ->). pose proof (gi u fmt rnd RD k). assert (0 < A * r)%R by (apply Rmult_lt_0_compat; lra). lra. Qed.
Lemma coherence_self r : fl_coherence rnd zero spec sd c x x r -> exists v, r = Ok v /\ length v = nbins sd c /\ forall k i, k < nbins sd c -> i < n -> nth k (X i) x0 <> x0 ->
  rel (4 * n + 15) (nth k v 0%R) 1 /\ (c_nthreads c <= 1 -> rel 3 (nth k v 0%R) 1).
Proof.
  intros [C|v1 v2 v3 _ H1 H2 H3]; [contradiction|]. destruct (three H1 H2 H3) as (a & b & d & -> & -> & -> & La & Lb & Ld & HR & HD). cbn [bind].
  rewrite map_length, La, Lb, Ld, Nat.eqb_refl. cbn [require]. rewrite transform1_map, map_map.
  destruct (@map2_ok_nth _ _ _ (fs_div rnd) (map (fun p => fs_norm rnd (p, 0%R)) a) b (fs_norm rnd (0%R, 0%R)) 0%R 0%R) as (q & Eq & Lq & Cq); [rewrite map_length; congruence|].
  rewrite Eq. cbn [bind]. rewrite map_length in *. destruct (@map2_ok_nth _ _ _ (fs_div rnd) q d 0%R 0%R 0%R) as (v & Ev & Lv & Cv); [congruence|].
  exists v. split; [exact Ev|]. split; [congruence|]. intros k i Hk Hi Hz. pose proof (W_pos k Hi Hz) as PW. destruct (HR k Hk) as (Ra & Rb & Rd). set (w := W k) in *. clearbody w.
  rewrite Cv, Cq by (rewrite ?Lq, La; exact Hk). rewrite (map_nth (fun p => fs_norm rnd (p, 0%R))).
  assert (EN : fs_norm rnd (nth k a 0%R, 0%R) = rnd (nth k a 0 * nth k a 0)%R).
  { unfold fs_norm. cbn [fst snd]. rewrite Rmult_0_r, (rd_id _ _ _ _ RD 0%R (rd_0 _ _ _ _ RD)), Rplus_0_r. apply (rd_id _ _ _ _ RD), (rd_fmt _ _ _ _ RD). }
  rewrite EN. unfold fs_div. pose proof (rel_ne PW Ra) as Na. pose proof (rel_ne PW Rb) as Nb. pose proof (rel_ne PW Rd) as Nd. split.
  - replace 1%R with (w * w / w / w)%R by (field; lra). replace (4 * n + 15) with (S (S (S ((n + 3) + (n + 3)) + (n + 3)) + (n + 3))) by lia.
    apply (rel_rnd u fmt rnd RD Hinv). apply (rel_div u fmt rnd RD); [|exact Rd]. apply (rel_rnd u fmt rnd RD Hinv). apply (rel_div u fmt rnd RD); [|exact Rb].
    apply (rel_rnd u fmt rnd RD Hinv). now apply (rel_mul u fmt rnd RD).
  - intros Hn. destruct (HD Hn) as (<- & <-). set (p := nth k a 0%R) in *. replace 1%R with (p * p / p / p)%R by (field; exact Na).
    replace 3 with (S (2 + 0)) by lia. apply (rel_rnd u fmt rnd RD Hinv). apply (rel_div u fmt rnd RD); [|apply (rel_0 u fmt rnd RD)]. replace 2 with (S (1 + 0)) by lia.
    apply (rel_rnd u fmt rnd RD Hinv). apply (rel_div u fmt rnd RD); [|apply (rel_0 u fmt rnd RD)]. apply (rel_rnd1 u fmt rnd RD Hinv).
Qed.
Lemma tfestimate_self r : fl_tfestimate rnd zero spec sd c x x r -> exists v, r = Ok v /\ length v = nbins sd c /\ forall k i, k < nbins sd c -> i < n -> nth k (X i) x0 <> x0 ->
  rel (2 * n + 7) (fst (nth k v x0)) 1 /\ snd (nth k v x0) = 0%R /\ (c_nthreads c <= 1 -> nth k v x0 = (1, 0)%R).
Proof.
  intros [C|v1 v2 _ H1 H2]; [contradiction|]. destruct (three H1 H2 H2) as (a & b & d & -> & -> & _ & La & Lb & _ & HR & HD). cbn [bind].
  destruct (@map2_ok_nth cx R cx (fs_cdiv rnd) (@map R cx (fun p => (p, 0%R)) a) b x0 0%R x0) as (v & Ev & Lv & Cv); [rewrite map_length; congruence|].
  rewrite map_length in *. exists v. split; [exact Ev|]. split; [congruence|]. intros k i Hk Hi Hz. pose proof (W_pos k Hi Hz) as PW. destruct (HR k Hk) as (Ra & Rb & _). set (w := W k) in *. clearbody w.
  rewrite Cv by (rewrite La; exact Hk). assert (EN : @nth cx k (@map R cx (fun p => (p, 0%R)) a) x0 = (nth k a 0%R, 0%R)) by (apply (@nth_map_default R cx (fun p => (p, 0%R))); rewrite La; exact Hk). rewrite EN.
  pose proof (rel_ne PW Ra) as Na. pose proof (rel_ne PW Rb) as Nb.
  assert (Z : forall k, rnd (0 / k) = 0%R) by (intros; unfold Rdiv; rewrite Rmult_0_l; apply (rd_id _ _ _ _ RD), (rd_0 _ _ _ _ RD)). split; [|split].
  - unfold fs_cdiv. cbn [fst]. replace 1%R with (w / w)%R by (field; lra). replace (2 * n + 7) with (S ((n + 3) + (n + 3))) by lia. apply (rel_rnd u fmt rnd RD Hinv). now apply (rel_div u fmt rnd RD).
  - unfold fs_cdiv. cbn [snd]. apply Z.
  - intros Hn. destruct (HD Hn) as (<- & _). unfold fs_cdiv. cbn [fst snd]. rewrite Z. f_equal. unfold Rdiv. rewrite Rinv_r by exact Na. now apply (rd_id _ _ _ _ RD).
Qed.
End Ratios.
