(** Invariants of the Spectrum objects; independence of the number of threads. *)
From Coq Require Import ZArith Reals.
From Verif Require Import Base Functional FunctionalProofs Numeric NumericProofs Stats Spec SumLib CplxR Polynomial Fft FftFacts FftConv FftConvFacts Windows WindowsFacts WindowsReal WindowsRange SpectralConc SpectralConcFacts Spectral SpectralSpec SpectralFacts SpectralFacts2.
From Coq Require Import Lra Psatz.
Open Scope nat_scope.

Record consistent (c : config) : Prop := {
  k_nperseg : c_nperseg c = Z.of_nat (length (c_window c));
  k_overlap : (c_noverlap c <= c_nperseg c)%Z;
  k_dflt : c_dflt c = true -> c_noverlap c = Z.quot (c_nperseg c) 2;
  k_s1 : c_s1 c = (bigop Rplus 0 (c_window c) * bigop Rplus 0 (c_window c))%R;
  k_s2 : c_s2 c = bigop Rplus 0%R (map (fun x => x * x)%R (c_window c)) }.
Lemma quot2_le z : (0 <= z -> Z.quot z 2 <= z)%Z.
Proof. intros H. rewrite Z.quot_div_nonneg by lia. apply Z.div_le_upper_bound; lia. Qed.
Lemma set_noverlap_consistent n c c' : consistent c -> set_noverlap n c = Ok c' -> consistent c'.
Proof.
  intros [K1 K2 K3 K4 K5] H. unfold set_noverlap in H. destruct (n <=? c_nperseg c)%Z eqn:E; [|discriminate]. cbn [require] in H. injection H as <-.
  apply Z.leb_le in E. constructor; cbn; auto. discriminate.
Qed.
Lemma set_window_consistent w c c' : set_window w c = Ok c' -> consistent c'.
Proof.
  unfold set_window, set_parameters. cbn [c_window c_s1 c_s2 c_nperseg c_dflt c_noverlap c_fs c_nthreads]. intros H.
  match type of H with require ?b _ = _ => destruct b eqn:E; [|discriminate] end. cbn [require] in H. injection H as <-. apply Z.leb_le in E.
  constructor; cbn [c_window c_s1 c_s2 c_nperseg c_dflt c_noverlap]; auto; [|apply s1_bigop|apply s2_bigop]. now intros ->.
Qed.
Lemma configured_consistent I0 c : configured I0 c -> consistent c.
Proof.
  induction 1 as [c H|c fs c' _ IH H|c n c' _ IH H|c n c' _ IH H|c w c' _ IH H|c win N c' _ IH H|c sc x c' r _ IH H].
  - unfold default_config in H. match type of H with context [window ?a ?b ?c ?d] => destruct (window a b c d) as [w| | |] end; try discriminate. cbn [bind] in H. injection H as <-.
    constructor; cbn [c_window c_s1 c_s2 c_nperseg c_dflt c_noverlap]; auto; [apply quot2_le; lia|apply s1_bigop|apply s2_bigop].
  - injection H as <-. destruct IH. constructor; assumption.
  - eapply set_noverlap_consistent; eassumption.
  - injection H as <-. destruct IH. constructor; assumption.
  - eapply set_window_consistent; eassumption.
  - unfold set_get_window in H. destruct (get_window (rops I0) win N); try discriminate. cbn [bind] in H. eapply set_window_consistent; eassumption.
  - inversion H as [| |c1 r1 L E W EQ]. destruct r1 as [v| | |]; try discriminate. cbn [bind] in *. injection EQ as <- <-. eapply set_noverlap_consistent; eassumption.
Qed.
Lemma consistent_valid c : consistent c -> c_window c <> [] -> (c_noverlap c < c_nperseg c)%Z -> valid c.
Proof. intros [K1 K2 K3 K4 K5] H1 H2. constructor; assumption. Qed.

Lemma nseg_threads c n len : nseg (with_threads n c) len = nseg c len.
Proof. reflexivity. Qed.
Section Thr.
Context {E : Type}.
Variables (zeroE : E) (emb : E -> cx) (spec : list R -> list E -> outcome (list cx)) (nbins : nat -> nat).
Hypothesis spec_ok : forall w seg, length seg = length w -> w <> [] -> spec w seg = Ok (map (bin w (fun k => emb (nth k seg zeroE))) (seq 0 (nbins (length w)))).

(** nseg for any length: at most 1 for a signal shorter than the window *)
Lemma nseg_short c n z : valid c -> n < length (c_window c) -> nseg c n = Ok z -> (z <= 1)%Z.
Proof.
  intros V H. unfold nseg. rewrite (nstep_of c V). pose proof (step_pos c V). destruct (Z.eqb_spec (Z.of_nat (step_of c)) 0); [lia|]. rewrite (v_nperseg c V). set (q := Z.quot _ _). intros Ez.
  assert (q <= 0)%Z; [|assert (z = 1 + q)%Z by congruence; lia]. unfold q.
  replace (Z.of_nat n - Z.of_nat (length (c_window c)))%Z with (- (Z.of_nat (length (c_window c)) - Z.of_nat n))%Z by lia.
  rewrite Z.quot_opp_l by lia. assert (0 <= Z.quot (Z.of_nat (length (c_window c)) - Z.of_nat n) (Z.of_nat (step_of c)))%Z by (apply Z.quot_pos; lia). lia.
Qed.
Lemma welch_impl_threads c x n m r : valid c -> welch_impl spec (with_threads n c) (nbins (length (c_window c))) x r ->
  welch_impl spec (with_threads m c) (nbins (length (c_window c))) x r.
Proof.
  intros V [z r' E1 C|E1]; [|now apply wi_ub]. eapply wi_run; [exact E1|].
  change (psd_segment spec (with_threads n c) x) with (psd_segment spec c x) in C. change (psd_segment spec (with_threads m c) x) with (psd_segment spec c x).
  change (c_nthreads (with_threads n c)) with n in C. change (c_nthreads (with_threads m c)) with m. rewrite nseg_threads in E1.
  assert (D : z = 1%Z \/ forall i, i < Z.to_nat z -> exists v, psd_segment spec c x i = Ok v /\ length v = nbins (length (c_window c))).
  { destruct (Nat.lt_ge_cases (length x) (length (c_window c))) as [L|L].
    - pose proof (nseg_short c (length x) z V L E1). destruct (Z.eq_dec z 1); [now left|right; intros i Hi; lia].
    - rewrite (nseg_ok c _ V L) in E1. assert (Ez : z = Z.of_nat (nsegs c (length x))) by congruence. right. intros i Hi. rewrite Ez, Nat2Z.id in Hi. eexists. split; [eapply psd_segment_ok; eassumption|].
      now rewrite map_length, seq_length. }
  destruct D as [->|D].
  - inversion C as [r1 _ S|s L1 L2|s L1 L2]; [|congruence|congruence]. apply cs_sequential; [now right|assumption].
  - apply (compute_spectrum_spec 0%R Rplus _ ltac:(intros; ring) ltac:(intros; ring) ltac:(intros; ring) _ _ _ _ _ D) in C.
    now apply (compute_spectrum_spec 0%R Rplus _ ltac:(intros; ring) ltac:(intros; ring) ltac:(intros; ring) _ _ _ _ _ D).
Qed.
Lemma xadd_assoc x y z : xadd x (xadd y z) = xadd (xadd x y) z. Proof. ring. Qed.
Lemma xadd_comm' x y : xadd x y = xadd y x. Proof. ring. Qed.
Lemma xadd_0_l' x : xadd x0 x = x. Proof. ring. Qed.
Lemma welch2_impl_threads c x y n m r : valid c -> welch2_impl spec (with_threads n c) (nbins (length (c_window c))) x y r ->
  welch2_impl spec (with_threads m c) (nbins (length (c_window c))) x y r.
Proof.
  intros V [L|z r' L E1 C|L E1]; [now apply w2_require| |now apply w2_ub]. eapply w2_run; [exact L|exact E1|].
  change (csd_segment spec (with_threads n c) x y) with (csd_segment spec c x y) in C. change (csd_segment spec (with_threads m c) x y) with (csd_segment spec c x y).
  change (c_nthreads (with_threads n c)) with n in C. change (c_nthreads (with_threads m c)) with m. rewrite nseg_threads in E1.
  assert (D : z = 1%Z \/ forall i, i < Z.to_nat z -> exists v, csd_segment spec c x y i = Ok v /\ length v = nbins (length (c_window c))).
  { destruct (Nat.lt_ge_cases (length x) (length (c_window c))) as [Lx|Lx].
    - pose proof (nseg_short c (length x) z V Lx E1). destruct (Z.eq_dec z 1); [now left|right; intros i Hi; lia].
    - rewrite (nseg_ok c _ V Lx) in E1. assert (Ez : z = Z.of_nat (nsegs c (length x))) by congruence. right. intros i Hi. rewrite Ez, Nat2Z.id in Hi. eexists. split; [eapply csd_segment_ok; eassumption|].
      now rewrite map_length, seq_length. }
  destruct D as [->|D].
  - inversion C as [r1 _ S|s L1 L2|s L1 L2]; [|congruence|congruence]. apply cs_sequential; [now right|assumption].
  - apply (compute_spectrum_spec x0 xadd _ xadd_assoc xadd_comm' xadd_0_l' _ _ _ _ _ D) in C.
    now apply (compute_spectrum_spec x0 xadd _ xadd_assoc xadd_comm' xadd_0_l' _ _ _ _ _ D).
Qed.
End Thr.
(** with an empty window or nstep = 0 *)
Lemma zero_step_ub {E} (spec : list R -> list E -> outcome (list cx)) c nfft x r : nstep c = 0%Z -> welch_impl spec c nfft x r <-> r = UB.
Proof.
  intros H. split.
  - intros [z r' E1 C|E1]; [|reflexivity]. unfold nseg in E1. rewrite H in E1. discriminate.
  - intros ->. apply wi_ub. unfold nseg. now rewrite H.
Qed.
