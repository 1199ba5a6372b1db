(** Proofs about Spectral.v. *)
From Coq Require Import ZArith Reals.
From Verif Require Import Base Functional FunctionalProofs Numeric NumericProofs Stats Spec SumLib CplxR Polynomial Fft FftFacts FftConv FftConvFacts Windows WindowsFacts WindowsReal WindowsRange SpectralConc SpectralConcFacts Spectral SpectralSpec.
From Coq Require Import Lra.
Open Scope nat_scope.

Lemma map_list_eq {A} (l : list A) (f : nat -> A) d n : length l = n -> (forall i, i < n -> nth i l d = f i) -> l = map f (seq 0 n).
Proof.
  intros L H. apply nth_ext with (d := d) (d' := d); [now rewrite map_length, seq_length|]. intros i Hi. rewrite L in Hi.
  rewrite (nth_indep (map f (seq 0 n)) d (f 0)) by (rewrite map_length, seq_length; exact Hi). rewrite map_nth, seq_nth by exact Hi. now rewrite H.
Qed.
Lemma nth_map_seq {A} (f : nat -> A) d n i : i < n -> nth i (map f (seq 0 n)) d = f i.
Proof. intros H. rewrite (nth_indep _ d (f 0)) by (rewrite map_length, seq_length; exact H). rewrite map_nth, seq_nth by exact H. reflexivity. Qed.
Lemma map2_nth {A B C} (op : A -> B -> C) a b da db dc : length a = length b -> exists r, map2 op a b = Ok r /\ length r = length a /\
  forall i, i < length a -> nth i r dc = op (nth i a da) (nth i b db).
Proof.
  intros L. unfold map2, map2_fresh. rewrite <- L, Nat.eqb_refl. cbn [require]. rewrite transform2_map by exact L.
  eexists. split; [reflexivity|]. split; [rewrite map_length, combine_length; lia|]. intros i Hi.
  rewrite (nth_indep _ dc (op da db)) by (rewrite map_length, combine_length; lia).
  etransitivity; [exact (map_nth (fun p => op (fst p) (snd p)) (combine a b) (da, db) i)|]. now rewrite combine_nth.
Qed.
Lemma bigop_nsum {T} (z : T) add (H1 : forall x y w, add x (add y w) = add (add x y) w) (H2 : forall x, add z x = x) (H3 : forall x, add x z = x) (l : list T) :
  bigop add z l = nsum z add (fun k => nth k l z) (length l).
Proof.
  induction l as [|x l IH] using rev_ind; [reflexivity|]. rewrite bigop_app by assumption. rewrite app_length. cbn [length]. rewrite Nat.add_1_r. cbn [nsum bigop].
  rewrite IH, H3. f_equal; [|now rewrite app_nth2, Nat.sub_diag by lia]. apply sum_ext. intros k Hk. now rewrite app_nth1.
Qed.
Lemma rmean_eq x : x <> [] -> rmean x = (rsum (fun k => nth k x 0%R) (length x) / INR (length x))%R.
Proof.
  intros Hx. unfold rmean, mean, mean_filter. destruct (Nat.eqb_spec (length x) 0) as [E|_]; [destruct x; simpl in E; congruence|].
  rewrite sum_filter_spec by (intros; ring). rewrite filter_all. f_equal. apply bigop_nsum; intros; ring.
Qed.
Lemma xmean_eq x : x <> [] -> xmean x = smean (fun k => nth k x x0) (length x).
Proof.
  intros Hx. unfold xmean, mean, mean_filter. destruct (Nat.eqb_spec (length x) 0) as [E|_]; [destruct x; simpl in E; congruence|].
  rewrite sum_filter_spec by (intros; ring). rewrite filter_all. unfold xdiv_re, smean. cbn [fst xre]. rewrite bigop_nsum by (intros; ring).
  set (S := xsum _ _). destruct S as [a b]. unfold xmul, xscale, xre. cbn [fst snd]. f_equal; ring.
Qed.
Lemma xre_smean (f : nat -> R) N : smean (fun k => xre (f k)) N = xre (rsum f N / INR N)%R.
Proof. unfold smean. rewrite xsum_re. unfold xscale, xre. cbn [fst snd]. f_equal; unfold Rdiv; ring. Qed.

Lemma spec_r_ok w seg : length seg = length w -> w <> [] ->
  spec_r w seg = Ok (map (bin w (fun k => xre (nth k seg 0%R))) (seq 0 (length w / 2 + 1))).
Proof.
  intros L Hw. unfold spec_r, detrend_r. rewrite transform1_map.
  destruct (map2_nth Rmult (map (fun v => (v - rmean seg)%R) seg) w 0%R 0%R 0%R) as (m & E & Lm & C); [now rewrite map_length|].
  rewrite E. cbn [bind]. rewrite map_length in *. assert (Lmw : length m = length w) by congruence.
  assert (Hm : m <> []) by (destruct m; [destruct w; [congruence|discriminate Lmw]|congruence]).
  assert (Hs : seg <> []) by (destruct seg; [destruct w; [congruence|discriminate L]|congruence]).
  rewrite rfft_ok by exact Hm. f_equal. rewrite Lmw. assert (1 <= length w) by (destruct w; [congruence|cbn; lia]).
  apply map_list_eq with (d := x0).
  - rewrite firstn_length, dft_length, map_length, Lmw. pose proof (half_S (length w)). lia.
  - intros j Hj. pose proof (half_S (length w) H) as HS. fold (@coef cx x0 (firstn (length w / 2 + 1) (dft (map xre m))) j).
    rewrite coef_firstn by exact Hj. rewrite dft_coef by (rewrite map_length; lia). rewrite map_length, Lmw. unfold dft_at, bin.
    apply sum_ext. intros k Hk. f_equal. rewrite xcoef_map_re. unfold coef. rewrite C by lia.
    rewrite (nth_indep (map _ seg) 0%R (0 - rmean seg)%R) by (rewrite map_length; lia). rewrite (map_nth (fun v => (v - rmean seg)%R)).
    rewrite (xre_smean (fun k => nth k seg 0%R)), rmean_eq, L by exact Hs. unfold xscale, xsub, xre. cbn [fst snd]. f_equal; ring.
Qed.
Lemma spec_c_ok w seg : length seg = length w -> w <> [] ->
  spec_c w seg = Ok (map (bin w (fun k => nth k seg x0)) (seq 0 (length w))).
Proof.
  intros L Hw. unfold spec_c, detrend_c. rewrite transform1_map.
  destruct (map2_nth (fun z r => xscale r z) (map (fun v => xsub v (xmean seg)) seg) w x0 0%R x0) as (m & E & Lm & C); [now rewrite map_length|].
  rewrite E. cbn [bind]. rewrite map_length in *. assert (Lmw : length m = length w) by congruence.
  assert (Hm : m <> []) by (destruct m; [destruct w; [congruence|discriminate Lmw]|congruence]).
  assert (Hs : seg <> []) by (destruct seg; [destruct w; [congruence|discriminate L]|congruence]).
  rewrite fft_c_ok by exact Hm. f_equal.
  apply map_list_eq with (d := x0).
  - now rewrite dft_length.
  - intros j Hj. fold (@coef cx x0 (dft m) j). rewrite dft_coef by lia. rewrite Lmw. unfold dft_at, bin.
    apply sum_ext. intros k Hk. f_equal. unfold coef. rewrite C by lia.
    rewrite (nth_indep (map _ seg) x0 (xsub x0 (xmean seg))) by (rewrite map_length; lia). rewrite (map_nth (fun v => xsub v (xmean seg))).
    now rewrite xmean_eq, L by exact Hs.
Qed.

(** ** segments *)
Lemma step_pos c : valid c -> 1 <= step_of c.
Proof. intros V. pose proof (v_overlap c V). unfold step_of. lia. Qed.
Lemma nstep_of c : valid c -> nstep c = Z.of_nat (step_of c).
Proof. intros V. pose proof (v_overlap c V). unfold nstep, step_of. rewrite Z2Nat.id by lia. reflexivity. Qed.
Lemma nseg_ok c n : valid c -> length (c_window c) <= n -> nseg c n = Ok (Z.of_nat (nsegs c n)).
Proof.
  intros V H. unfold nseg. rewrite nstep_of by exact V. pose proof (step_pos c V) as P. destruct (Z.eqb_spec (Z.of_nat (step_of c)) 0); [lia|].
  rewrite (v_nperseg c V). f_equal. rewrite <- Nat2Z.inj_sub by exact H. rewrite quot_nat by lia. unfold nsegs. lia.
Qed.
Lemma nsegs_fit c n i : valid c -> length (c_window c) <= n -> i < nsegs c n -> i * step_of c + length (c_window c) <= n.
Proof.
  intros V H Hi. unfold nsegs in Hi. pose proof (step_pos c V) as P. set (st := step_of c) in *.
  pose proof (Nat.div_mod (n - length (c_window c)) st ltac:(lia)) as D. set (q := (n - length (c_window c)) / st) in *.
  assert (i * st <= q * st) by (apply Nat.mul_le_mono_r; lia). lia.
Qed.
Lemma nsegs_max c n : valid c -> length (c_window c) <= n -> n < nsegs c n * step_of c + length (c_window c).
Proof.
  intros V H. unfold nsegs. pose proof (step_pos c V) as P. set (st := step_of c) in *.
  pose proof (Nat.div_mod (n - length (c_window c)) st ltac:(lia)) as D. pose proof (Nat.mod_upper_bound (n - length (c_window c)) st ltac:(lia)).
  set (q := (n - length (c_window c)) / st) in *. lia.
Qed.
Section Gen.
Context {E : Type}.
Variables (zeroE : E) (emb : E -> cx) (spec : list R -> list E -> outcome (list cx)) (nbins : nat -> nat).
Hypothesis spec_ok : forall w seg, length seg = length w -> w <> [] -> spec w seg = Ok (map (bin w (fun k => emb (nth k seg zeroE))) (seq 0 (nbins (length w)))).
Lemma segment_ok c x i : valid c -> length (c_window c) <= length x -> i < nsegs c (length x) ->
  exists s, segment c x i = Ok s /\ length s = length (c_window c) /\ forall k, k < length (c_window c) -> nth k s zeroE = nth (i * step_of c + k) x zeroE.
Proof.
  intros V H Hi. pose proof (nsegs_fit c _ i V H Hi) as F. unfold segment, subvector. rewrite (v_nperseg c V), (nstep_of c V).
  rewrite Z.min_l by lia. set (N := length (c_window c)) in *.
  destruct (Z.leb_spec 0 (Z.of_nat i * Z.of_nat (step_of c))); [|lia]. destruct (Z.leb_spec 0 (Z.of_nat N)); [|lia].
  destruct (Z.leb_spec (Z.of_nat i * Z.of_nat (step_of c) + Z.of_nat N) (Z.of_nat (length x))); [|lia]. cbn [andb bind].
  rewrite Nat2Z.id. replace (Z.to_nat (Z.of_nat i * Z.of_nat (step_of c))) with (i * step_of c) by lia.
  assert (L : length (firstn N (skipn (i * step_of c) x)) = N) by (rewrite firstn_length, skipn_length; lia).
  rewrite L, Nat.eqb_refl. cbn [require]. eexists. split; [reflexivity|]. split; [exact L|]. intros k Hk.
  rewrite nth_firstn_gen by exact Hk. apply nth_skipn_gen.
Qed.
Lemma bin_ext w s s' m : (forall k, k < length w -> s k = s' k) -> bin w s m = bin w s' m.
Proof. intros H. unfold bin. assert (E1 : smean s (length w) = smean s' (length w)) by (unfold smean; f_equal; now apply sum_ext). rewrite E1. apply sum_ext. intros k Hk. now rewrite H. Qed.
Lemma spec_segment c x i s : valid c -> length (c_window c) <= length x -> i < nsegs c (length x) -> segment c x i = Ok s ->
  spec (c_window c) s = Ok (map (bin (c_window c) (sample zeroE emb c x i)) (seq 0 (nbins (length (c_window c))))).
Proof.
  intros V H Hi Es. destruct (segment_ok c x i V H Hi) as (s' & Es' & L & C). rewrite Es in Es'. injection Es' as <-.
  rewrite spec_ok; [|exact L|apply (v_window c V)]. f_equal. apply map_ext. intros m. apply bin_ext. intros k Hk. unfold sample. now rewrite C.
Qed.
Lemma psd_segment_ok c x i : valid c -> length (c_window c) <= length x -> i < nsegs c (length x) ->
  psd_segment spec c x i = Ok (map (fun m => xnorm2 (bin (c_window c) (sample zeroE emb c x i) m)) (seq 0 (nbins (length (c_window c))))).
Proof.
  intros V H Hi. destruct (segment_ok c x i V H Hi) as (s & Es & L & C). unfold psd_segment. rewrite Es. cbn [bind].
  rewrite (spec_segment c x i s V H Hi Es). cbn [bind]. rewrite transform1_map, map_map. reflexivity.
Qed.
Lemma csd_segment_ok c x y i : valid c -> length (c_window c) <= length x -> length x = length y -> i < nsegs c (length x) ->
  csd_segment spec c x y i = Ok (map (fun m => xmul (xconj (bin (c_window c) (sample zeroE emb c x i) m)) (bin (c_window c) (sample zeroE emb c y i) m)) (seq 0 (nbins (length (c_window c))))).
Proof.
  intros V H Lxy Hi. destruct (segment_ok c x i V H Hi) as (s & Es & L & C). assert (Hi' := Hi). rewrite Lxy in Hi'. assert (H' := H). rewrite Lxy in H'.
  destruct (segment_ok c y i V H' Hi') as (s' & Es' & L' & C'). unfold csd_segment. rewrite Es, Es'. cbn [bind].
  rewrite (spec_segment c x i s V H Hi Es), (spec_segment c y i s' V H' Hi' Es'). cbn [bind]. rewrite transform1_map, map_map.
  set (n := nbins _). match goal with |- map2 xmul ?a ?b = _ => destruct (map2_nth xmul a b x0 x0 x0) as (r & Er & Lr & Cr) end; [now rewrite !map_length|].
  rewrite Er. f_equal. rewrite map_length, seq_length in *. apply map_list_eq with (d := x0); [exact Lr|]. intros m Hm. rewrite Cr by exact Hm. now rewrite !nth_map_seq.
Qed.
Lemma welch_impl_ok c x r : valid c -> length (c_window c) <= length x ->
  welch_impl spec c (nbins (length (c_window c))) x r <-> r = Ok (map (psd_avg zeroE emb c x) (seq 0 (nbins (length (c_window c))))).
Proof.
  intros V H. pose proof (nseg_ok c (length x) V H) as En. set (nf := nbins (length (c_window c))).
  assert (Q : forall i, i < Z.to_nat (Z.of_nat (nsegs c (length x))) -> exists v, psd_segment spec c x i = Ok v /\ length v = nf).
  { intros i Hi. rewrite Nat2Z.id in Hi. eexists. split; [now apply psd_segment_ok|]. now rewrite map_length, seq_length. }
  pose proof (fun r => compute_spectrum_spec 0%R Rplus (fun v n => (v / IZR n)%R) ltac:(intros; ring) ltac:(intros; ring) ltac:(intros; ring)
    (c_nthreads c) nf (Z.of_nat (nsegs c (length x))) (psd_segment spec c x) r Q) as CS.
  assert (EQ : map (fun k => (nsum 0 Rplus (fun i => nth k (seg (psd_segment spec c x) i) 0) (Z.to_nat (Z.of_nat (nsegs c (length x)))) / IZR (Z.of_nat (nsegs c (length x))))%R) (seq 0 nf)
             = map (psd_avg zeroE emb c x) (seq 0 nf)).
  { apply map_ext_in. intros k Hk. apply in_seq in Hk. unfold psd_avg. rewrite Nat2Z.id, IZR_nat. f_equal. apply sum_ext. intros i Hi.
    unfold seg. rewrite psd_segment_ok by assumption. rewrite nth_map_seq by (unfold nf in *; lia). reflexivity. }
  split.
  - intros [n r' E1 C|E1]; rewrite En in E1; [|discriminate]. injection E1 as <-. apply CS in C. now rewrite C, EQ.
  - intros ->. eapply wi_run; [exact En|]. apply CS. now rewrite EQ.
Qed.
Lemma welch2_impl_ok c x y r : valid c -> length (c_window c) <= length x -> length x = length y ->
  welch2_impl spec c (nbins (length (c_window c))) x y r <-> r = Ok (map (csd_avg zeroE emb c x y) (seq 0 (nbins (length (c_window c))))).
Proof.
  intros V H Lxy. pose proof (nseg_ok c (length x) V H) as En. set (nf := nbins (length (c_window c))).
  assert (Q : forall i, i < Z.to_nat (Z.of_nat (nsegs c (length x))) -> exists v, csd_segment spec c x y i = Ok v /\ length v = nf).
  { intros i Hi. rewrite Nat2Z.id in Hi. eexists. split; [now apply csd_segment_ok|]. now rewrite map_length, seq_length. }
  pose proof (fun r => compute_spectrum_spec x0 xadd (fun v n => xscale (/ IZR n)%R v) ltac:(intros; ring) ltac:(intros; ring) ltac:(intros; ring)
    (c_nthreads c) nf (Z.of_nat (nsegs c (length x))) (csd_segment spec c x y) r Q) as CS.
  assert (EQ : map (fun k => xscale (/ IZR (Z.of_nat (nsegs c (length x))))%R (nsum x0 xadd (fun i => nth k (seg (csd_segment spec c x y) i) x0) (Z.to_nat (Z.of_nat (nsegs c (length x)))))) (seq 0 nf)
             = map (csd_avg zeroE emb c x y) (seq 0 nf)).
  { apply map_ext_in. intros k Hk. apply in_seq in Hk. unfold csd_avg. rewrite Nat2Z.id, IZR_nat. f_equal. apply sum_ext. intros i Hi.
    unfold seg. rewrite csd_segment_ok by assumption. rewrite nth_map_seq by (unfold nf in *; lia). reflexivity. }
  split.
  - intros [E1|n r' _ E1 C|_ E1]; [contradiction| |]; rewrite En in E1; [|discriminate]. injection E1 as <-. apply CS in C. now rewrite C, EQ.
  - intros ->. eapply w2_run; [exact Lxy|exact En|]. apply CS. now rewrite EQ.
Qed.
End Gen.
