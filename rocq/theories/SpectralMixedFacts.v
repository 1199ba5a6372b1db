(** A real signal in a mixed cross-spectrum behaves as the complex signal with the same samples. *)
From Coq Require Import ZArith Reals FunctionalExtensionality.
From Verif Require Import Base Functional FunctionalProofs Numeric NumericProofs Stats Spec SumLib CplxR Polynomial Fft FftFacts FftConv FftConvFacts Windows WindowsFacts WindowsReal WindowsRange SpectralConc SpectralConcFacts Spectral SpectralSpec SpectralFacts SpectralFacts2 SpectralFacts3 SpectralFacts4 SpectralFacts5 SpectralMixed.
From Coq Require Import Lra Psatz.
Open Scope nat_scope.

Lemma transform2_map {A B C A' C'} (f : A -> A') (g : C -> C') (op : A -> B -> C) (op' : A' -> B -> C') (a : list A) : forall b, (forall u v, op' (f u) v = g (op u v)) ->
  transform2 op' (map f a) b = do m <- transform2 op a b; Ok (map g m).
Proof.
  induction a as [|u a IH]; intros [|v b] H; cbn [map transform2 bind]; try reflexivity. rewrite IH by exact H. rewrite H. destruct (transform2 op a b); reflexivity.
Qed.
Lemma map2_map {A B C A' C'} (f : A -> A') (g : C -> C') (op : A -> B -> C) (op' : A' -> B -> C') (a : list A) b : (forall u v, op' (f u) v = g (op u v)) ->
  map2 op' (map f a) b = do m <- map2 op a b; Ok (map g m).
Proof.
  intros H. unfold map2, map2_fresh. rewrite map_length. destruct (length a =? length b); cbn [require bind]; [|reflexivity]. now apply transform2_map.
Qed.
Lemma fft_r_embed m : fft_r m = fft_c (map xre m).
Proof. unfold fft_r, fft_c, eigen_fwd_r, eigen_fwd_c. rewrite map_length. destruct m as [|a [|b m]]; reflexivity. Qed.
Lemma xmean_embed seg : seg <> [] -> xmean (map xre seg) = xre (rmean seg).
Proof.
  intros H. rewrite xmean_eq by (destruct seg; [contradiction|discriminate]). rewrite map_length, rmean_eq by exact H. rewrite <- (xre_smean (fun k => nth k seg 0%R)).
  unfold smean. f_equal. apply sum_ext. intros k _. change x0 with (xre 0%R). now rewrite map_nth.
Qed.
Lemma spec_embed w seg : spec_rc w seg = spec_c w (map xre seg).
Proof.
  assert (D : map2 (fun z r => xscale r z) (detrend_c (map xre seg)) w = do m <- map2 Rmult (detrend_r seg) w; Ok (map xre m)).
  { replace (detrend_c (map xre seg)) with (map xre (detrend_r seg)).
    - apply map2_map. intros u v. unfold xscale, xre. cbn [fst snd]. f_equal; ring.
    - unfold detrend_c, detrend_r. rewrite !transform1_map, !map_map. destruct seg as [|s0 seg]; [reflexivity|]. rewrite xmean_embed by discriminate.
      apply map_ext. intros v. unfold xsub, xre. cbn [fst snd]. f_equal. ring. }
  unfold spec_rc, spec_c. rewrite D. destruct (map2 Rmult (detrend_r seg) w) as [m| | |]; cbn [bind]; try reflexivity. apply fft_r_embed.
Qed.
Lemma subvector_map {A B} (f : A -> B) v n o : subvector (map f v) n o = do s <- subvector v n o; Ok (map f s).
Proof. unfold subvector. rewrite map_length. destruct (_ && _)%bool; cbn [bind]; [|reflexivity]. now rewrite skipn_map, firstn_map. Qed.
Lemma segment_map {A B} (f : A -> B) c v i : segment c (map f v) i = do s <- segment c v i; Ok (map f s).
Proof.
  unfold segment. rewrite subvector_map. destruct (subvector v _ _) as [s| | |]; cbn [bind]; try reflexivity. rewrite map_length. now destruct (_ =? _).
Qed.
Lemma csd_segment_rc c x y : csd_segment2 spec_rc spec_c c x y = csd_segment spec_c c (map xre x) y.
Proof.
  apply functional_extensionality. intros i. unfold csd_segment2, csd_segment. rewrite segment_map. destruct (segment c x i) as [s| | |]; cbn [bind]; try reflexivity.
  destruct (segment c y i) as [t| | |]; cbn [bind]; try reflexivity. now rewrite spec_embed.
Qed.
Lemma csd_segment_cr c x y : csd_segment2 spec_c spec_rc c x y = csd_segment spec_c c x (map xre y).
Proof.
  apply functional_extensionality. intros i. unfold csd_segment2, csd_segment. rewrite segment_map. destruct (segment c x i) as [s| | |]; cbn [bind]; try reflexivity.
  destruct (segment c y i) as [t| | |]; cbn [bind]; try reflexivity. now rewrite spec_embed.
Qed.
Lemma welch2_rc c n x y r : welch2_impl2 spec_rc spec_c c n x y r <-> welch2_impl spec_c c n (map xre x) y r.
Proof.
  split.
  - intros [L|k r' L N C|L N]; [apply w2_require|eapply w2_run|apply w2_ub]; rewrite ?map_length; eauto. now rewrite <- csd_segment_rc.
  - intros [L|k r' L N C|L N]; rewrite ?map_length in *; [apply w22_require|eapply w22_run|apply w22_ub]; eauto. now rewrite csd_segment_rc.
Qed.
Lemma welch2_cr c n x y r : welch2_impl2 spec_c spec_rc c n x y r <-> welch2_impl spec_c c n x (map xre y) r.
Proof.
  split.
  - intros [L|k r' L N C|L N]; [apply w2_require|eapply w2_run|apply w2_ub]; rewrite ?map_length; eauto. now rewrite <- csd_segment_cr.
  - intros [L|k r' L N C|L N]; rewrite ?map_length in *; [apply w22_require|eapply w22_run|apply w22_ub]; eauto. now rewrite csd_segment_cr.
Qed.
Lemma csd_same_rc c sc x y r : csd_same2 spec_rc spec_c c sc x y r <-> csd_same_c c sc (map xre x) y r.
Proof. split; intros [p P]; constructor; now apply welch2_rc. Qed.
Lemma csd_same_cr c sc x y r : csd_same2 spec_c spec_rc c sc x y r <-> csd_same_c c sc x (map xre y) r.
Proof. split; intros [p P]; constructor; now apply welch2_cr. Qed.

Section Gen2.
Context {E1 E2 : Type}.
Variables (spec1 : list R -> list E1 -> outcome (list cx)) (spec2 : list R -> list E2 -> outcome (list cx)) (z1 : E1) (z2 : E2).
Lemma csd2_gen c sc x y r : x <> [] -> y <> [] -> csd2 spec1 spec2 z1 z2 c sc x y r <-> csd_same2 spec1 spec2 c sc (padded z1 x (length y)) (padded z2 y (length x)) r.
Proof.
  intros Hx Hy. assert (PS : forall A (z : A) (a : list A) n, n <= length a -> padded z a n = a) by (intros A z a n L; unfold padded; replace (n - length a) with 0 by lia; apply app_nil_r).
  assert (PZ : forall A (z : A) (a : list A) n, length a < n -> zero_padding_const z a n = Ok (padded z a n)).
  { intros A z a n L. rewrite zero_padding_const_spec. unfold padded. now rewrite firstn_all2 by lia. }
  split.
  - intros [[C|C]|r' _ _ L S'|y' r' _ _ L P S'|x' r' _ _ L P S']; try contradiction.
    + now rewrite !PS by lia.
    + rewrite PZ in P by exact L. injection P as <-. rewrite (PS _ z1) by lia. exact S'.
    + rewrite PZ in P by exact L. injection P as <-. rewrite (PS _ z2 y) by lia. exact S'.
  - intros S'. destruct (Nat.lt_trichotomy (length x) (length y)) as [L|[L|L]].
    + eapply cs2_pad_x; eauto. now rewrite (PS _ z2 y) in S' by lia.
    + apply cs2_same; auto. now rewrite !PS in S' by lia.
    + eapply cs2_pad_y; eauto. now rewrite (PS _ z1 x) in S' by lia.
Qed.
End Gen2.
Lemma padded_map {A B} (f : A -> B) z x n : map f (padded z x n) = padded (f z) (map f x) n.
Proof. unfold padded. rewrite map_app, map_length. f_equal. generalize (n - length x). intros m. induction m; cbn [repeat map]; congruence. Qed.
Lemma map_nil_iff {A B} (f : A -> B) l : map f l <> [] <-> l <> [].
Proof. destruct l; split; intros H; cbn in *; congruence. Qed.
Lemma csd_rc_c c sc x y r : csd_rc c sc x y r <-> csd_c c sc (map xre x) y r.
Proof.
  destruct x as [|u x]; [|destruct y as [|v y]].
  - split; intros H; inversion H; subst; try contradiction; apply cs2_empty || apply cs_empty; auto.
  - split; intros H; inversion H; subst; try contradiction; apply cs2_empty || apply cs_empty; auto.
  - unfold csd_rc. rewrite csd2_gen by discriminate. unfold csd_c. rewrite csd_gen by discriminate. rewrite csd_same_rc, padded_map, map_length. reflexivity.
Qed.
Lemma csd_cr_c c sc x y r : csd_cr c sc x y r <-> csd_c c sc x (map xre y) r.
Proof.
  destruct x as [|u x]; [|destruct y as [|v y]].
  - split; intros H; inversion H; subst; try contradiction; apply cs2_empty || apply cs_empty; auto.
  - split; intros H; inversion H; subst; try contradiction; apply cs2_empty || apply cs_empty; auto.
  - unfold csd_cr. rewrite csd2_gen by discriminate. unfold csd_c. rewrite csd_gen by discriminate. rewrite csd_same_cr, padded_map, map_length. reflexivity.
Qed.
