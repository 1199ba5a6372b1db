(** Proofs about the FFT wrappers and fftconvolve. *)
From Coq Require Import ZArith Reals Ring.
From Verif Require Import Base Functional FunctionalProofs Spec SumLib CplxR Polynomial Fft FftFacts HammingFacts FftConv Convolve ConvolveFacts.
From Coq Require Import Lra.
Open Scope nat_scope.
Add Ring xR2 : xring.
Notation rcoef := (@coef R 0%R).
Notation xcauchy := (cauchy (rO := x0) (radd := xadd) (rmul := xmul)).

(** *** the wrappers compute the transforms *)
Lemma nonempty_len {A} (x : list A) : x <> [] -> 1 <= length x.
Proof. destruct x; simpl; [congruence|lia]. Qed.
Lemma dft_single (v : cx) : dft [v] = [v].
Proof.
  unfold dft. cbn [length seq map]. f_equal. unfold dft_at. cbn [nsum coef nth]. change (Z.of_nat 0 * Z.of_nat 0)%Z with 0%Z. rewrite root_0.
  unfold coef. cbn [nth]. ring.
Qed.
Lemma fft_c_ok x : x <> [] -> fft_c x = Ok (dft x).
Proof.
  intros H. pose proof (nonempty_len x H). unfold fft_c, require. destruct (Nat.eqb_spec (length x) 0); [lia|]. cbn [negb].
  destruct (Nat.eqb_spec (length x) 1) as [E|_]; [|reflexivity]. destruct x as [|v [|w x]]; try discriminate. cbn [at_ub nth_error bind]. now rewrite dft_single.
Qed.
Lemma fft_r_ok x : x <> [] -> fft_r x = Ok (dft (map xre x)).
Proof.
  intros H. pose proof (nonempty_len x H). unfold fft_r, require. destruct (Nat.eqb_spec (length x) 0); [lia|]. cbn [negb].
  destruct (Nat.eqb_spec (length x) 1) as [E|_]; [|reflexivity]. destruct x as [|v [|w x]]; try discriminate. cbn [at_ub nth_error bind map]. now rewrite dft_single.
Qed.
Lemma rfft_ok x : x <> [] -> rfft x = Ok (firstn (length x / 2 + 1) (dft (map xre x))).
Proof.
  intros H. pose proof (nonempty_len x H). unfold rfft, require. destruct (Nat.eqb_spec (length x) 0); [lia|]. cbn [negb].
  destruct (Nat.eqb_spec (length x) 1) as [E|_]; [|reflexivity]. destruct x as [|v [|w x]]; try discriminate. cbn [at_ub nth_error bind map]. rewrite dft_single. reflexivity.
Qed.
Lemma half_S n : 1 <= n -> n / 2 + 1 <= n.
Proof. intros H. pose proof (Nat.div_mod n 2 ltac:(lia)). pose proof (Nat.mod_upper_bound n 2 ltac:(lia)). lia. Qed.
Lemma rfft_length x y : x <> [] -> rfft x = Ok y -> length y = length x / 2 + 1.
Proof.
  intros H E. rewrite rfft_ok in E by exact H. assert (Ey : y = firstn (length x / 2 + 1) (dft (map xre x))) by congruence. rewrite Ey, firstn_length, dft_length, map_length. pose proof (half_S (length x) (nonempty_len x H)).
  lia.
Qed.
Lemma xcoef_map_re (x : list R) k : xcoef (map xre x) k = xre (rcoef x k).
Proof. unfold coef. change x0 with (xre 0). apply map_nth. Qed.
(** value of a transform bin *)
Lemma coef_firstn (y : list cx) m k : k < m -> xcoef (firstn m y) k = xcoef y k.
Proof. intros H. unfold coef. now apply nth_firstn_gen. Qed.

(** *** zero padding *)
Lemma pad_coef {T} (z : T) v n k : k < n -> nth k (firstn n v ++ repeat z (n - length v)) z = nth k v z.
Proof.
  intros H. destruct (Nat.lt_ge_cases k (length v)).
  - rewrite app_nth1 by (rewrite firstn_length; lia). now apply nth_firstn_gen.
  - rewrite app_nth2 by (rewrite firstn_length; lia). rewrite (nth_overflow v) by lia. apply nth_repeat.
Qed.
Lemma pad_length {T} (z : T) v n : length (firstn n v ++ repeat z (n - length v)) = n.
Proof. rewrite app_length, firstn_length, repeat_length. lia. Qed.
Lemma pad_id {T} (z : T) v : firstn (length v) v ++ repeat z (length v - length v) = v.
Proof. rewrite firstn_all, Nat.sub_diag. apply app_nil_r. Qed.

(** *** inverse transforms *)
Lemma ifft_c_default y : y <> [] -> ifft_c y (-1) = Ok (idft y).
Proof.
  intros H. unfold ifft_c. destruct (Z.eqb_spec (Z.of_nat (length y)) (-1)); [lia|]. change (-1 <? 0)%Z with true. cbn [orb].
  unfold eigen_inv_c. pose proof (nonempty_len y H). destruct (Nat.eqb_spec (length y) 0); [lia|reflexivity].
Qed.
Lemma ifft_c_n y n : 1 <= n -> ifft_c y (Z.of_nat n) = Ok (idft (firstn n y ++ repeat x0 (n - length y))).
Proof.
  intros H. unfold ifft_c. destruct (Z.ltb_spec (Z.of_nat n) 0); [lia|]. rewrite orb_false_r, Nat2Z.id.
  unfold eigen_inv_c. destruct (Z.eqb_spec (Z.of_nat (length y)) (Z.of_nat n)) as [E|E].
  - assert (length y = n) by lia. subst n. rewrite pad_id. destruct (Nat.eqb_spec (length y) 0); [lia|reflexivity].
  - rewrite zero_padding_const_spec. cbn [bind]. rewrite pad_length. destruct (Nat.eqb_spec n 0); [lia|reflexivity].
Qed.
Lemma irfft_n y n : 1 <= n -> irfft y (Z.of_nat n) =
  Ok (map (@fst R R) (idft (map (sym_bin (firstn n y ++ repeat x0 (n - length y)) n) (seq 0 n)))).
Proof.
  intros H. unfold irfft. destruct (Z.ltb_spec (Z.of_nat n) 0); [lia|]. rewrite Nat2Z.id. cbn [andb].
  unfold eigen_inv_r. destruct (Z.eqb_spec (Z.of_nat (length y)) (Z.of_nat n)) as [E|E].
  - assert (length y = n) by lia. subst n. rewrite pad_id. destruct (Nat.eqb_spec (length y) 0); [lia|reflexivity].
  - rewrite zero_padding_const_spec. cbn [bind]. rewrite pad_length. destruct (Nat.eqb_spec n 0); [lia|reflexivity].
Qed.
(** symmetric extension of a half spectrum coming from a Hermitian full spectrum F *)
Lemma sym_ext (F : list cx) N : length F = N -> 1 <= N ->
  (forall k, k < N -> 1 <= k -> xcoef F (N - k) = xconj (xcoef F k)) ->
  map (sym_bin (firstn N (firstn (N / 2 + 1) F) ++ repeat x0 (N - length (firstn (N / 2 + 1) F))) N) (seq 0 N) = F.
Proof.
  intros HL HN HF. apply (list_ext (rO := x0)); [now rewrite map_length, seq_length|]. rewrite map_length, seq_length. intros k Hk.
  rewrite (coef_list (rO := x0) _ N _ eq_refl k Hk). unfold sym_bin. pose proof (half_S N HN).
  destruct (Nat.leb_spec k (N / 2)).
  - rewrite pad_coef by exact Hk. rewrite nth_firstn_gen by lia. reflexivity.
  - pose proof (Nat.div_mod N 2 ltac:(lia)). pose proof (Nat.mod_upper_bound N 2 ltac:(lia)).
    rewrite pad_coef by lia. rewrite nth_firstn_gen by lia. change (xconj (xcoef F (N - k)) = xcoef F k).
    rewrite HF by lia. apply xconj_conj.
Qed.
Lemma dft_real_hermitian (x : list R) k : 1 <= k -> k < length x -> xcoef (dft (map xre x)) (length x - k) = xconj (xcoef (dft (map xre x)) k).
Proof.
  intros H0 Hk. rewrite !dft_coef by (rewrite map_length; lia). unfold dft_at. rewrite map_length.
  rewrite (sum_ext _ (fun j => xmul (xre (rcoef x j)) (root (length x) (Z.of_nat j * Z.of_nat (length x - k))))) by (intros; now rewrite xcoef_map_re).
  rewrite (sum_ext (fun j => xmul (xcoef (map xre x) j) _) (fun j => xmul (xre (rcoef x j)) (root (length x) (Z.of_nat j * Z.of_nat k)))) by (intros; now rewrite xcoef_map_re).
  apply (dft_hermitian (rcoef x)); lia.
Qed.
Theorem irfft_rfft x : x <> [] -> exists y, rfft x = Ok y /\ length y = length x / 2 + 1 /\ irfft y (Z.of_nat (length x)) = Ok x.
Proof.
  intros H. pose proof (nonempty_len x H) as H1. eexists. split; [apply rfft_ok, H|]. split; [eapply rfft_length; [exact H|apply rfft_ok, H]|].
  rewrite irfft_n by exact H1. f_equal.
  rewrite (sym_ext (dft (map xre x)) (length x)).
  - rewrite idft_dft, map_map. cbn [xre fst]. apply map_id.
  - now rewrite dft_length, map_length.
  - exact H1.
  - intros k Hk Hk1. now apply dft_real_hermitian.
Qed.
(** default n: an even length is recovered *)
Theorem irfft_rfft_even x : x <> [] -> Nat.even (length x) = true -> exists y, rfft x = Ok y /\ irfft y (-1) = Ok x.
Proof.
  intros H He. destruct (irfft_rfft x H) as (y & E & L & I). exists y. split; [exact E|]. rewrite <- I.
  apply Nat.even_spec in He. destruct He as [m Hm]. pose proof (nonempty_len x H).
  assert (length x / 2 = m) by (rewrite Hm, Nat.mul_comm; apply Nat.div_mul; lia).
  unfold irfft. destruct (Z.eqb_spec (Z.of_nat (length y)) (-1)); [lia|]. change (-1 <? 0)%Z with true. cbn [andb].
  destruct (Nat.eqb_spec (length y) 0); [lia|]. replace (2 * (length y - 1)) with (length x) by lia.
  destruct (Z.ltb_spec (Z.of_nat (length x)) 0); [lia|]. cbn [andb]. rewrite Nat2Z.id.
  destruct (Z.eqb_spec (Z.of_nat (length y)) (Z.of_nat (length x))) as [E2|E2]; [|reflexivity].
  assert (E3 : length y = length x) by lia. rewrite zero_padding_const_spec. cbn [bind]. rewrite <- E3, pad_id. reflexivity.
Qed.

(** *** fftconvolve *)
Lemma fast_size_ok r : exists m, fast_size r = Ok m /\ r <= m /\ 1 <= m.
Proof.
  unfold fast_size. destruct (next_fast_len_spec (Z.of_nat r) (S r) ltac:(lia) ltac:(lia)) as (m & E & L & Sm & _). rewrite E. cbn [bind].
  exists (Z.to_nat m). split; [reflexivity|]. assert (1 <= m)%Z by (destruct Sm; lia). lia.
Qed.
Lemma circular_is_linear (f g : nat -> cx) N n la lv : (forall i, la <= i -> f i = x0) -> (forall j, lv <= j -> g j = x0) ->
  la + lv <= N + 1 -> 1 <= la + lv -> n < N ->
  xsum (fun i => xsum (fun j => if ((i + j =? n) || (i + j =? n + N)) then xmul (f i) (g j) else x0) N) N = xcauchy f g n.
Proof.
  intros Hf Hg HN H1 Hn. unfold cauchy. rewrite (sum_extend xring _ (S n) N).
  - apply sum_ext. intros i Hi. rewrite (sum_window xring _ (n - i) 1 N).
    + cbn [nsum]. rewrite Nat.add_0_r. replace (i + (n - i)) with n by lia. rewrite Nat.eqb_refl. cbn [orb]. ring.
    + lia.
    + intros j Hj. destruct (Nat.eqb_spec (i + j) n); [lia|]. destruct (Nat.eqb_spec (i + j) (n + N)); [lia|]. reflexivity.
    + intros j Hj. destruct (Nat.eqb_spec (i + j) n); [lia|]. cbn [orb]. destruct (Nat.eqb_spec (i + j) (n + N)); [|reflexivity].
      destruct (Nat.le_gt_cases la i); [rewrite Hf by lia; ring|]. rewrite (Hg j) by lia. ring.
  - lia.
  - intros i Hi. apply (sum_zero xring). intros j Hj. destruct (Nat.eqb_spec (i + j) n); [lia|]. cbn [orb]. destruct (Nat.eqb_spec (i + j) (n + N)); [|reflexivity].
    destruct (Nat.le_gt_cases la i); [rewrite Hf by lia; ring|]. rewrite (Hg j) by lia. ring.
Qed.
Lemma prod_list_coef (p q : list cx) k : length p = length q -> k < length p ->
  xcoef (map (fun xy => xmul (fst xy) (snd xy)) (combine p q)) k = xmul (xcoef p k) (xcoef q k).
Proof.
  intros H Hk. unfold coef. rewrite (nth_indep _ x0 (xmul (fst (x0, x0)) (snd (x0, x0)))) by (rewrite map_length, combine_length; lia).
  rewrite (map_nth (fun xy => xmul (fst xy) (snd xy))), combine_nth by exact H. reflexivity.
Qed.
(** inverse transform of the product of the transforms of two padded sequences *)
Lemma conv_core (a v : list cx) N : 1 <= length a + length v -> length a + length v - 1 <= N -> 1 <= N ->
  let ap := firstn N a ++ repeat x0 (N - length a) in
  let vp := firstn N v ++ repeat x0 (N - length v) in
  forall n, n < N -> xcoef (idft (map (fun xy => xmul (fst xy) (snd xy)) (combine (dft ap) (dft vp)))) n = xcauchy (xcoef a) (xcoef v) n.
Proof.
  intros H1 HN HN1 ap vp n Hn. assert (La : length ap = N) by apply pad_length. assert (Lv : length vp = N) by apply pad_length.
  set (P := map _ _). assert (LP : length P = N) by (unfold P; rewrite map_length, combine_length, !dft_length, La, Lv; lia).
  rewrite idft_coef by lia. rewrite LP. unfold idft_at.
  rewrite (sum_ext _ (fun k => xmul (xmul (xsum (fun i => xmul (xcoef ap i) (root N (Z.of_nat i * Z.of_nat k))) N)
    (xsum (fun j => xmul (xcoef vp j) (root N (Z.of_nat j * Z.of_nat k))) N)) (root N (- (Z.of_nat n * Z.of_nat k))))).
  2:{ intros k Hk. f_equal. unfold P. rewrite prod_list_coef by (rewrite !dft_length; lia). rewrite !dft_coef by lia. unfold dft_at. now rewrite La, Lv. }
  rewrite (idft_product (xcoef ap) (xcoef vp) N n HN1 Hn).
  rewrite (circular_is_linear (xcoef ap) (xcoef vp) N n (Nat.min N (length a)) (Nat.min N (length v))).
  - apply cauchy_ext; intros i Hi; apply pad_coef; lia.
  - intros i Hi. destruct (Nat.lt_ge_cases i N); [unfold ap; change (xcoef ?l i) with (nth i l x0); rewrite pad_coef by lia; apply nth_overflow; lia|].
    apply nth_overflow. lia.
  - intros i Hi. destruct (Nat.lt_ge_cases i N); [unfold vp; change (xcoef ?l i) with (nth i l x0); rewrite pad_coef by lia; apply nth_overflow; lia|].
    apply nth_overflow. lia.
  - lia.
  - lia.
  - exact Hn.
Qed.
Notation xcprod := (cprod (rO := x0) (radd := xadd) (rmul := xmul)).
Theorem fftconvolve_c_ok a v : a <> [] \/ v <> [] -> fftconvolve_c a v = convolve x0 xadd xmul a v.
Proof.
  intros H. rewrite (convolve_spec xring) by exact H. unfold fftconvolve_c.
  assert (H1 : 1 <= length a + length v) by (destruct H as [H|H]; apply nonempty_len in H; lia).
  destruct (Nat.eqb_spec (length a + length v) 0); [lia|].
  destruct (fast_size_ok (length a + length v - 1)) as (N & E & L & N1). rewrite E. cbn [bind].
  rewrite !zero_padding_const_spec. cbn [bind].
  set (ap := firstn N a ++ _). set (vp := firstn N v ++ _).
  assert (La : length ap = N) by apply pad_length. assert (Lv : length vp = N) by apply pad_length.
  rewrite !fft_c_ok by (intros C; apply (f_equal (@length _)) in C; simpl in C; lia). cbn [bind].
  rewrite map2_ok by (rewrite !dft_length; lia). cbn [bind].
  set (P := map _ (combine _ _)). assert (LP : length P = N) by (unfold P; rewrite map_length, combine_length, !dft_length, La, Lv; lia).
  rewrite ifft_c_n by exact N1. cbn [bind]. rewrite <- LP at 1 2. rewrite pad_id. f_equal. unfold class_resize. rewrite idft_length, LP.
  replace (length a + length v - 1 - N) with 0 by lia. cbn [repeat]. rewrite app_nil_r.
  apply (list_ext (rO := x0)); rewrite firstn_length, idft_length, LP.
  - rewrite cprod_length. lia.
  - intros k Hk. rewrite coef_firstn by lia. rewrite (cprod_coef xring). apply conv_core; lia.
Qed.
Lemma cauchy_re (f g : nat -> R) n : xcauchy (fun i => xre (f i)) (fun i => xre (g i)) n = xre ((cauchy (rO := 0%R) (radd := Rplus) (rmul := Rmult)) f g n).
Proof. unfold cauchy. rewrite <- xsum_re. apply sum_ext. intros i _. apply xre_mul. Qed.
Lemma Rring : ring_theory 0%R 1%R Rplus Rmult Rminus Ropp eq.
Proof. constructor; intros; ring. Qed.
Lemma map_pad_re N (a : list R) : map xre (firstn N a ++ repeat 0%R (N - length a)) = firstn N (map xre a) ++ repeat x0 (N - length (map xre a)).
Proof. rewrite map_app, firstn_map, map_length. f_equal. change x0 with (xre 0). generalize (N - length a). intros m. induction m; simpl; [reflexivity|now f_equal]. Qed.
Theorem fftconvolve_r_ok a v : a <> [] \/ v <> [] -> fftconvolve_r a v = convolve 0%R Rplus Rmult a v.
Proof.
  intros H. rewrite (convolve_spec Rring) by exact H. unfold fftconvolve_r.
  assert (H1 : 1 <= length a + length v) by (destruct H as [H|H]; apply nonempty_len in H; lia).
  destruct (Nat.eqb_spec (length a + length v) 0); [lia|].
  destruct (fast_size_ok (length a + length v - 1)) as (N & E & L & N1). rewrite E. cbn [bind].
  rewrite !zero_padding_const_spec. cbn [bind].
  set (ap := firstn N a ++ _). set (vp := firstn N v ++ _).
  assert (La : length ap = N) by apply pad_length. assert (Lv : length vp = N) by apply pad_length.
  rewrite !rfft_ok by (intros C; apply (f_equal (@length _)) in C; simpl in C; lia). cbn [bind]. rewrite La, Lv.
  pose proof (half_S N N1) as HS.
  rewrite map2_ok by (rewrite !firstn_length, !dft_length, !map_length, La, Lv; reflexivity). cbn [bind].
  rewrite irfft_n by exact N1. cbn [bind].
  set (F := map (fun xy => xmul (fst xy) (snd xy)) (combine (dft (map xre ap)) (dft (map xre vp)))).
  assert (LF : length F = N) by (unfold F; rewrite map_length, combine_length, !dft_length, !map_length, La, Lv; lia).
  replace (map (fun xy => xmul (fst xy) (snd xy)) (combine (firstn (N / 2 + 1) (dft (map xre ap))) (firstn (N / 2 + 1) (dft (map xre vp)))))
    with (firstn (N / 2 + 1) F) by (unfold F; now rewrite firstn_map, combine_firstn).
  rewrite (sym_ext F N LF N1).
  2:{ intros k Hk Hk1. unfold F. rewrite !prod_list_coef by (rewrite !dft_length, !map_length; lia).
      pose proof (dft_real_hermitian ap k Hk1 ltac:(lia)) as Ea. pose proof (dft_real_hermitian vp k Hk1 ltac:(lia)) as Ev.
      rewrite La in Ea. rewrite Lv in Ev. rewrite Ea, Ev, xconj_mul. reflexivity. }
  f_equal. unfold class_resize. rewrite map_length, idft_length, LF. replace (length a + length v - 1 - N) with 0 by lia. cbn [repeat]. rewrite app_nil_r.
  apply (list_ext (rO := 0%R)); rewrite firstn_length, map_length, idft_length, LF.
  - rewrite cprod_length. lia.
  - intros k Hk. rewrite (cprod_coef Rring). unfold coef at 1. rewrite nth_firstn_gen by lia.
    rewrite (nth_indep _ 0%R (fst x0)) by (rewrite map_length, idft_length; lia). rewrite (map_nth (@fst R R)).
    change (nth k (idft F) x0) with (xcoef (idft F) k). unfold F, ap, vp. rewrite !map_pad_re.
    rewrite (conv_core (map xre a) (map xre v) N) by (rewrite ?map_length; lia).
    rewrite (cauchy_ext (rO := x0) (radd := xadd) (rmul := xmul) (xcoef (map xre a)) (fun i => xre (rcoef a i)) (xcoef (map xre v)) (fun i => xre (rcoef v i))) by (intros; apply xcoef_map_re).
    rewrite cauchy_re. reflexivity.
Qed.
