(** Facts about Plots2.v. *)
From Coq Require Import ZArith Reals String.
From Verif Require Import Base Functional FunctionalProofs FunctionalFacts Spec SumLib CplxR Numeric NumericProofs RangeManips Fft FftConv FftConvFacts Spectral SpectralFacts3 SpectralFacts5 Plots2.
From Coq Require Import Lra Psatz.
Open Scope nat_scope.
Set Implicit Arguments.
Notation length := List.length.

(** *** specification: power of the spectrum of a window at k / N cycles per sample *)
Definition wcos (w : list R) (N k : nat) : R := rsum (fun j => nth j w 0 * cos (2 * PI * (INR j * INR k) / INR N))%R (length w).
Definition wsin (w : list R) (N k : nat) : R := rsum (fun j => nth j w 0 * sin (2 * PI * (INR j * INR k) / INR N))%R (length w).
Definition wpower (w : list R) (N k : nat) : R := (wcos w N k * wcos w N k + wsin w N k * wsin w N k)%R.
Definition total (w : list R) : R := rsum (fun j => nth j w 0%R) (length w).
(** 10 log10 of a ratio of powers *)
Definition decibel (p : R) : R := (10 * (ln p / ln 10))%R.

Lemma rsum_ext f g n : (forall k, k < n -> f k = g k) -> rsum f n = rsum g n.
Proof. intros H. induction n as [|n IH]; cbn [nsum]; [reflexivity|]. rewrite IH by (intros; apply H; lia). rewrite H by lia. reflexivity. Qed.
Lemma rsum_le (f g : nat -> R) (n : nat) : (forall k, k < n -> (f k <= g k)%R) -> (rsum f n <= rsum g n)%R.
Proof. intros H. induction n as [|n IH]; cbn [nsum]; [lra|]. assert (rsum f n <= rsum g n)%R by (apply IH; intros; apply H; lia). specialize (H n ltac:(lia)). lra. Qed.
Lemma rsum_lin (f g : nat -> R) (a b : R) n : rsum (fun k => a * f k + b * g k)%R n = (a * rsum f n + b * rsum g n)%R.
Proof. induction n as [|n IH]; cbn [nsum]; [ring|]. rewrite IH. ring. Qed.
Lemma rsum_scale (f : nat -> R) (a : R) n : rsum (fun k => f k * a)%R n = (rsum f n * a)%R.
Proof. induction n as [|n IH]; cbn [nsum]; [ring|]. rewrite IH. ring. Qed.

Lemma wpower_0 w N : wpower w N 0 = (total w * total w)%R.
Proof.
  unfold wpower. replace (wcos w N 0) with (total w).
  2:{ unfold wcos, total. apply rsum_ext. intros k _. cbn [INR]. replace (2 * PI * (INR k * 0) / INR N)%R with 0%R by (unfold Rdiv; ring). rewrite cos_0. ring. }
  replace (wsin w N 0) with 0%R; [ring|]. unfold wsin. symmetry. rewrite (rsum_ext _ (fun j => nth j w 0 * 0)%R).
  - rewrite rsum_scale. ring.
  - intros k _. cbn [INR]. replace (2 * PI * (INR k * 0) / INR N)%R with 0%R by (unfold Rdiv; ring). now rewrite sin_0.
Qed.
Lemma wpower_nonneg w N k : (0 <= wpower w N k)%R.
Proof. unfold wpower. pose proof (Rle_0_sqr (wcos w N k)). pose proof (Rle_0_sqr (wsin w N k)). unfold Rsqr in *. lra. Qed.

Lemma wpower_max w N k : (forall v, In v w -> (0 <= v)%R) -> (wpower w N k <= total w * total w)%R.
Proof.
  intros H. set (A := wcos w N k). set (B := wsin w N k). set (q := sqrt (wpower w N k)).
  pose proof (wpower_nonneg w N k) as HP. pose proof (sqrt_pos (wpower w N k)) as Hq. pose proof (sqrt_sqrt _ HP) as Hs. fold q in Hq, Hs.
  assert (E : (wpower w N k = rsum (fun j => A * (nth j w 0 * cos (2 * PI * (INR j * INR k) / INR N)) + B * (nth j w 0 * sin (2 * PI * (INR j * INR k) / INR N))) (length w))%R)
    by (rewrite rsum_lin; reflexivity).
  assert (L : (wpower w N k <= rsum (fun j => nth j w 0 * q) (length w))%R).
  { rewrite E. apply rsum_le. intros j Hj. assert (W : (0 <= nth j w 0)%R) by (apply H, nth_In, Hj).
    set (th := (2 * PI * (INR j * INR k) / INR N)%R). pose proof (sin2_cos2 th) as T. unfold Rsqr in T.
    assert ((A * cos th + B * sin th)%R <= q)%R.
    { assert ((A * cos th + B * sin th) * (A * cos th + B * sin th) <= q * q)%R.
      { rewrite Hs. unfold wpower. fold A B. pose proof (Rle_0_sqr (A * sin th - B * cos th)) as Q. unfold Rsqr in Q.
        replace (A * A + B * B)%R with ((A * A + B * B) * (sin th * sin th + cos th * cos th))%R by (rewrite T; ring). lra. }
      apply Rnot_lt_le. intros C. assert (q * q < (A * cos th + B * sin th) * (A * cos th + B * sin th))%R by (apply Rmult_le_0_lt_compat; lra). lra. }
    replace (A * (nth j w 0 * cos th) + B * (nth j w 0 * sin th))%R with (nth j w 0 * (A * cos th + B * sin th))%R by ring.
    apply Rmult_le_compat_l; assumption. }
  rewrite rsum_scale in L. change (rsum (fun k0 => nth k0 w 0%R) (length w)) with (total w) in L. rewrite <- Hs in L |- *.
  assert (Tn : (0 <= total w)%R). { unfold total. assert (Z0 : rsum (fun _ => 0 * 0)%R (length w) = 0%R) by (rewrite rsum_scale; ring). rewrite <- Z0 at 1. apply rsum_le. intros j Hj. rewrite Rmult_0_l. apply H, nth_In, Hj. }
  destruct (Req_dec q 0) as [Z|Z]; [rewrite Z; pose proof (Rle_0_sqr (total w)) as Q; unfold Rsqr in Q; lra|].
  assert (q <= total w)%R by (apply Rmult_le_reg_r with q; lra). apply Rmult_le_compat; assumption.
Qed.

(** *** the padded FFT *)
Definition padded_w (w : list R) : list R := repeat 0%R (5 * length w) ++ w ++ repeat 0%R (5 * length w).
Lemma padded_w_length w : length (padded_w w) = 11 * length w.
Proof. unfold padded_w. rewrite !app_length, !repeat_length. lia. Qed.
Lemma nth_padded_w w i : nth i (padded_w w) 0%R = if (5 * length w <=? i) && (i <? 6 * length w) then nth (i - 5 * length w) w 0%R else 0%R.
Proof.
  unfold padded_w. destruct (Nat.leb_spec (5 * length w) i) as [H|H]; cbn [andb].
  - rewrite app_nth2; rewrite repeat_length; [|lia]. destruct (Nat.ltb_spec i (6 * length w)) as [G|G].
    + rewrite app_nth1 by lia. reflexivity.
    + rewrite app_nth2 by lia. rewrite nth_repeat. reflexivity.
  - rewrite app_nth1 by (rewrite repeat_length; lia). apply nth_repeat.
Qed.
Lemma xnorm2_root N m : xnorm2 (root N m) = 1%R.
Proof. unfold xnorm2, root. cbn [fst snd]. pose proof (sin2_cos2 (ang N m)) as H. unfold Rsqr in H. lra. Qed.
Lemma xsum_pair f n : xsum f n = (rsum (fun k => fst (f k)) n, rsum (fun k => snd (f k)) n).
Proof. induction n as [|n IH]; cbn [nsum]; [reflexivity|]. rewrite IH. reflexivity. Qed.

Lemma dft_padded w k : w <> [] ->
  xnorm2 (dft_at (map xre (padded_w w)) (11 * length w) k) = wpower w (11 * length w) k.
Proof.
  intros Hne. assert (Hn : 1 <= length w) by (destruct w; [congruence|cbn; lia]). set (n := length w) in *.
  unfold dft_at. assert (C : forall j, xcoef (map xre (padded_w w)) j = xre (nth j (padded_w w) 0%R)) by (intros j; unfold coef; change x0 with (xre 0%R); apply map_nth).
  rewrite (sum_window xring _ (5 * n) n (11 * n)).
  - transitivity (xnorm2 (xmul (root (11 * n) (Z.of_nat (5 * n) * Z.of_nat k)) (xsum (fun j => xmul (xre (nth j w 0%R)) (root (11 * n) (Z.of_nat j * Z.of_nat k))) n))).
    + f_equal. rewrite <- (sum_scale_l xring). apply sum_ext. intros j Hj. rewrite C, nth_padded_w. fold n.
      destruct (Nat.leb_spec (5 * n) (5 * n + j)); [|lia]. destruct (Nat.ltb_spec (5 * n + j) (6 * n)); [|lia]. cbn [andb]. replace (5 * n + j - 5 * n) with j by lia.
      rewrite Nat2Z.inj_add, Z.mul_add_distr_r, root_add by lia. apply injective_projections; unfold xmul, xre; cbn [fst snd]; ring.
    + rewrite xnorm2_mul, xnorm2_root, Rmult_1_l, xsum_pair. unfold xnorm2, wpower. cbn [fst snd].
      assert (A1 : rsum (fun j => fst (xmul (xre (nth j w 0%R)) (root (11 * n) (Z.of_nat j * Z.of_nat k)))) n = wcos w (11 * n) k).
      { unfold wcos. fold n. apply rsum_ext. intros j _. unfold xmul, xre, root, ang. cbn [fst snd]. rewrite mult_IZR, <- !INR_IZR_INZ. ring. }
      assert (A2 : rsum (fun j => snd (xmul (xre (nth j w 0%R)) (root (11 * n) (Z.of_nat j * Z.of_nat k)))) n = (- wsin w (11 * n) k)%R).
      { unfold wsin. fold n. replace (- rsum (fun j => nth j w 0 * sin (2 * PI * (INR j * INR k) / INR (11 * n))) n)%R with (rsum (fun j => nth j w 0 * sin (2 * PI * (INR j * INR k) / INR (11 * n)) * -1) n)%R by (rewrite rsum_scale; ring).
        apply rsum_ext. intros j _. unfold xmul, xre, root, ang. cbn [fst snd]. rewrite mult_IZR, <- !INR_IZR_INZ. ring. }
      rewrite A1, A2. ring.
  - lia.
  - intros j Hj. rewrite C, nth_padded_w. fold n. destruct (Nat.leb_spec (5 * n) j); [lia|]. cbn [andb]. apply injective_projections; unfold xmul, xre, x0; cbn [fst snd]; ring.
  - intros j Hj. rewrite C, nth_padded_w. fold n. destruct (Nat.ltb_spec j (6 * n)); [lia|]. rewrite andb_false_r. apply injective_projections; unfold xmul, xre, x0; cbn [fst snd]; ring.
Qed.

(** level of bin k in dB relative to bin 0: -infinity for a zero of the spectrum *)
Definition rel_level (w : list R) (N k : nat) : ext :=
  if Req_EM_T (wpower w N k) 0 then ENinf else ER (decibel (wpower w N k / (total w * total w))).

Lemma window_spectrum_ok w : w <> [] -> total w <> 0%R ->
  window_spectrum_db w = Ok (map (rel_level w (11 * length w)) (seq 0 (11 * length w / 2 + 1))).
Proof.
  intros Hne Ht. unfold window_spectrum_db, concatenate_rv1, concatenate_cc. cbn [orb]. rewrite !transform1_map, !map_id, <- app_assoc.
  fold (padded_w w). assert (Hn : 1 <= length w) by (destruct w; [congruence|cbn; lia]). assert (Hp : padded_w w <> []) by (intros C; apply (f_equal (@length _)) in C; rewrite padded_w_length in C; cbn in C; lia).
  rewrite rfft_ok by exact Hp. cbn [bind]. rewrite padded_w_length. set (N := 11 * length w). assert (HN : N / 2 + 1 <= N) by (pose proof (Nat.div_mod N 2 ltac:(lia)); unfold N in *; lia).
  assert (Y : map xnorm2 (firstn (N / 2 + 1) (dft (map xre (padded_w w)))) = map (wpower w N) (seq 0 (N / 2 + 1))).
  { unfold dft. rewrite map_length, padded_w_length. fold N. rewrite firstn_map. rewrite map_map.
    replace (firstn (N / 2 + 1) (seq 0 N)) with (seq 0 (N / 2 + 1)).
    2:{ assert (Sq : seq 0 N = seq 0 (N / 2 + 1) ++ seq (0 + (N / 2 + 1)) (N - (N / 2 + 1))) by (rewrite <- seq_app; f_equal; lia). rewrite Sq, firstn_app, seq_length, Nat.sub_diag, firstn_O, app_nil_r. rewrite firstn_all2 by (rewrite seq_length; lia). reflexivity. }
    apply map_ext. intros k. now apply dft_padded. }
  rewrite ?transform1_map in *. rewrite Y. assert (A0 : at_ub (map (wpower w N) (seq 0 (N / 2 + 1))) 0 = Ok (total w * total w)%R).
  { rewrite Nat.add_1_r. cbn [seq map]. unfold at_ub. cbn [nth_error]. now rewrite wpower_0. }
  rewrite A0. cbn [bind]. apply (f_equal Ok). rewrite !transform1_map, !map_map. apply map_ext. intros k.
  unfold rel_level, ediv. assert (T2 : (0 < total w * total w)%R) by (pose proof (Rlt_0_sqr _ Ht) as Q; exact Q). destruct (Req_EM_T (total w * total w) 0) as [Z|_]; [lra|].
  pose proof (wpower_nonneg w N k) as Hk. unfold elog10. destruct (Req_EM_T (wpower w N k) 0) as [Z|Z].
  - rewrite Z. destruct (Rlt_dec 0 (0 / (total w * total w))) as [C|_]; [unfold Rdiv in C; lra|]. destruct (Req_EM_T (0 / (total w * total w)) 0) as [_|C]; [reflexivity|]. exfalso. apply C. unfold Rdiv. ring.
  - destruct (Rlt_dec 0 (wpower w N k / (total w * total w))) as [_|C]; [reflexivity|]. exfalso. apply C. apply Rdiv_lt_0_compat; lra.
Qed.
(** a window whose samples add up to 0: division by zero *)
Lemma window_spectrum_zero w : w <> [] -> total w = 0%R ->
  window_spectrum_db w = Ok (map (fun k => if Req_EM_T (wpower w (11 * length w) k) 0 then ENan else EPinf) (seq 0 (11 * length w / 2 + 1))).
Proof.
  intros Hne Ht. unfold window_spectrum_db, concatenate_rv1, concatenate_cc. cbn [orb]. rewrite !transform1_map, !map_id, <- app_assoc.
  fold (padded_w w). assert (Hn : 1 <= length w) by (destruct w; [congruence|cbn; lia]). assert (Hp : padded_w w <> []) by (intros C; apply (f_equal (@length _)) in C; rewrite padded_w_length in C; cbn in C; lia).
  rewrite rfft_ok by exact Hp. cbn [bind]. rewrite padded_w_length. set (N := 11 * length w). assert (HN : N / 2 + 1 <= N) by (pose proof (Nat.div_mod N 2 ltac:(lia)); unfold N in *; lia).
  assert (Y : map xnorm2 (firstn (N / 2 + 1) (dft (map xre (padded_w w)))) = map (wpower w N) (seq 0 (N / 2 + 1))).
  { unfold dft. rewrite map_length, padded_w_length. fold N. rewrite firstn_map. rewrite map_map.
    replace (firstn (N / 2 + 1) (seq 0 N)) with (seq 0 (N / 2 + 1)).
    2:{ assert (Sq : seq 0 N = seq 0 (N / 2 + 1) ++ seq (0 + (N / 2 + 1)) (N - (N / 2 + 1))) by (rewrite <- seq_app; f_equal; lia). rewrite Sq, firstn_app, seq_length, Nat.sub_diag, firstn_O, app_nil_r. rewrite firstn_all2 by (rewrite seq_length; lia). reflexivity. }
    apply map_ext. intros k. now apply dft_padded. }
  rewrite ?transform1_map in *. rewrite Y. assert (A0 : at_ub (map (wpower w N) (seq 0 (N / 2 + 1))) 0 = Ok (total w * total w)%R).
  { rewrite Nat.add_1_r. cbn [seq map]. unfold at_ub. cbn [nth_error]. now rewrite wpower_0. }
  rewrite A0. cbn [bind]. apply (f_equal Ok). rewrite !transform1_map, !map_map. apply map_ext. intros k. rewrite Ht.
  unfold ediv. destruct (Req_EM_T (0 * 0) 0) as [_|C]; [|exfalso; apply C; ring].
  pose proof (wpower_nonneg w N k) as Hk. destruct (Req_EM_T (wpower w N k) 0) as [Z|Z]; [reflexivity|]. destruct (Rlt_dec 0 (wpower w N k)) as [_|C]; [reflexivity|]. exfalso. apply C. lra.
Qed.
Lemma rel_level_0 w N : total w <> 0%R -> rel_level w N 0 = ER 0%R.
Proof.
  intros H. unfold rel_level. rewrite wpower_0. assert (T2 : (0 < total w * total w)%R) by (pose proof (Rlt_0_sqr _ H) as Q; exact Q).
  destruct (Req_EM_T (total w * total w) 0) as [Z|_]; [lra|]. f_equal. unfold decibel. replace (total w * total w / (total w * total w))%R with 1%R by (field; exact H). rewrite ln_1. unfold Rdiv. ring.
Qed.
Lemma ln10_pos : (0 < ln 10)%R.
Proof. rewrite <- ln_1. apply ln_increasing; lra. Qed.
Lemma rel_level_le w N k : (forall v, In v w -> (0 <= v)%R) -> total w <> 0%R -> rel_level w N k = ENinf \/ exists d, rel_level w N k = ER d /\ (d <= 0)%R.
Proof.
  intros H Ht. unfold rel_level. destruct (Req_EM_T (wpower w N k) 0) as [Z|Z]; [now left|]. right. eexists. split; [reflexivity|].
  assert (T2 : (0 < total w * total w)%R) by (pose proof (Rlt_0_sqr _ Ht) as Q; exact Q). pose proof (wpower_nonneg w N k). pose proof (wpower_max w N k H) as M. pose proof ln10_pos.
  unfold decibel. assert (P : (0 < wpower w N k / (total w * total w) <= 1)%R).
  { split; [apply Rdiv_lt_0_compat; lra|]. apply Rmult_le_reg_r with (total w * total w)%R; [lra|]. unfold Rdiv. rewrite Rmult_assoc, Rinv_l by lra. lra. }
  assert (ln (wpower w N k / (total w * total w)) <= 0)%R by (rewrite <- ln_1; destruct (Req_dec (wpower w N k / (total w * total w)) 1) as [E|E]; [rewrite E; lra|apply Rlt_le, ln_increasing; lra]).
  assert (0 < / ln 10)%R by (now apply Rinv_0_lt_compat). unfold Rdiv. nra.
Qed.

(** *** main lobe width *)
Definition enum (e : ext) : Prop := e <> ENan.
Lemma eltb_swo : strict_weak_order_on enum eltb.
Proof.
  constructor.
  - intros [r| | |] _; cbn; try reflexivity. destruct (Rlt_dec r r); [lra|reflexivity].
  - intros [a| | |] [b| | |] [c| | |] Ha Hb Hc; cbn; try (exfalso; apply Ha; reflexivity) || (exfalso; apply Hb; reflexivity) || (exfalso; apply Hc; reflexivity) || idtac; try congruence;
      repeat match goal with |- context[Rlt_dec ?u ?v] => destruct (Rlt_dec u v) end; try congruence; lra.
  - intros [a| | |] [b| | |] [c| | |] Ha Hb Hc; cbn; try (exfalso; apply Ha; reflexivity) || (exfalso; apply Hb; reflexivity) || (exfalso; apply Hc; reflexivity) || idtac; try congruence;
      repeat match goal with |- context[Rlt_dec ?u ?v] => destruct (Rlt_dec u v) end; try congruence; lra.
Qed.
Lemma mainlobe_ok w (f : list R) : w <> [] -> total w <> 0%R -> f = map (fun k => INR k / INR (11 * length w))%R (seq 0 (11 * length w / 2 + 1)) ->
  exists k d, k <= 11 * length w / 2 /\ mainlobe_width f (map (rel_level w (11 * length w)) (seq 0 (11 * length w / 2 + 1))) = Ok (4 * (INR k / INR (11 * length w)))%R /\
    rel_level w (11 * length w) k = ER d /\ (-3 <= d)%R /\
    (forall j e, j <= 11 * length w / 2 -> rel_level w (11 * length w) j = ER e -> (-3 <= e)%R -> (d <= e)%R /\ (j < k -> (d < e)%R)).
Proof.
  intros Hne Ht Hf. set (N := 11 * length w) in *. unfold mainlobe_width. rewrite transform1_map, map_map. rewrite Nat.add_1_r. cbn [seq map].
  set (rest := map (fun x => eadd3 (rel_level w N x)) (seq 1 (N / 2))).
  assert (NN : forall y, enum y \/ y = ENan) by (intros [r| | |]; [left|left|left|right]; unfold enum; congruence).
  destruct (@argcmp_hd_valid ext eltb enum eltb_swo epositive (eadd3 (rel_level w N 0)) rest) as (i & Hi & m & Hm & Vm & Hbest & Hfirst).
  { intros y _ Py. destruct y; cbn in Py; congruence. }
  { rewrite rel_level_0 by exact Ht. cbn. destruct (Rle_dec 0 (3 + 0)); [reflexivity|lra]. }
  rewrite Hi. cbn [bind].
  assert (All : forall j, nth_error (eadd3 (rel_level w N 0) :: rest) j = if j <=? N / 2 then Some (eadd3 (rel_level w N j)) else None).
  { intros j. change (eadd3 (rel_level w N 0) :: rest) with (map (fun x => eadd3 (rel_level w N x)) (seq 0 (S (N / 2)))). destruct (Nat.leb_spec j (N / 2)).
    - rewrite nth_error_map, (nth_error_nth' _ 0) by (rewrite seq_length; lia). rewrite seq_nth by lia. reflexivity.
    - apply nth_error_None. rewrite map_length, seq_length. lia. }
  rewrite All in Hm. destruct (Nat.leb_spec i (N / 2)) as [Li|]; [|discriminate]. injection Hm as <-.
  assert (Lv : exists d, rel_level w N i = ER d /\ (-3 <= d)%R).
  { change (epositive (eadd3 (rel_level w N i)) = true) in Vm. destruct (rel_level w N i) as [r| | |] eqn:Er; cbn in Vm; try discriminate Vm.
    - exists r. split; [reflexivity|]. destruct (Rle_dec 0 (3 + r)); [lra|discriminate Vm].
    - exfalso. unfold rel_level in Er. destruct (Req_EM_T (wpower w N i) 0); discriminate Er. }
  destruct Lv as (d & Ed & Hd). exists i, d. split; [exact Li|]. split.
  - rewrite Hf. unfold at_ub. rewrite nth_error_map, (nth_error_nth' _ 0) by (rewrite seq_length; lia). rewrite seq_nth by lia. reflexivity.
  - split; [exact Ed|]. split; [exact Hd|]. intros j e Hj Ej He. specialize (All j). destruct (Nat.leb_spec j (N / 2)); [|lia].
    assert (P : epositive (eadd3 (rel_level w N j)) = true) by (rewrite Ej; cbn; destruct (Rle_dec 0 (3 + e)); [reflexivity|lra]).
    specialize (Hbest j _ All P). specialize (fun L => Hfirst j _ L All P). rewrite Ed, Ej in *. cbn in Hbest, Hfirst. split.
    + destruct (Rlt_dec (3 + e) (3 + d)); [exfalso; apply Hbest; reflexivity|lra].
    + intros L. specialize (Hfirst L). destruct (Rlt_dec (3 + d) (3 + e)); [lra|discriminate].
Qed.

(** *** winvis *)
Lemma rfftfreq_r_ok n : 1 <= n -> rfftfreq 0%R Rmult Rdiv Rgtb IZR (fun v => (v + 1)%R) n 1%R = Ok (map (fun k => INR k / INR n)%R (seq 0 (n / 2 + 1))).
Proof.
  intros H. unfold rfftfreq, require. destruct (Nat.ltb_spec 0 n); [|lia]. unfold Rgtb. destruct (Rlt_dec 0 1) as [_|C]; [|lra]. apply (f_equal Ok).
  rewrite transform1_map. assert (I : forall m s, iota (fun v => (v + 1)%R) m (INR s) = map INR (seq s m)).
  { induction m as [|m IH]; intros s; cbn [iota seq map]; [reflexivity|]. f_equal. rewrite <- IH, S_INR. reflexivity. }
  change (IZR 0) with (INR 0). rewrite I, map_map. apply map_ext. intros k. rewrite <- INR_IZR_INZ. unfold Rdiv. f_equal. f_equal. ring.
Qed.
Lemma omap_ok {A B} (g : A -> outcome B) (h : A -> B) l : (forall a, In a l -> g a = Ok (h a)) -> omap g l = Ok (map h l).
Proof. induction l as [|a l IH]; intros H; cbn [omap map]; [reflexivity|]. rewrite H by (now left). cbn [bind]. rewrite IH by (intros; apply H; now right). reflexivity. Qed.

(** *** settings: the value given by the last call that sets it, else the default *)
Definition last_set {S A} (f : S -> option A) (dflt : A) (h : list S) : A := fold_left (fun acc s => match f s with Some v => v | None => acc end) h dflt.
Definition csd_color_of (s : csd_setter) := match s with CsdColor c => Some c | _ => None end.
Definition csd_grid_of (s : csd_setter) := match s with CsdGrid g => Some g | _ => None end.
Definition h_color_of (s : hist_setter) := match s with HColor c => Some c | _ => None end.
Definition h_log_of (s : hist_setter) := match s with HLog c => Some c | _ => None end.
Definition h_type_of (s : hist_setter) := match s with HType c => Some c | _ => None end.
Definition h_rwidth_of (s : hist_setter) := match s with HRwidth c => Some c | _ => None end.
Lemma last_set_snoc {S A} (f : S -> option A) d h s : last_set f d (h ++ [s]) = match f s with Some v => v | None => last_set f d h end.
Proof. unfold last_set. rewrite fold_left_app. reflexivity. Qed.

Lemma csd_history f p h : csd_calls h (csdplot_new f p) =
  let o := mk_csdplot (last_set csd_color_of "blue"%string h) (last_set csd_grid_of true h) f p in (o, csd_redraw o).
Proof.
  induction h as [|s h IH] using rev_ind; [reflexivity|]. unfold csd_calls in *. rewrite fold_left_app, IH, !last_set_snoc. destruct s; reflexivity.
Qed.

Definition hist_marks {H V} (t : hist_type) (counts : list H) (bins : list V) (color : string) (w : R) : list (hist_mark H V) :=
  match t with BAR => [Boxes bins counts color w] | STEPFILLED => [StepsFilled bins counts color] | _ => [] end.
Lemma hist_history {H V} keeps (counts : list H) (bins : list V) (d : V) h : bins <> [] ->
  exists o v, histplot_new keeps counts bins = Ok (o, v) /\ exists o' v', hist_calls keeps h (o, v) = (o', v') /\
    v_xrange v' = (hd d bins, last bins d) /\
    v_marks v' = hist_marks (last_set h_type_of BAR h) counts bins (last_set h_color_of "blue"%string h) (last_set h_rwidth_of 1%R h) /\
    o' = mk_histplot (last_set h_color_of "blue"%string h) counts bins (last_set h_log_of false h) (last_set h_type_of BAR h) (last_set h_rwidth_of 1%R h) /\
    (last_set h_log_of false h = true -> v_log v' = true) /\ (~ In (HLog true) h -> v_log v' = false /\ last_set h_log_of false h = false).
Proof.
  intros Hb. assert (A0 : at_ub bins 0 = Ok (hd d bins)) by (destruct bins; [congruence|reflexivity]).
  assert (A1 : at_ub bins (length bins - 1) = Ok (last bins d)).
  { unfold at_ub. destruct (exists_last Hb) as (b & y & ->). rewrite last_last, app_length, nth_error_app2 by (cbn; lia). cbn [List.length]. replace (length b + 1 - 1 - length b) with 0 by lia. reflexivity. }
  unfold histplot_new. rewrite A0, A1. cbn [bind]. eexists. eexists. split; [reflexivity|].
  induction h as [|s h (o' & v' & E & Hr & Hm & Ho & Hl & Hn)] using rev_ind.
  - eexists. eexists. split; [reflexivity|]. cbn. repeat split; try reflexivity; try discriminate. destruct keeps; reflexivity.
  - unfold hist_calls in *. rewrite fold_left_app. cbv zeta in *. rewrite E. cbn [fold_left]. subst o'.
    destruct s as [c|b|t|w]; cbn [hist_set]; eexists; eexists; (split; [reflexivity|]); rewrite !last_set_snoc; cbn [h_color_of h_log_of h_type_of h_rwidth_of hp_color hp_hist hp_bins hp_log hp_type hp_rwidth] in *.
    + split; [exact Hr|]. split; [reflexivity|]. split; [reflexivity|]. split; [intros L; unfold hist_redraw; cbn; now rewrite L|].
      intros N. destruct Hn as [Hn1 Hn2]; [intros C; apply N, in_or_app; now left|]. split; [|exact Hn2]. unfold hist_redraw. cbn. rewrite Hn2, Hn1. now destruct keeps.
    + destruct b.
      * split; [exact Hr|]. split; [exact Hm|]. split; [reflexivity|]. split; [reflexivity|]. intros N. exfalso. apply N, in_or_app. right. now left.
      * split; [exact Hr|]. split; [exact Hm|]. split; [reflexivity|]. split; [discriminate|]. intros N. split; [|reflexivity]. apply Hn. intros C. apply N, in_or_app. now left.
    + split; [exact Hr|]. split; [reflexivity|]. split; [reflexivity|]. split; [intros L; unfold hist_redraw; cbn; now rewrite L|].
      intros N. destruct Hn as [Hn1 Hn2]; [intros C; apply N, in_or_app; now left|]. split; [|exact Hn2]. unfold hist_redraw. cbn. rewrite Hn2, Hn1. now destruct keeps.
    + split; [exact Hr|]. split; [reflexivity|]. split; [reflexivity|]. split; [intros L; unfold hist_redraw; cbn; now rewrite L|].
      intros N. destruct Hn as [Hn1 Hn2]; [intros C; apply N, in_or_app; now left|]. split; [|exact Hn2]. unfold hist_redraw. cbn. rewrite Hn2, Hn1. now destruct keeps.
Qed.

(** *** the scales *)
Definition shows (y : ext) (s : plot_scale) (p : R) : Prop :=
  match s with
  | LINEAR => y = ER p
  | DECIBEL => (0 < p)%R /\ (exists l, y = ER l /\ p = Rpower 10 (l / 10)%R) \/ p = 0%R /\ y = ENinf
  end.
Lemma decibel_shows p : (0 <= p)%R -> shows (emul10 (elog10 (ER p))) DECIBEL p.
Proof.
  intros H. cbn. pose proof ln10_pos. destruct (Rlt_dec 0 p) as [P|P].
  - left. split; [exact P|]. eexists. split; [reflexivity|]. unfold Rpower. replace (10 * (ln p / ln 10) / 10 * ln 10)%R with (ln p) by (field; lra). now rewrite exp_ln.
  - right. destruct (Req_EM_T p 0) as [E|E]; [split; [exact E|reflexivity]|lra].
Qed.
Lemma psd_scaled_shows s p : (forall v, In v p -> (0 <= v)%R) -> Forall2 (fun y v => shows y s v) (psd_scaled s p) p.
Proof.
  intros H. destruct s; cbn [psd_scaled]; rewrite !transform1_map; [|rewrite !map_map]; (induction p as [|v p IH]; cbn [map]; constructor; [|apply IH; intros; apply H; now right]).
  - reflexivity.
  - apply decibel_shows, H. now left.
Qed.
Lemma csd_scaled_shows s p : Forall2 (fun y z => shows y s (xnorm2 z)) (csd_scaled s p) p.
Proof.
  destruct s; cbn [csd_scaled]; rewrite !transform1_map; [|rewrite !map_map]; (induction p as [|v p IH]; cbn [map]; constructor; [|apply IH]).
  - reflexivity.
  - apply decibel_shows. unfold xnorm2. pose proof (Rle_0_sqr (fst v)). pose proof (Rle_0_sqr (snd v)). unfold Rsqr in *. lra.
Qed.
