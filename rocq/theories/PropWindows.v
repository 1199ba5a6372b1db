(** Properties C50-C53 (scicpp/signal/windows.hpp). *)
From Coq Require Import ZArith Reals QArith Qcanon.
From Verif Require Import Base BaseQc BaseFl Functional Spec SumLib Windows WindowsFacts WindowsReal WindowsRange.
From Coq Require Import Lra Psatz.
Open Scope nat_scope.

(** C50: for every element type and every implementation of its arithmetic (rounding included). The Kaiser window requires
    |beta| >= 0, which only a NaN parameter violates. *)
Theorem C50_symmetric : forall (T : Type) (o : wops T) (fam : family (T := T)) (M : nat),
  (forall beta, fam = Kaiser beta -> w_le o (w_of o 0) (w_abs o beta) = true) ->
  exists w, window o fam Symmetric M = Ok w /\ length w = M /\ forall i, i < M -> nth_error w i = nth_error w (M - 1 - i).
Proof. exact @window_symmetric. Qed.
Print Assumptions C50_symmetric.
Theorem C50_get_window : forall (T : Type) (o : wops T) (win M : nat), win < 12 ->
  exists w, get_window o win M = Ok w /\ length w = M /\ forall i, i < M -> nth_error w i = nth_error w (M - 1 - i).
Proof.
  intros T o win M H. unfold get_window.
  do 12 (destruct win as [|win]; [apply C50_symmetric; intros beta C; discriminate C|]). lia.
Qed.
Print Assumptions C50_get_window.
Definition natops : wops nat := {| w_of := Z.to_nat; w_num := (fun n d => Z.to_nat n); w_add := Nat.add; w_sub := Nat.sub; w_mul := Nat.mul; w_div := Nat.div;
  w_opp := (fun x => x); w_abs := (fun x => x); w_fma := (fun a b c => a * b + c); w_cos := (fun x => x * x); w_sin := (fun x => x); w_exp := (fun x => x);
  w_sqrt := (fun x => x); w_pow := Nat.pow; w_bessel_i0 := (fun x => x); w_pi := 3; w_le := Nat.leb; w_iszero := Nat.eqb 0; w_trunc := Z.of_nat |}.
Example C50_nonvacuous : window natops Bartlett Symmetric 3 = Ok [4; 3; 4] /\ window natops Bartlett Periodic 3 = Ok [2; 2; 2].
Proof. split; reflexivity. Qed.

(** C51 *)
Theorem C51_periodic_partial : forall (T : Type) (o : wops T) (fam : family (T := T)) (M : nat),
  match fam with
  | Kaiser beta => w_le o (w_of o 0) (w_abs o beta) = true
  | Tukey alpha => w_le o alpha (w_of o 0) = true \/ w_le o (w_of o 1) alpha = false
  | _ => True
  end ->
  exists w w', window o fam Periodic M = Ok w /\ window o fam Symmetric (S M) = Ok w' /\ w = firstn M w' /\ length w = M.
Proof.
  intros T o fam M H. destruct (proj2 (window_good o fam M H)) as (w & w' & E & E' & F). exists w, w'. split; [exact E|]. split; [exact E'|]. split; [exact F|].
  destruct (proj1 (window_good o fam (S M) H)) as (w2 & E2 & L & _). rewrite E' in E2. injection E2 as <-. rewrite F, firstn_length, L. lia.
Qed.
Print Assumptions C51_periodic_partial.
(** tukey(M, alpha >= 1) ignores the symmetry argument: it returns the symmetric Hann window in both modes *)
Theorem C51_tukey_refuted : forall (I0 : R -> R) (alpha : R), (1 <= alpha)%R ->
  (forall M, window (rops I0) (Tukey alpha) Periodic M = window (rops I0) (Tukey alpha) Symmetric M) /\
  exists w w', window (rops I0) (Tukey alpha) Periodic 3 = Ok w /\ window (rops I0) (Tukey alpha) Symmetric 4 = Ok w' /\ w <> firstn 3 w'.
Proof.
  intros I0 al H.
  assert (E : forall s M, window (rops I0) (Tukey al) s M = window (rops I0) Hann Symmetric M).
  { intros s M. cbn [window]. cbn [rops w_le w_of]. destruct (Rle_dec al 0); [lra|]. destruct (Rle_dec 1 al); [reflexivity|lra]. }
  split; [intros M; now rewrite !E|]. rewrite !E, !hann_R by lia. do 2 eexists. split; [reflexivity|]. split; [reflexivity|].
  cbn [seq map firstn]. intros C. injection C as _ C _.
  replace (2 * PI * 1 / (1 + 1 + 1 - 1))%R with PI in C by field. replace (2 * PI * 1 / (1 + 1 + 1 + 1 - 1))%R with (2 * (PI / 3))%R in C by field.
  rewrite cos_PI, cos_2a_cos, cos_PI3 in C. lra.
Qed.
Print Assumptions C51_tukey_refuted.
Example C51_nonvacuous : match window natops Bohman Symmetric 4 with Ok w => window natops Bohman Periodic 3 = Ok (firstn 3 w) | _ => False end.
Proof. reflexivity. Qed.

(** C52: exact real arithmetic; [doc_formula] (WindowsRange.v) is the table of textbook formulas.  Missing: the Tukey window of
    even length (see the refutation) and length 1. *)
Theorem C52_formulas_partial : forall (I0 : R -> R) (fam : family (T := R)) (M : nat), 2 <= M ->
  match fam with
  | Gaussian sigma => sigma <> 0%R
  | GeneralGaussian p sigma => (0 < sigma)%R
  | Tukey al => (al <= 0)%R \/ (1 <= al)%R \/ M mod 2 = 1
  | _ => True
  end ->
  window (rops I0) fam Symmetric M = Ok (map (doc_formula I0 fam M) (seq 0 M)).
Proof. exact all_formulas. Qed.
Print Assumptions C52_formulas_partial.
Definition unit_window (I0 : R -> R) (fam : family (T := R)) (M : nat) : Prop :=
  match fam with
  | GeneralCosine _ | Flattop => False
  | GeneralHamming al => (1 / 2 <= al <= 1)%R
  | Gaussian sigma => sigma <> 0%R
  | GeneralGaussian p sigma => (0 < sigma /\ 0 < p)%R
  | Kaiser beta => (forall x, (0 <= x)%R -> (0 < I0 x)%R) /\ (forall x y, (0 <= x <= y)%R -> (I0 x <= I0 y)%R)
  | Tukey al => (al <= 0)%R \/ (1 <= al)%R \/ M mod 2 = 1
  | _ => True
  end.
Theorem C52_range_partial : forall (I0 : R -> R) (fam : family (T := R)) (M : nat), 2 <= M -> unit_window I0 fam M ->
  exists w, window (rops I0) fam Symmetric M = Ok w /\ length w = M /\ forall x, In x w -> (0 <= x <= 1)%R.
Proof.
  intros I0 fam M H P. eexists. split; [apply all_formulas; [exact H|destruct fam; cbn in *; tauto]|]. split; [now rewrite map_length, seq_length|].
  intros x Hx. apply in_map_iff in Hx. destruct Hx as (i & <- & Hi). apply in_seq in Hi. apply doc_range; [exact H|lia|destruct fam; cbn in *; tauto].
Qed.
Print Assumptions C52_range_partial.
Theorem C52_maximum_partial : forall (I0 : R -> R) (fam : family (T := R)) (m : nat), 1 <= m -> unit_window I0 fam (2 * m + 1) ->
  exists w, window (rops I0) fam Symmetric (2 * m + 1) = Ok w /\ nth_error w m = Some 1%R.
Proof.
  intros I0 fam m H P. eexists. split; [apply all_formulas; [lia|destruct fam; cbn in *; tauto]|].
  rewrite nth_error_map, nth_error_nth' with (d := 0) by (rewrite seq_length; lia). rewrite seq_nth by lia. cbn [option_map]. f_equal.
  apply doc_center; [exact H|destruct fam; cbn in *; tauto].
Qed.
Print Assumptions C52_maximum_partial.
(** get_window returns the named windows, in the order of the enumeration *)
Theorem C52_get_window : forall (T : Type) (o : wops T) (M : nat),
  map (fun k => get_window o k M) (seq 0 12) =
  map (fun fam => window o fam Symmetric M) [Boxcar; Bartlett; Cosine; Hann; Hamming; Blackman; Nuttall; BlackmanHarris; Flattop; Bohman; Parzen; Lanczos].
Proof. reflexivity. Qed.
Print Assumptions C52_get_window.
(** Tukey windows of even length 2 h: the cosine of the textbook, but the plateau holds the samples whose distance to the middle, counted in samples (1 for the two
    middle ones, h for the ends), is at most (1 - alpha) h, and always the two middle ones; the values are between 0 and 1. *)
Theorem C52_tukey_even_partial : forall (I0 : R -> R) (alpha : R) (h : nat), 1 <= h -> (0 < alpha < 1)%R ->
  exists w, window (rops I0) (Tukey alpha) Symmetric (2 * h) = Ok w /\ length w = 2 * h /\
    (forall i, i < 2 * h -> let u := Rabs (2 * INR i / (2 * INR h - 1) - 1) in
       nth_error w i = Some (if Rle_dec ((u * (2 * INR h - 1) + 1) / 2) (Rmax 1 ((1 - alpha) * INR h)) then 1 else (1 + cos (PI * (u - 1 + alpha) / alpha)) / 2)%R) /\
    (forall x, In x w -> (0 <= x <= 1)%R) /\ nth_error w (h - 1) = Some 1%R /\ nth_error w h = Some 1%R.
Proof.
  intros I0 al h H Ha. eexists. split; [apply (tukey_even_R I0 al h H Ha)|]. split; [now rewrite map_length, seq_length|].
  assert (N : forall i, i < 2 * h -> nth_error (map (tukey_even_formula al h) (seq 0 (2 * h))) i = Some (tukey_even_formula al h i)).
  { intros i Hi. rewrite nth_error_map, (nth_error_nth' _ 0) by (rewrite seq_length; exact Hi). rewrite seq_nth by exact Hi. reflexivity. }
  split; [intros i Hi u; rewrite (N i Hi); reflexivity|]. split.
  - intros x Hx. apply in_map_iff in Hx. destruct Hx as (i & <- & _). unfold tukey_even_formula. destruct (Rle_dec _ _); [lra|]. pose proof (COS_bound (PI * (Rabs (2 * INR i / (2 * INR h - 1) - 1) - 1 + al) / al)). lra.
  - assert (Hh : (1 <= INR h)%R) by (change 1%R with (INR 1); apply le_INR; lia).
    assert (C : forall i, (INR i = INR h - 1 \/ INR i = INR h)%R -> tukey_even_formula al h i = 1%R).
    { intros i Hi. unfold tukey_even_formula. match goal with |- context [Rle_dec ?a ?b] => destruct (Rle_dec a b) as [Q|Q]; [reflexivity|exfalso; apply Q] end.
      apply Rle_trans with 1%R; [|apply Rmax_l]. apply Req_le. destruct Hi as [-> | ->].
      - replace (2 * (INR h - 1) / (2 * INR h - 1) - 1)%R with (- (1 / (2 * INR h - 1)))%R by (field; lra). rewrite Rabs_Ropp, Rabs_right by (apply Rle_ge, Rlt_le, Rdiv_lt_0_compat; lra). field. lra.
      - replace (2 * INR h / (2 * INR h - 1) - 1)%R with (1 / (2 * INR h - 1))%R by (field; lra). rewrite Rabs_right by (apply Rle_ge, Rlt_le, Rdiv_lt_0_compat; lra). field. lra. }
    rewrite !N by lia. split; f_equal; apply C; [left|right; reflexivity]. rewrite minus_INR by lia. reflexivity.
Qed.
Print Assumptions C52_tukey_even_partial.
(** even lengths: tukey(8, 0.55)[5] should be 1 (5 <= 7 (1 - 0.55/2)) but is less than 1 *)
Theorem C52_tukey_even_refuted : forall I0 : R -> R, exists w, window (rops I0) (Tukey (55 / 100)%R) Symmetric 8 = Ok w /\
  doc_formula I0 (Tukey (55 / 100)%R) 8 5 = 1%R /\ (nth 5 w 0 < 1)%R.
Proof.
  intros I0. destruct (tukey_even_wrong I0) as (w & E & F & L). exists w. split; [exact E|]. split; [|exact L].
  unfold doc_formula. destruct (Rle_dec (55 / 100) 0); [reflexivity|]. destruct (Rle_dec 1 (55 / 100)); [lra|]. exact F.
Qed.
Print Assumptions C52_tukey_even_refuted.
(** length 1: w.size() - 1 = 0 is a divisor; with IEEE special values the only sample is NaN, for every implementation of the
    elementary functions that maps NaN to NaN *)
Definition fops (cosf sinf bessel sqrtf : fl -> fl) (pi : Qc) : wops fl := {|
  w_of := (fun z => Fin (qz z)); w_num := (fun n d => Fin (qz n / qz d)%Qc);
  w_add := fadd; w_sub := fsub; w_mul := fmul; w_div := fdiv; w_opp := fneg; w_abs := fabs_fl; w_fma := (fun a b c => fadd (fmul a b) c);
  w_cos := cosf; w_sin := sinf; w_exp := (fun x => x); w_sqrt := sqrtf; w_pow := (fun x y => x); w_bessel_i0 := bessel; w_pi := Fin pi;
  w_le := fle; w_iszero := (fun x => feq x f0); w_trunc := (fun _ => 0%Z) |}.
Lemma nan_r f x : f = fadd \/ f = fsub \/ f = fmul \/ f = fdiv -> f x NaN = NaN.
Proof. intros [->|[->|[->| ->]]]; destruct x; reflexivity. Qed.
Lemma nan_l f x : f = fadd \/ f = fsub \/ f = fmul \/ f = fdiv -> f NaN x = NaN.
Proof. intros [->|[->|[->| ->]]]; destruct x; reflexivity. Qed.
Ltac nans := rewrite ?(nan_r fadd), ?(nan_r fsub), ?(nan_r fmul), ?(nan_r fdiv), ?(nan_l fadd), ?(nan_l fsub), ?(nan_l fmul), ?(nan_l fdiv) by tauto.
Theorem C52_length_one_refuted : forall (cosf sinf bessel sqrtf : fl -> fl) (pi : Qc), (0 < pi)%Qc ->
  cosf NaN = NaN -> sinf NaN = NaN -> bessel NaN = NaN -> sqrtf NaN = NaN ->
  forall fam : family (T := fl), In fam [Bartlett; Hann; Hamming; Blackman; Nuttall; BlackmanHarris; Flattop; Bohman; Lanczos; Kaiser f1] ->
  window (fops cosf sinf bessel sqrtf pi) fam Symmetric 1 = Ok [NaN].
Proof.
  intros cosf sinf bessel sqrtf pi Hp Hc Hs Hb Hq fam Hin.
  assert (Z0 : fdiv (fmul (Fin (qz 2)) (Fin pi)) (Fin (qz (Z.of_nat 0))) = PInf).
  { cbn [fmul fdiv]. change (qeqb (qz (Z.of_nat 0)) 0) with true. cbn iota.
    assert (L : (0 < qz 2 * pi)%Qc).
    { replace 0%Qc with (0 * pi)%Qc by ring. apply Qcmult_lt_compat_r; [exact Hp|reflexivity]. }
    apply Qcgt_alt in L. rewrite L. reflexivity. }
  assert (GC : forall c a, general_cosine (fops cosf sinf bessel sqrtf pi) Symmetric 1 (c :: a) = Ok [NaN]).
  { intros c a. unfold general_cosine, build_window, general_cosine_filler. cbn [repeat length].
    change (1 - 1) with 0. cbn [w_div w_mul w_of w_pi fops]. change (qz 2) with (qz 2). rewrite Z0. rewrite symmetric_filler_map. cbn [length seq map]. apply f_equal.
    change (Nat.max 0 (1 - 1 - 0)) with 0. f_equal. cbn [cosine_terms]. cbn [w_add w_mul w_cos w_of fops].
    change (fmul PInf (Fin (qz (Z.of_nat (0 * 0))))) with NaN. rewrite Hc. nans.
    assert (G : forall l j sg, cosine_terms (fops cosf sinf bessel sqrtf pi) PInf 0 j l sg NaN = NaN).
    { induction l as [|x l IH]; intros j sg; [reflexivity|]. cbn [cosine_terms w_add fops]. nans. apply IH. }
    apply G. }
  cbn [In] in Hin. destruct Hin as [<-|[<-|[<-|[<-|[<-|[<-|[<-|[<-|[<-|[<-|[]]]]]]]]]]];
  try (cbn [window hann general_hamming]; unfold hann, general_hamming; apply GC); unfold window, build_window, bartlett_filler, bohman_filler, lanczos_filler, kaiser_filler;
  cbn [repeat length Nat.eqb]; change (1 - 1) with 0; cbn [fops w_of w_div w_mul w_opp w_sub w_add w_fma w_num w_abs w_le w_bessel_i0 w_sqrt w_pi w_cos w_sin];
  try (change (require _ ?x) with x); rewrite symmetric_filler_map; cbn [length seq map]; change (Nat.max 0 (1 - 1 - 0)) with 0; apply f_equal, (f_equal (fun x => [x])).
  - reflexivity.
  - change (fsub (fmul (Fin (qz (Z.of_nat 0))) (fdiv (Fin (qz 2)) (Fin (qz (Z.of_nat 0))))) (Fin (qz 1))) with NaN. nans. reflexivity.
  - unfold sinc. cbn [fops w_iszero w_of w_sin w_div w_mul w_pi]. change (fsub (Fin (qz 1)) (fdiv (Fin (qz (Z.of_nat (2 * 0)))) (Fin (qz (Z.of_nat 0))))) with NaN.
    change (feq NaN f0) with false. cbn iota. nans. try rewrite Hs. nans. reflexivity.
  - cbn zeta. change (fdiv (fsub (Fin (qz (Z.of_nat 0))) (fmul (Fin (qz 1 / qz 2)%Qc) (Fin (qz (Z.of_nat 0))))) (fmul (Fin (qz 1 / qz 2)%Qc) (Fin (qz (Z.of_nat 0))))) with NaN.
    nans. rewrite Hq. nans. rewrite Hb. nans. reflexivity.
Qed.
Print Assumptions C52_length_one_refuted.
Example C52_nonvacuous : exists w, window (rops (fun _ => 1%R)) Bartlett Symmetric 5 = Ok w /\ w = [0; 1 / 2; 1; 1 / 2; 0]%R.
Proof.
  eexists. split; [apply C52_formulas_partial; [lia|exact I]|]. cbn [seq map doc_formula INR].
  repeat (f_equal; [unfold Rabs; match goal with |- context [Rcase_abs ?x] => destruct (Rcase_abs x) end; lra|]). f_equal. unfold Rabs; match goal with |- context [Rcase_abs ?x] => destruct (Rcase_abs x) end; lra.
Qed.

(** C53: s1 and s2 are the square of the sum and the sum of the squares, N s2 >= s1 (Cauchy-Schwarz), so the equivalent noise
    bandwidth is at least one bin fs / N; the boxcar attains it. *)
Theorem C53_sums : forall w : list R,
  s1 0%R Rplus Rmult w = (bigop Rplus 0 w * bigop Rplus 0 w)%R /\ s2 0%R Rplus Rmult w = bigop Rplus 0%R (map (fun x => x * x)%R w) /\
  (s1 0%R Rplus Rmult w <= INR (length w) * s2 0%R Rplus Rmult w)%R.
Proof. intros w. split; [apply s1_bigop|]. split; [apply s2_bigop|]. rewrite s1_bigop, s2_bigop. apply cauchy_schwarz_ones. Qed.
Print Assumptions C53_sums.
Theorem C53_enbw : forall (w : list R) (fs : R), bigop Rplus 0%R w <> 0%R -> (0 <= fs)%R ->
  enbw 0%R Rplus Rmult Rdiv w fs = (fs * bigop Rplus 0 (map (fun x => x * x) w) / (bigop Rplus 0 w * bigop Rplus 0 w))%R /\
  (fs / INR (length w) <= enbw 0%R Rplus Rmult Rdiv w fs)%R.
Proof.
  intros w fs H F. unfold enbw. rewrite s1_bigop, s2_bigop. split; [reflexivity|].
  pose proof (cauchy_schwarz_ones w) as K. set (S := bigop Rplus 0%R w) in *. set (Q := bigop Rplus 0%R (map (fun x => x * x)%R w)) in *.
  assert (P : (0 < S * S)%R) by (destruct (Rtotal_order S 0) as [L|[L|L]]; [nra|congruence|nra]).
  assert (HN : (0 < INR (length w))%R). { destruct w; [unfold S in H; cbn in H; congruence|]. apply lt_0_INR. cbn. lia. }
  apply Rmult_le_reg_r with (r := (INR (length w) * (S * S))%R); [nra|].
  replace (fs / INR (length w) * (INR (length w) * (S * S)))%R with (fs * (S * S))%R by (field; lra).
  replace (fs * Q / (S * S) * (INR (length w) * (S * S)))%R with (fs * (INR (length w) * Q))%R by (field; intros C; rewrite C in P; lra).
  apply Rmult_le_compat_l; assumption.
Qed.
Print Assumptions C53_enbw.
Theorem C53_boxcar : forall (I0 : R -> R) (M : nat) (fs : R), 1 <= M ->
  exists w, window (rops I0) Boxcar Symmetric M = Ok w /\ enbw 0%R Rplus Rmult Rdiv w fs = (fs / INR M)%R.
Proof.
  intros I0 M fs H. exists (repeat 1%R M). split; [reflexivity|]. unfold enbw. rewrite s1_bigop, s2_bigop.
  assert (E : bigop Rplus 0%R (repeat 1%R M) = INR M). { clear. induction M; [reflexivity|]. cbn [repeat bigop]. rewrite IHM, S_INR. ring. }
  assert (E2 : bigop Rplus 0%R (map (fun x => x * x)%R (repeat 1%R M)) = INR M).
  { clear. induction M; [reflexivity|]. cbn [repeat map bigop]. rewrite IHM, S_INR. ring. }
  rewrite E, E2. assert (0 < INR M)%R by (apply lt_0_INR; lia). field. lra.
Qed.
Print Assumptions C53_boxcar.
Example C53_nonvacuous : enbw 0%R Rplus Rmult Rdiv [1; 2; 1]%R 8%R = 3%R.
Proof. unfold enbw. rewrite s1_bigop, s2_bigop. cbn [map bigop]. field. Qed.
