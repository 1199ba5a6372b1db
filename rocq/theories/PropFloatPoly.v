(** C122: polynomial arithmetic with floating-point coefficients (polynomials/polynomial.hpp). *)
From Coq Require Import List Arith ZArith Reals Bool.
From Flocq Require Import Core Mult_error Relative.
From Verif Require Import Base Functional SumLib PairwiseError Convolve ConvolveFacts Polynomial PolynomialFacts PolyReal FloatArith FloatArithFacts FloatConvFacts PropFloatArith FloatVarFacts PropFloatVar FloatWindowsFacts PropFloatWindows FloatPoly FloatPolyFacts PropFloatUnits.
From Coq Require Import Lra Psatz Lia.
Import ListNotations.
Open Scope R_scope.

(** [peval x P] (FloatArithFacts.v) is the exact value P_0 + P_1 x + P_2 x^2 + ... *)
Definition integers (l : list R) : Prop := Forall (fun x => exists z, x = IZR z) l.
(** the product of all the elements *)
Definition product (l : list R) : R := fold_right Rmult 1 l.

(** polyadd, polysub: every coefficient is the correctly rounded sum or difference of the coefficients (absent coefficients count as zero, so they are copied
    or negated exactly). *)
Theorem C122_add : forall (prec emin : Z) (ties : Z -> bool) (P Q : list R), (0 < prec)%Z -> Forall (in_format prec emin) P -> Forall (in_format prec emin) Q ->
  exists s t, r_polyadd (nearest prec emin ties) P Q = Ok s /\ r_polysub (nearest prec emin ties) P Q = Ok t /\
    length s = Nat.max (length P) (length Q) /\ length t = Nat.max (length P) (length Q) /\
    (forall k, nth k s 0 = nearest prec emin ties (nth k P 0 + nth k Q 0)) /\ (forall k, nth k t 0 = nearest prec emin ties (nth k P 0 - nth k Q 0)).
Proof.
  intros prec emin ties P Q Hp FP FQ. pose proof (flt_rounding prec emin ties Hp) as RD.
  destruct (polyadd_rnd _ _ _ _ RD P Q FP FQ) as (s & Es & Ls & Vs). destruct (polysub_rnd _ _ _ _ RD (fun x H => generic_format_opp _ _ x H) P Q FP FQ) as (t & Et & Lt & Vt).
  exists s, t. exact (conj Es (conj Et (conj Ls (conj Lt (conj Vs Vt))))).
Qed.
Print Assumptions C122_add.

(** polypow, for vectors and for std::array: with Z the exact n-th power of P and M the exact n-th power of the polynomial of the magnitudes,
    coefficient k is within gamma(n (n/2 deg + 2)) M_k of Z_k. *)
Theorem C122_pow : forall (prec : Z) (ties : Z -> bool) (P : list R) (n : nat), (0 < prec)%Z -> P <> [] ->
  let ops := (n * (n / 2 * (length P - 1) + 2))%nat in
  exists v a Z M, r_polypow (nearest_flx prec ties) P n = Ok v /\ r_polypow_array (nearest_flx prec ties) P n = Ok a /\
    length Z = (n * (length P - 1) + 1)%nat /\ length v = length Z /\ length a = length Z /\ length M = length Z /\
    (forall x, peval x Z = peval x P ^ n) /\ (forall x, peval x M = peval x (map Rabs P) ^ n) /\
    (forall k, Rabs (nth k v 0 - nth k Z 0) <= gamma prec ops * nth k M 0) /\
    (forall k, Rabs (nth k a 0 - nth k Z 0) <= gamma prec ops * nth k M 0).
Proof.
  intros prec ties P n Hp HP ops. pose proof (flx_rd prec ties Hp) as RD.
  destruct (polypow_near _ _ _ RD P n HP) as (v & Ev & Lv & Lm & Nv). destruct (polypow_array_near _ _ _ RD P n HP) as (a & Ea & La & _ & Na).
  exists v, a, (rpp P n), (rpp (map Rabs P) n). split; [exact Ev|split; [exact Ea|split; [now apply rpp_length|split; [exact Lv|split; [exact La|split; [exact Lm|]]]]]].
  split; [intros x; now apply peval_rpp|split; [intros x; apply peval_rpp; destruct P; [contradiction|discriminate]|]].
  split; intros k; [pose proof (acc_err _ _ _ _ _ _ (Nv k)) as Q|pose proof (acc_err _ _ _ _ _ _ (Na k)) as Q]; rewrite Rmult_0_r, Rplus_0_r in Q; exact Q.
Qed.
Print Assumptions C122_pow.

(** With nonnegative coefficients there is no cancellation: every coefficient of the power has a small relative error. *)
Theorem C122_pow_nonnegative : forall (prec : Z) (ties : Z -> bool) (P : list R) (n : nat), (0 < prec)%Z -> P <> [] -> Forall (fun c => 0 <= c) P ->
  let ops := (n * (n / 2 * (length P - 1) + 2))%nat in
  exists v a Z, r_polypow (nearest_flx prec ties) P n = Ok v /\ r_polypow_array (nearest_flx prec ties) P n = Ok a /\
    length Z = (n * (length P - 1) + 1)%nat /\ (forall x, peval x Z = peval x P ^ n) /\
    (forall k, Rabs (nth k v 0 - nth k Z 0) <= gamma prec ops * nth k Z 0) /\
    (forall k, Rabs (nth k a 0 - nth k Z 0) <= gamma prec ops * nth k Z 0).
Proof.
  intros prec ties P n Hp HP Hpos ops. pose proof (flx_rd prec ties Hp) as RD.
  destruct (polypow_near _ _ _ RD P n HP) as (v & Ev & Lv & Lm & Nv). destruct (polypow_array_near _ _ _ RD P n HP) as (a & Ea & La & _ & Na).
  assert (E : map Rabs P = P). { clear -Hpos. induction Hpos as [|c P Hc _ IH]; [reflexivity|]. cbn [map]. now rewrite IH, Rabs_pos_eq. } rewrite E in *.
  exists v, a, (rpp P n). split; [exact Ev|split; [exact Ea|split; [now apply rpp_length|]]]. split; [intros x; now apply peval_rpp|].
  split; intros k; [pose proof (acc_err _ _ _ _ _ _ (Nv k)) as Q|pose proof (acc_err _ _ _ _ _ _ (Na k)) as Q]; rewrite Rmult_0_r, Rplus_0_r in Q; exact Q.
Qed.
Print Assumptions C122_pow_nonnegative.

Lemma rising_fact k m : rising k m = INR (fact (k + m)) / INR (fact k).
Proof.
  revert k. induction m as [|m IH]; intros k; cbn [rising].
  - rewrite Nat.add_0_r. field. apply INR_fact_neq_0.
  - rewrite IH. replace (k + S m)%nat with (k + 1 + m)%nat by lia. replace (k + 1)%nat with (S k) by lia. rewrite fact_simpl, mult_INR. field. split; [apply INR_fact_neq_0|apply not_0_INR; lia].
Qed.
Lemma falling_fact k m : (m <= k)%nat -> falling k m = INR (fact k) / INR (fact (k - m)).
Proof.
  revert k. induction m as [|m IH]; intros k H; cbn [falling].
  - rewrite Nat.sub_0_r. field. apply INR_fact_neq_0.
  - rewrite IH by lia. replace (k - 1 - m)%nat with (k - S m)%nat by lia. destruct k as [|k]; [lia|]. rewrite fact_simpl, mult_INR. replace (S k - 1)%nat with k by lia. field. apply INR_fact_neq_0.
Qed.
(** polyint of order m (in ascending powers): m zeros, then P_k k! / (k + m)! with one rounding per order. *)
Theorem C122_integral : forall (prec : Z) (ties : Z -> bool) (P : list R) (m : nat), (0 < prec)%Z -> P <> [] -> (Z.of_nat (length P + m) <= 2 ^ prec)%Z ->
  exists s, r_polyint (nearest_flx prec ties) P (Z.of_nat m) = Ok s /\ length s = (length P + m)%nat /\
    (forall k, (k < m)%nat -> nth k s 0 = 0) /\
    (forall k, (k < length P)%nat -> let exact := nth k P 0 * INR (fact k) / INR (fact (k + m)) in Rabs (nth (k + m) s 0 - exact) <= gamma prec m * Rabs exact).
Proof.
  intros prec ties P m Hp HP HN. pose proof (flx_rd prec ties Hp) as RD.
  destruct (polyint_rel _ _ _ RD (fun x => nearest_inv prec ties x Hp) P m HP) as (s & Es & Ls & Zs & Vs); [intros j Hj; rewrite INR_IZR_INZ; apply flx_integer; lia|].
  exists s. split; [exact Es|split; [exact Ls|split; [exact Zs|]]]. intros k Hk exact. specialize (Vs k Hk). rewrite rising_fact in Vs.
  apply (rel_close prec ties Hp). unfold exact. replace (nth k P 0 * INR (fact k) / INR (fact (k + m))) with (nth k P 0 / (INR (fact (k + m)) / INR (fact k))); [exact Vs|].
  field. split; apply INR_fact_neq_0.
Qed.
Print Assumptions C122_integral.

(** polyder of order m, in the convention of the code (coefficients in descending powers: coefficient k of a list of N multiplies x^(N-1-k)). *)
Theorem C122_derivative : forall (prec : Z) (ties : Z -> bool) (P : list R) (m : nat), (0 < prec)%Z -> (Z.of_nat (length P) <= 2 ^ prec)%Z ->
  exists s, r_polyder (nearest_flx prec ties) P (Z.of_nat m) = Ok s /\ length s = (length P - m)%nat /\
    (forall k, (k < length P - m)%nat -> let e := (length P - 1 - k)%nat in let exact := nth k P 0 * INR (fact e) / INR (fact (e - m)) in
      Rabs (nth k s 0 - exact) <= gamma prec m * Rabs exact).
Proof.
  intros prec ties P m Hp HN. pose proof (flx_rd prec ties Hp) as RD.
  destruct (polyder_rel _ _ _ RD (fun x => nearest_inv prec ties x Hp) P m) as (s & Es & Ls & Vs); [intros j Hj; rewrite INR_IZR_INZ; apply flx_integer; lia|].
  exists s. split; [exact Es|split; [exact Ls|]]. intros k Hk e exact. specialize (Vs k ltac:(lia)). fold e in Vs. rewrite falling_fact in Vs by (unfold e; lia).
  apply (rel_close prec ties Hp). unfold exact, Rdiv in *. rewrite Rmult_assoc. exact Vs.
Qed.
Print Assumptions C122_derivative.

Lemma fromroots_val roots x R : polyfromroots 0 1 Rminus Rmult Ropp roots = Ok R -> length R = (length roots + 1)%nat /\ peval x R = product (map (fun r => x - r) roots).
Proof.
  intros E. destruct (polyfromroots_spec Rth roots) as (R' & E' & L & _ & V). rewrite E in E'. injection E' as <-. split; [exact L|].
  rewrite <- rpolyval_peval. unfold rpolyval. rewrite V. unfold product. generalize (map (fun r => x - r) roots). clear. intros l.
  assert (G : forall l a, Spec.bigop Rmult a l = a * fold_right Rmult 1 l) by (clear; induction l as [|y l IH]; intros a; cbn; [ring|rewrite IH; ring]). rewrite G. ring.
Qed.
(** polyfromroots: the leading coefficient is exactly 1, and coefficient k is within gamma(2 n) M_k of the exact one, M the polynomial with the roots -|r|. *)
Theorem C122_fromroots : forall (prec : Z) (ties : Z -> bool) (roots : list R), (0 < prec)%Z -> let n := length roots in
  exists z Z M, r_polyfromroots (nearest_flx prec ties) roots = Ok z /\ length z = (n + 1)%nat /\ length Z = (n + 1)%nat /\ length M = (n + 1)%nat /\
    (forall x, peval x Z = product (map (fun r => x - r) roots)) /\ (forall x, peval x M = product (map (fun r => x + Rabs r) roots)) /\
    nth n z 0 = 1 /\ (forall k, Rabs (nth k z 0 - nth k Z 0) <= gamma prec (2 * n) * nth k M 0).
Proof.
  intros prec ties roots Hp n. pose proof (flx_rd prec ties Hp) as RD.
  assert (N1 : near (uro prec) 0 [1] [1] [1]). { pose proof (near_0 _ _ _ RD [1]) as Q. cbn [map] in Q. now rewrite Rabs_R1 in Q. }
  destruct (fr_near _ _ _ RD roots 0 [1] [1] [1] N1 ltac:(discriminate)) as (z & Z & M & E1 & E2 & E3 & (L1 & L2 & Nz) & Lst).
  destruct (fromroots_val roots 0 Z E2) as [LZ _]. exists z, Z, M. split; [exact E1|]. fold n in LZ. rewrite L1. split; [exact LZ|split; [exact LZ|split; [lia|]]].
  split; [intros x; exact (proj2 (fromroots_val roots x Z E2))|split].
  - intros x. rewrite (proj2 (fromroots_val _ x M E3)), map_map. f_equal. apply map_ext. intros r. ring.
  - split; [replace n with (length z - 1)%nat by lia; rewrite Lst; reflexivity|]. intros k. pose proof (acc_err _ _ _ _ _ _ (Nz k)) as Q. rewrite Rmult_0_r, Rplus_0_r in Q. exact Q.
Qed.
Print Assumptions C122_fromroots.

(** Exactness on integers (any format of precision [prec] containing the integers, in particular binary64): when the magnitudes of the coefficients add up to
    little enough, there is no rounding at all, and both overloads of polypow agree. *)
Theorem C122_exact_integers : forall (prec emin : Z) (ties : Z -> bool), (0 < prec)%Z -> (emin <= 0)%Z -> let rnd := nearest prec emin ties in let largest := IZR (2 ^ prec) in
  (forall P Q, P <> [] -> Q <> [] -> integers P -> integers Q -> total_abs P * total_abs Q <= largest ->
    exists Z, r_polymul rnd P Q = Ok Z /\ integers Z /\ length Z = (length P + length Q - 1)%nat /\ forall x, peval x Z = peval x P * peval x Q) /\
  (forall P n, P <> [] -> integers P -> total_abs P ^ n <= largest ->
    exists Z, r_polypow rnd P n = Ok Z /\ r_polypow_array rnd P n = Ok Z /\ integers Z /\ length Z = (n * (length P - 1) + 1)%nat /\ forall x, peval x Z = peval x P ^ n) /\
  (forall roots, integers roots -> product (map (fun r => 1 + Rabs r) roots) <= largest ->
    exists Z, r_polyfromroots rnd roots = Ok Z /\ length Z = (length roots + 1)%nat /\ forall x, peval x Z = product (map (fun r => x - r) roots)).
Proof.
  intros prec emin ties Hp He rnd largest. pose proof (flt_rounding prec emin ties Hp) as RD.
  assert (H1 : 1 <= largest) by (apply IZR_le; pose proof (Z.pow_pos_nonneg 2 prec); lia).
  assert (FI : forall z, Rabs (IZR z) <= largest -> in_format prec emin (IZR z)). { intros z Hz. apply flt_integer; try lia. apply le_IZR. now rewrite abs_IZR. }
  split; [|split].
  - intros P Q HP HQ IP IQ HB. exists (cpr P Q). split; [exact (polymul_exact _ _ _ _ RD largest FI P Q HP HQ IP IQ HB)|].
    split; [now apply ints_cpr|split; [apply cpr_length|]]. intros x. rewrite <- !rpolyval_peval. exact (eval_cprod Rth x P Q (or_introl HP)).
  - intros P n HP IP HB. exists (rpp P n). split; [exact (polypow_exact _ _ _ _ RD largest H1 FI P n HP IP HB)|]. split; [exact (polypow_array_exact _ _ _ _ RD largest H1 FI P n HP IP HB)|].
    split; [now apply ints_pp|split; [now apply rpp_length|]]. intros x. now apply peval_rpp.
  - intros roots IR HB. destruct (polyfromroots_spec Rth roots) as (Z & E & _). exists Z. split; [|split; [exact (proj1 (fromroots_val roots 0 Z E))|intros x; exact (proj2 (fromroots_val roots x Z E))]].
    rewrite <- E. apply (fr_exact _ _ _ _ RD largest FI roots [1]); [discriminate|apply Forall_cons; [now exists 1%Z|apply Forall_nil]|exact IR|].
    unfold norm1, Rsum. cbn. rewrite Rabs_R1. unfold product in HB. lra.
Qed.
Print Assumptions C122_exact_integers.

(** Beyond that, the two overloads associate the products differently, and (525)^7 already has two values in double precision. *)
Lemma single rnd x y : polymul 0 (fl_add rnd) (fl_mul rnd) [x] [y] = Ok [rnd (0 + rnd (x * y))]. Proof. reflexivity. Qed.
Theorem C122_overloads_may_differ : forall (ties : Z -> bool), exists (P : list R) (n : nat), P <> [] /\ integers P /\
  r_polypow (nearest_flx 53 ties) P n <> r_polypow_array (nearest_flx 53 ties) P n.
Proof.
  intros t. exists [525], 7%nat. split; [discriminate|split; [apply Forall_cons; [now exists 525%Z|apply Forall_nil]|]]. intros H.
  unfold r_polypow, r_polypow_array, polypow in H. cbn [Nat.eqb length] in H. cbn -[polymul nearest_flx Rmult Rplus] in H.
  assert (I : forall x y, (Z.abs (x * y) <= 2 ^ 53)%Z -> polymul 0 (fl_add (nearest_flx 53 t)) (fl_mul (nearest_flx 53 t)) [IZR x] [IZR y] = Ok [IZR (x * y)]).
  { intros x y Hxy. rewrite single, <- mult_IZR, (int53 t (x * y) Hxy), Rplus_0_l, (int53 t (x * y) Hxy). reflexivity. }
  rewrite (I 525 1)%Z in H by lia. cbn -[polymul nearest_flx Rmult Rplus] in H. rewrite (I 525 525)%Z in H by lia. cbn -[polymul nearest_flx Rmult Rplus] in H.
  rewrite (I 275625 525)%Z in H by lia. cbn -[polymul nearest_flx Rmult Rplus] in H. rewrite (I 275625 275625)%Z in H by lia. cbn -[polymul nearest_flx Rmult Rplus] in H.
  rewrite !single in H. cbn [bind] in H. rewrite single in H. injection H as H. rewrite !Rplus_0_l in H.
  pose proof (flx_rd 53 t ltac:(lia)) as RD. assert (II : forall x, nearest_flx 53 t (nearest_flx 53 t x) = nearest_flx 53 t x) by (intros x; apply (rd_id _ _ _ _ RD), (rd_fmt _ _ _ _ RD)). rewrite !II in H.
  assert (A : nearest_flx 53 t (275625 * 75969140625) = 5234748596191406 * bpow radix2 2) by now round_at 2%Z 5234748596191406%Z.
  assert (B : nearest_flx 53 t (525 * (5234748596191406 * bpow radix2 2)) = 5367662134766578 * bpow radix2 11) by now round_at 11%Z 5367662134766578%Z.
  assert (C : nearest_flx 53 t (75969140625 * 144703125) = 5367662134766579 * bpow radix2 11) by now round_at 11%Z 5367662134766579%Z.
  rewrite A, B, C in H. pose proof (bpow_gt_0 radix2 11). nra.
Qed.
Print Assumptions C122_overloads_may_differ.

Example C122_nonvacuous : integers [1; -2; 3] /\ total_abs [1; -2; 3] ^ 20 <= IZR (2 ^ 53) /\ product (map (fun r => 1 + Rabs r) [1; 2; 3; -4]) <= IZR (2 ^ 53) /\
  Forall (in_flx 53) [1 / 2; 3] /\ Forall (fun c => 0 <= c) [1 / 2; 3].
Proof.
  split; [|split; [|split; [|split]]].
  - apply Forall_cons; [now exists 1%Z|]. apply Forall_cons; [now exists (-2)%Z|]. apply Forall_cons; [now exists 3%Z|]. apply Forall_nil.
  - unfold total_abs, total. cbn [map fold_right]. rewrite (Rabs_pos_eq 1), (Rabs_left (-2)), (Rabs_pos_eq 3) by lra. replace (1 + (- (-2) + (3 + 0))) with 6 by ring. rewrite pow_IZR. apply IZR_le. vm_compute. discriminate.
  - unfold product. cbn [map fold_right]. rewrite (Rabs_pos_eq 1), (Rabs_pos_eq 2), (Rabs_pos_eq 3), (Rabs_left (-4)) by lra. cbn. lra.
  - apply Forall_cons; [apply flx_half; lia|]. apply Forall_cons; [apply flx_integer; lia|apply Forall_nil].
  - apply Forall_cons; [lra|]. apply Forall_cons; [lra|apply Forall_nil].
Qed.
