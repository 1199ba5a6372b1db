From Coq Require Import List Arith ZArith Reals Bool.
From Verif Require Import Base Functional FunctionalProofs Spec SumLib Convolve ConvolveFacts PairwiseError PolyReal FloatArith FloatArithFacts.
From Coq Require Import Lra Psatz Lia.
Import ListNotations.
Open Scope nat_scope.

(** coefficient k of the product *)
Definition conv_coef (a v : list R) (k : nat) : R := Rsum (map (fun i => nth i a 0 * nth (k - i) v 0)%R (seq 0 (S k))).
Lemma nsum_Rsum f n : nsum 0%R Rplus f n = Rsum (map f (seq 0 n)).
Proof.
  induction n as [|n IH]; [reflexivity|]. rewrite seq_S, map_app, Rsum_app. cbn [nsum map Nat.add]. rewrite IH. unfold Rsum at 3. cbn. lra.
Qed.
Lemma cauchy_conv a v k : @SumLib.cauchy R 0%R Rplus Rmult (@SumLib.coef R 0%R a) (@SumLib.coef R 0%R v) k = conv_coef a v k.
Proof. unfold SumLib.cauchy. rewrite nsum_Rsum. reflexivity. Qed.

Lemma cprod_nth a v k : k < length a + length v - 1 -> nth k (@cprod R 0%R Rplus Rmult a v) 0%R = conv_coef a v k.
Proof.
  intros Hk. rewrite <- cauchy_conv. unfold cprod. rewrite (nth_indep _ _ (@SumLib.cauchy R 0%R Rplus Rmult (@SumLib.coef R 0%R a) (@SumLib.coef R 0%R v) 0)) by (rewrite map_length, seq_length; exact Hk).
  rewrite map_nth, seq_nth by exact Hk. reflexivity.
Qed.

Section Facts.
Variables (u eta : R) (fmt : R -> Prop) (rnd : R -> R).
Hypothesis RD : rounding u eta fmt rnd.
Let Hu := u_pos _ _ _ _ RD.
Let He := eta_pos _ _ _ _ RD.
Local Open Scope R_scope.
Notation g := (g u).
Lemma at_abs a k x : at_ub a k = Ok x -> at_ub (map Rabs a) k = Ok (Rabs x).
Proof. unfold at_ub. rewrite nth_error_map. destruct (nth_error a k); [intros [= ->]; reflexivity|discriminate]. Qed.
Lemma inner_sim a v i cnt : forall j c acc A B S, fmt acc -> Rabs A <= B ->
  Rabs (acc - A) <= (g (Datatypes.S c) - 1) * B + INR c * g c * eta ->
  conv_inner Rplus Rmult a v i j cnt A = Ok S ->
  exists s T, conv_inner (fl_add rnd) (fl_mul rnd) a v i j cnt acc = Ok s /\ conv_inner Rplus Rmult (map Rabs a) (map Rabs v) i j cnt B = Ok T /\
    Rabs (s - S) <= (g (Datatypes.S (c + cnt)) - 1) * T + INR (c + cnt) * g (c + cnt) * eta /\ 0 <= T.
Proof.
  induction cnt as [|cnt IH]; intros j c acc A B S0 Fa HA H E; cbn [conv_inner] in *.
  - injection E as <-. exists acc, B. rewrite Nat.add_0_r. repeat (split; [reflexivity||exact H|]). pose proof (Rabs_pos A). lra.
  - destruct (at_ub a (Z.to_nat j)) as [x| | |] eqn:Ex; try discriminate E. cbn [bind] in E. destruct (at_ub v (Z.to_nat (i - j))) as [y| | |] eqn:Ey; try discriminate E. cbn [bind] in *.
    rewrite (at_abs _ _ _ Ex), (at_abs _ _ _ Ey). cbn [bind]. replace (c + Datatypes.S cnt)%nat with (Datatypes.S c + cnt)%nat by lia.
    apply (IH (j + 1)%Z (Datatypes.S c) (fl_add rnd acc (fl_mul rnd x y)) (A + x * y) (B + Rabs x * Rabs y) S0); [apply (rd_fmt _ _ _ _ RD)| | |exact E].
    + eapply Rle_trans; [apply Rabs_triang|]. rewrite Rabs_mult. lra.
    + pose proof (rd_err _ _ _ _ RD (x * y)) as Ep. pose proof (rd_add _ _ _ _ RD acc (rnd (x * y)) Fa (rd_fmt _ _ _ _ RD _)) as Ea. rewrite Rabs_mult in Ep.
      unfold fl_add, fl_mul. set (p := rnd (x * y)) in *. set (q := Rabs x * Rabs y) in *. set (s := acc + p) in *.
      assert (Hq : 0 <= q) by (apply Rmult_le_pos; apply Rabs_pos). assert (HB : 0 <= B) by (pose proof (Rabs_pos A); lra).
      pose proof (g_ge u eta fmt rnd RD c) as G. rewrite (gS u (Datatypes.S c)). rewrite gS in *. rewrite S_INR. set (G0 := g c) in *.
      assert (Hs : Rabs (s - (A + x * y)) <= ((1 + u) * G0 - 1) * (B + q) + (INR c * G0 + 1) * eta).
      { unfold s. replace (acc + p - (A + x * y)) with ((acc - A) + (p - x * y)) by ring. eapply Rle_trans; [apply Rabs_triang|].
        assert (u * q <= ((1 + u) * G0 - 1) * q) by (apply Rmult_le_compat_r; nra). lra. }
      assert (Hxy : Rabs (A + x * y) <= B + q) by (eapply Rle_trans; [apply Rabs_triang|]; rewrite Rabs_mult; fold q; lra).
      assert (Hsum : Rabs s <= (1 + u) * G0 * (B + q) + (INR c * G0 + 1) * eta).
      { replace s with ((A + x * y) + (s - (A + x * y))) by ring. eapply Rle_trans; [apply Rabs_triang|]. lra. }
      replace (rnd s - (A + x * y)) with ((rnd s - s) + (s - (A + x * y))) by ring. eapply Rle_trans; [apply Rabs_triang|].
      pose proof (Rmult_le_compat_l u _ _ Hu Hsum) as M. pose proof (pos_INR c).
      assert (K : (1 + u) * (INR c * G0 + 1) * eta <= (INR c + 1) * ((1 + u) * G0) * eta).
      { apply Rmult_le_compat_r; [exact He|]. replace ((INR c + 1) * ((1 + u) * G0)) with ((1 + u) * (INR c * G0 + G0)) by ring. apply Rmult_le_compat_l; lra. }
      lra.
Qed.
Lemma elem_sim a v i S : (length v <= length a)%nat -> (0 <= i < Z.of_nat (length a) + Z.of_nat (length v) - 1)%Z -> conv_elem 0 Rplus Rmult a v i = Ok S -> exists s T,
  conv_elem 0 (fl_add rnd) (fl_mul rnd) a v i = Ok s /\ conv_elem 0 Rplus Rmult (map Rabs a) (map Rabs v) i = Ok T /\
  Rabs (s - S) <= (g (Datatypes.S (length v)) - 1) * T + INR (length v) * g (length v) * eta.
Proof.
  intros Hl Hi E. unfold conv_elem in *. rewrite !map_length.
  set (jmn := if (_ <=? i)%Z then _ else _) in *. set (jmx := if (i <? _)%Z then _ else _) in *. set (cnt := Z.to_nat (jmx - jmn + 1)) in *.
  assert (HC : (cnt <= length v)%nat).
  { unfold cnt, jmn, jmx. destruct (Z.leb_spec (Z.of_nat (length v) - 1) i), (Z.ltb_spec i (Z.of_nat (length a) - 1)); lia. }
  destruct (inner_sim a v i cnt jmn 0%nat 0 0 0 S (rd_0 _ _ _ _ RD)) as (s & T & E1 & E2 & B & HT); [rewrite Rabs_R0; lra| |exact E|].
  { rewrite Rminus_0_r, Rabs_R0. cbn. lra. }
  exists s, T. split; [exact E1|]. split; [exact E2|]. eapply Rle_trans; [exact B|]. cbn [Nat.add]. apply Rplus_le_compat.
  - apply Rmult_le_compat_r; [exact HT|]. pose proof (gmono u eta fmt rnd RD (Datatypes.S cnt) (Datatypes.S (length v)) ltac:(lia)). lra.
  - apply Rmult_le_compat_r; [exact He|]. apply Rmult_le_compat; [apply pos_INR|apply (g_pos u eta fmt rnd RD)|apply le_INR; lia|apply (gmono u eta fmt rnd RD); lia].
Qed.
Lemma outer_sim a v cnt : (length v <= length a)%nat -> forall i S, (0 <= i)%Z -> (i + Z.of_nat cnt <= Z.of_nat (length a) + Z.of_nat (length v) - 1)%Z ->
  conv_outer 0 Rplus Rmult a v i cnt = Ok S -> exists s T,
  conv_outer 0 (fl_add rnd) (fl_mul rnd) a v i cnt = Ok s /\ conv_outer 0 Rplus Rmult (map Rabs a) (map Rabs v) i cnt = Ok T /\ length s = cnt /\
  (forall k, (k < cnt)%nat -> Rabs (nth k s 0 - nth k S 0) <= (g (Datatypes.S (length v)) - 1) * nth k T 0 + INR (length v) * g (length v) * eta).
Proof.
  intros Hl. induction cnt as [|cnt IH]; intros i S0 H0 H1 E; cbn [conv_outer] in *.
  - exists [], []. repeat (split; [reflexivity|]). intros k Hk. lia.
  - destruct (conv_elem 0 Rplus Rmult a v i) as [x| | |] eqn:Ex; try discriminate E. cbn [bind] in E.
    destruct (conv_outer 0 Rplus Rmult a v (i + 1) cnt) as [r| | |] eqn:Er; try discriminate E. injection E as <-.
    destruct (elem_sim a v i x Hl ltac:(lia) Ex) as (s1 & T1 & E1 & E2 & B1). destruct (IH (i + 1)%Z r ltac:(lia) ltac:(lia) Er) as (s & T & F1 & F2 & F3 & B2).
    rewrite E1, E2. cbn [bind]. rewrite F1, F2. cbn [bind]. exists (s1 :: s), (T1 :: T). repeat (split; [reflexivity|]). split; [cbn; lia|].
    intros [|k] Hk; cbn [nth]; [exact B1|]. apply B2. lia.
Qed.
Lemma impl_sim a v : (length v <= length a)%nat -> (1 <= length a)%nat -> exists s,
  direct_convolve_impl 0 (fl_add rnd) (fl_mul rnd) (length a + length v - 1) a v = Ok s /\ length s = (length a + length v - 1)%nat /\
  (forall k, (k < length a + length v - 1)%nat ->
    Rabs (nth k s 0 - conv_coef a v k) <= (g (Datatypes.S (length v)) - 1) * conv_coef (map Rabs a) (map Rabs v) k + INR (length v) * g (length v) * eta).
Proof.
  intros Hl H1. pose proof (impl_spec (rsub := Rminus) Rth a v Hl H1) as X. pose proof (impl_spec (rsub := Rminus) Rth (map Rabs a) (map Rabs v)) as Y. rewrite !map_length in Y. specialize (Y Hl H1).
  unfold direct_convolve_impl, require in *. rewrite !map_length in Y.
  destruct (Z.eqb_spec (Z.of_nat (length a + length v - 1)) (Z.of_nat (length a) + Z.of_nat (length v) - 1)) as [EZ|NZ]; [|lia].
  destruct (outer_sim a v (length a + length v - 1)%nat Hl 0%Z _ ltac:(lia) ltac:(lia) X) as (s & T & F1 & F2 & F3 & B). rewrite F2 in Y. injection Y as ->. exists s. split; [exact F1|]. split; [exact F3|].
  intros k Hk. specialize (B k Hk). rewrite !cprod_nth in B by (rewrite ?map_length; exact Hk). exact B.
Qed.
Lemma conv_comm a v k : conv_coef a v k = conv_coef v a k.
Proof. rewrite <- !cauchy_conv. apply (cauchy_comm Rth). Qed.
Lemma convolve_err a v : a <> [] \/ v <> [] -> let m := Nat.min (length a) (length v) in exists s,
  convolve 0 (fl_add rnd) (fl_mul rnd) a v = Ok s /\ length s = (length a + length v - 1)%nat /\
  (forall k, (k < length a + length v - 1)%nat ->
    Rabs (nth k s 0 - conv_coef a v k) <= (g (Datatypes.S m) - 1) * conv_coef (map Rabs a) (map Rabs v) k + INR m * g m * eta).
Proof.
  intros H m. unfold convolve, direct_convolve.
  assert (L : (1 <= length a \/ 1 <= length v)%nat) by (destruct H as [H|H]; [left; destruct a|right; destruct v]; cbn; (congruence||lia)).
  destruct (Nat.eqb_spec (length a + length v) 0); [lia|]. destruct (Nat.leb_spec (length v) (length a)).
  - replace m with (length v) by (unfold m; lia). apply impl_sim; lia.
  - replace m with (length a) by (unfold m; lia). destruct (impl_sim v a ltac:(lia) ltac:(lia)) as (s & E1 & E2 & B). exists s. rewrite (Nat.add_comm (length a)). split; [exact E1|]. split; [exact E2|].
    intros k Hk. rewrite (conv_comm a v), (conv_comm (map Rabs a)). apply B. exact Hk.
Qed.
End Facts.
