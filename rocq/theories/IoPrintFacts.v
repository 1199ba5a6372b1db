(** Facts about IoPrint.v. *)
From Coq Require Import ZArith QArith Qabs Qround Qpower Ascii.
From Verif Require Import Base Io IoSpec IoFacts IoNumber IoNumberFacts IoPrint.
From Coq Require Import Lia Lqa Qfield.
Open Scope Z_scope.
Set Implicit Arguments.

(** ** Lengths of decimal numerals *)
Lemma digits_rev_length : forall fuel n, 0 < n < 2 ^ Z.of_nat fuel ->
  10 ^ (Z.of_nat (length (digits_rev fuel n)) - 1) <= n < 10 ^ Z.of_nat (length (digits_rev fuel n)).
Proof.
  induction fuel as [|fuel IH]; intros n H; [cbn in H; lia|]. cbn [digits_rev]. destruct (n <? 10) eqn:E.
  - apply Z.ltb_lt in E. cbn. lia.
  - apply Z.ltb_ge in E. assert (B : 2 ^ Z.of_nat (S fuel) = 2 * 2 ^ Z.of_nat fuel) by (rewrite Nat2Z.inj_succ, Z.pow_succ_r; lia).
    assert (Q : 0 < n / 10 < 2 ^ Z.of_nat fuel). { split; [apply Z.div_str_pos; lia|]. apply Z.div_lt_upper_bound; lia. }
    specialize (IH _ Q). cbn [length]. rewrite Nat2Z.inj_succ. set (k := Z.of_nat (length (digits_rev fuel (n / 10)))) in *.
    assert (K : 0 < k). { unfold k. destruct fuel; [cbn in Q; lia|]. cbn [digits_rev]. destruct (_ <? _); cbn [length]; lia. }
    replace (Z.succ k - 1) with (Z.succ (k - 1)) by lia. rewrite !Z.pow_succ_r by lia. pose proof (Z.div_mod n 10). pose proof (Z.mod_pos_bound n 10). lia.
Qed.
Lemma decimal_digits_length n : 0 < n -> 10 ^ (Z.of_nat (length (decimal_digits n)) - 1) <= n < 10 ^ Z.of_nat (length (decimal_digits n)).
Proof.
  intros H. unfold decimal_digits. rewrite rev_length. apply digits_rev_length. split; [exact H|]. pose proof (Z.log2_nonneg n).
  rewrite Nat2Z.inj_succ, Z2Nat.id by lia. apply Z.log2_spec. lia.
Qed.
Lemma decimal_digits_pos n : 0 < n -> 1 <= Z.of_nat (length (decimal_digits n)).
Proof. intros H. destruct (decimal_digits_spec (n := n)) as [_ [_ N]]; [lia|]. destruct (decimal_digits n); [congruence|]. cbn [length]. lia. Qed.

(** ** Powers of ten *)
Lemma pow10_pos e : (0 < pow10 e)%Q.
Proof. unfold pow10. apply Qpower_0_lt. reflexivity. Qed.
Lemma pow10_plus a b : (pow10 (a + b) == pow10 a * pow10 b)%Q.
Proof. unfold pow10. apply Qpower_plus. intros H. discriminate H. Qed.
Lemma pow10_nonneg e : 0 <= e -> (pow10 e == inject_Z (10 ^ e))%Q.
Proof. intros H. unfold pow10. rewrite Zpower_Qpower by exact H. reflexivity. Qed.
Lemma pow10_opp e : (pow10 e * pow10 (- e) == 1)%Q.
Proof. rewrite <- pow10_plus. replace (e + - e) with 0 by lia. reflexivity. Qed.
Lemma pow10_1 : (pow10 1 == 10)%Q.
Proof. reflexivity. Qed.
Lemma pow10_le a b : a <= b -> (pow10 a <= pow10 b)%Q.
Proof.
  intros H. replace b with (a + (b - a)) by lia. rewrite pow10_plus, (pow10_nonneg (e := b - a)) by lia. pose proof (pow10_pos a).
  assert (P : (1 <= inject_Z (10 ^ (b - a)))%Q) by (change 1%Q with (inject_Z 1); rewrite <- Zle_Qle; assert (0 < 10 ^ (b - a)) by (apply Z.pow_pos_nonneg; lia); lia).
  nra.
Qed.

Lemma log10_floor_spec q : (0 < q)%Q -> (pow10 (log10_floor q) <= q)%Q /\ (q < pow10 (log10_floor q + 1))%Q.
Proof.
  destruct q as [n d]. intros H. assert (N : 0 < n) by (unfold Qlt in H; cbn in H; lia). unfold log10_floor. cbn [Qnum Qden].
  destruct (Zpos d <=? n) eqn:E.
  - apply Z.leb_le in E. assert (P : 0 < n / Zpos d) by (apply Z.div_str_pos; lia). pose proof (decimal_digits_length P) as [L U]. pose proof (decimal_digits_pos P) as K.
    set (k := Z.of_nat _) in *. replace (k - 1 + 1) with k by lia. rewrite !pow10_nonneg by lia. pose proof (Z.div_mod n (Zpos d)). pose proof (Z.mod_pos_bound n (Zpos d)).
    unfold Qle, Qlt. cbn. split; nia.
  - apply Z.leb_gt in E. assert (P : 0 < (Zpos d - 1) / n) by (apply Z.div_str_pos; lia). pose proof (decimal_digits_length P) as [L U]. pose proof (decimal_digits_pos P) as K.
    set (k := Z.of_nat _) in *. pose proof (Z.div_mod (Zpos d - 1) n). pose proof (Z.mod_pos_bound (Zpos d - 1) n).
    assert (A : (inject_Z (Zpos d) <= inject_Z n * pow10 k)%Q). { rewrite pow10_nonneg by lia. rewrite <- inject_Z_mult, <- Zle_Qle. nia. }
    assert (B : (inject_Z n * pow10 (k - 1) < inject_Z (Zpos d))%Q). { rewrite pow10_nonneg by lia. rewrite <- inject_Z_mult, <- Zlt_Qlt. nia. }
    assert (EQ : (n # d == inject_Z n / inject_Z (Zpos d))%Q) by (rewrite Qmake_Qdiv; reflexivity). assert (D : (0 < inject_Z (Zpos d))%Q) by reflexivity.
    pose proof (pow10_opp k) as O. pose proof (pow10_opp (k - 1)) as O1. pose proof (pow10_pos (- k)) as PK. pose proof (pow10_pos (- (k - 1))) as PK1.
    replace (- k + 1) with (- (k - 1)) by lia. rewrite EQ. split.
    + apply Qle_shift_div_l; [exact D|]. apply Qle_trans with (pow10 (- k) * (inject_Z n * pow10 k))%Q; [apply Qmult_le_l; assumption|].
      setoid_replace (pow10 (- k) * (inject_Z n * pow10 k))%Q with (inject_Z n * (pow10 k * pow10 (- k)))%Q by ring. rewrite O, Qmult_1_r. apply Qle_refl.
    + apply Qlt_shift_div_r; [exact D|]. apply Qle_lt_trans with (pow10 (- (k - 1)) * (inject_Z n * pow10 (k - 1)))%Q; [|apply Qmult_lt_l; assumption].
      setoid_replace (pow10 (- (k - 1)) * (inject_Z n * pow10 (k - 1)))%Q with (inject_Z n * (pow10 (k - 1) * pow10 (- (k - 1))))%Q by ring. rewrite O1, Qmult_1_r. apply Qle_refl.
Qed.

(** ** Rounding *)
Lemma round_half_even_spec q : (Qabs (inject_Z (round_half_even q) - q) <= 1 # 2)%Q.
Proof.
  destruct q as [n d]. unfold round_half_even. cbn [Qnum Qden]. pose proof (Z.div_mod n (Zpos d)). pose proof (Z.mod_pos_bound n (Zpos d)). set (f := n / Zpos d) in *.
  assert (G : forall z, - Zpos d <= 2 * (z * Zpos d - n) <= Zpos d -> (Qabs (inject_Z z - (n # d)) <= 1 # 2)%Q).
  { intros z B. apply Qabs_Qle_condition. unfold Qle. cbn. split; nia. }
  destruct (_ <? _) eqn:E1; [apply Z.ltb_lt in E1; apply G; nia|]. apply Z.ltb_ge in E1.
  destruct (_ =? _) eqn:E2; [apply Z.eqb_eq in E2; destruct (Z.even f); apply G; nia|apply G; nia].
Qed.
Lemma round_half_even_range q a b : (inject_Z a <= q)%Q -> (q <= inject_Z b)%Q -> a <= round_half_even q <= b.
Proof.
  intros A B. pose proof (round_half_even_spec q) as R. apply Qabs_Qle_condition in R. set (r := round_half_even q) in *.
  assert (L : (inject_Z a - 1 < inject_Z r)%Q) by lra. assert (U : (inject_Z r < inject_Z b + 1)%Q) by lra.
  change 1%Q with (inject_Z 1) in L, U. rewrite <- inject_Z_plus, <- Zlt_Qlt in U. unfold Qminus in L. rewrite <- inject_Z_opp, <- inject_Z_plus, <- Zlt_Qlt in L. lia.
Qed.
Lemma round_half_even_int q n : (q == inject_Z n)%Q -> round_half_even q = n.
Proof. intros H. assert (n <= round_half_even q <= n) by (apply round_half_even_range; rewrite H; apply Qle_refl). lia. Qed.

(** ** Digits *)
Lemma last_digits_S k n : last_digits (S k) n = (n / 10 ^ Z.of_nat k) mod 10 :: last_digits k n.
Proof. unfold last_digits. rewrite seq_S. rewrite map_app, rev_app_distr. reflexivity. Qed.
Lemma last_digits_spec k n : 0 <= n -> digits_value (last_digits k n) = n mod 10 ^ Z.of_nat k /\ Forall digit_ok (last_digits k n) /\ length (last_digits k n) = k.
Proof.
  intros H. induction k as [|k [V [F L]]].
  - cbn. rewrite Z.mod_1_r. repeat split. constructor.
  - rewrite last_digits_S. split; [|split].
    + change (?a :: ?b) with ([a] ++ b). rewrite digits_value_app, V, L, digits_value_one, Nat2Z.inj_succ, Z.pow_succ_r by lia.
      assert (P : 0 < 10 ^ Z.of_nat k) by (apply Z.pow_pos_nonneg; lia). rewrite (Z.mul_comm 10), Z.rem_mul_r by lia. ring.
    + constructor; [|exact F]. unfold digit_ok. pose proof (Z.mod_pos_bound (n / 10 ^ Z.of_nat k) 10). lia.
    + cbn [length]. lia.
Qed.
Lemma digits_value_zeros k : digits_value (repeat 0 k) = 0.
Proof. induction k as [|k IH]; [reflexivity|]. cbn [repeat]. change (0 :: ?b) with ([0] ++ b). rewrite digits_value_app, IH, digits_value_one. ring. Qed.
Lemma strip_zeros_spec ds : exists k, ds = strip_zeros ds ++ repeat 0 k.
Proof.
  unfold strip_zeros. assert (G : forall l, exists k, l = repeat 0 k ++ drop_zeros l).
  { induction l as [|d l [k IH]]; [now exists O|]. cbn [drop_zeros]. destruct (d =? 0) eqn:E; [|now exists O]. apply Z.eqb_eq in E. subst d. exists (S k). cbn [repeat app]. now rewrite <- IH. }
  destruct (G (rev ds)) as [k E]. exists k. rewrite <- (rev_involutive ds) at 1. rewrite E at 1. rewrite rev_app_distr. f_equal.
  clear. induction k as [|k IH]; [reflexivity|]. cbn [repeat rev]. rewrite IH. clear. induction k as [|k IH]; [reflexivity|]. cbn [repeat app]. now rewrite IH.
Qed.

(** ** Scanning *)
Definition tail_value (r : text) (e : Z) (r' : text) : Prop := take_exp r = (e, r', true) /\ no_digit_first r /\ match r with c :: _ => c <> "."%char | [] => True end.
Lemma scan_decimal_text neg ip fp r e r' : Forall digit_ok ip -> ip <> [] -> Forall digit_ok fp -> tail_value r e r' ->
  scan_decimal (sign_text neg ++ digits_text ip ++ frac_text fp ++ r) =
  Some ((inject_Z (signed neg (digits_value (ip ++ fp))) * pow10 (e - Z.of_nat (length fp)))%Q, r', true).
Proof.
  intros Fi N Ff [R1 [R2 R3]]. unfold scan_decimal, digits_text. rewrite take_sign_text by assumption.
  assert (E : take_digits (map digit_char ip ++ frac_text fp ++ r) = (ip, frac_text fp ++ r) /\ take_frac (frac_text fp ++ r) = (fp, r)).
  { destruct fp as [|d fp]; cbn [frac_text app].
    - split; [now apply take_digits_print|]. destruct r as [|c r]; [reflexivity|]. cbn. now rewrite ascii_eqb_false.
    - split; [apply take_digits_print; [exact Fi|reflexivity]|]. cbn [take_frac]. replace (Ascii.eqb "." ".") with true by reflexivity. unfold digits_text. now apply take_digits_print. }
  destruct E as [E1 E2]. rewrite E1, E2. destruct ip as [|d ip]; [congruence|]. cbn [app]. rewrite R1. reflexivity.
Qed.
Lemma tail_end r : match r with c :: _ => is_digit c = false /\ c <> "e"%char /\ c <> "E"%char /\ c <> "."%char | [] => True end -> tail_value r 0 r.
Proof.
  destruct r as [|c r]; intros H; [now repeat split|]. destruct H as [A [B [C D]]]. split; [|split; [exact A|exact D]]. cbn [take_exp]. now rewrite !ascii_eqb_false by assumption.
Qed.
Lemma tail_exp e : tail_value (exp_text e) e [].
Proof.
  split; [|split; [reflexivity|discriminate]]. unfold exp_text. cbn [app take_exp]. replace (Ascii.eqb "e" "e") with true by reflexivity. cbn [orb].
  set (ds := if Z.abs e <? 10 then _ else _).
  assert (D : digits_value ds = Z.abs e /\ Forall digit_ok ds /\ ds <> []).
  { unfold ds. destruct (Z.abs e <? 10) eqn:E; [|apply decimal_digits_spec; lia]. apply Z.ltb_lt in E. split; [unfold digits_value; cbn [fold_left]; lia|].
    split; [|discriminate]. repeat constructor; unfold digit_ok; lia. }
  destruct D as [V [F N]]. clearbody ds. 
  assert (T : take_sign ((if e <? 0 then "-"%char else "+"%char) :: digits_text ds) = (e <? 0, digits_text ds)) by (destruct (e <? 0); reflexivity).
  rewrite T. unfold digits_text. rewrite <- (app_nil_r (map digit_char ds)), take_digits_print by (try exact I; exact F). destruct ds as [|d ds]; [congruence|]. rewrite V.
  do 3 f_equal. unfold signed. destruct (e <? 0) eqn:E; [apply Z.ltb_lt in E|apply Z.ltb_ge in E]; lia.
Qed.

(** ** Six significant digits *)
Lemma pow10_lt_inv a b : (pow10 a < pow10 b)%Q -> a < b.
Proof. intros H. destruct (Z_lt_le_dec a b) as [L|L]; [exact L|]. exfalso. apply (Qlt_not_le _ _ H). now apply pow10_le. Qed.
Lemma six_digits_spec q m e : (0 < q)%Q -> six_digits q = (m, e) ->
  10 ^ 5 <= m < 10 ^ 6 /\ (Qabs (inject_Z m * pow10 (e - 5) - q) <= (1 # 200000) * q)%Q /\
  (forall n k, Z.abs n < 10 ^ 6 -> (q == inject_Z n * pow10 k)%Q -> (inject_Z m * pow10 (e - 5) == q)%Q).
Proof.
  intros H E. destruct (log10_floor_spec H) as [LO HI]. unfold six_digits in E. set (e0 := log10_floor q) in *. set (m0 := round_half_even (q * pow10 (5 - e0))) in *.
  assert (S : (pow10 e0 * pow10 (5 - e0) == inject_Z (10 ^ 5))%Q) by (rewrite <- pow10_plus; replace (e0 + (5 - e0)) with 5 by lia; reflexivity).
  assert (S6 : (pow10 (e0 + 1) * pow10 (5 - e0) == inject_Z (10 ^ 6))%Q) by (rewrite <- pow10_plus; replace (e0 + 1 + (5 - e0)) with 6 by lia; reflexivity).
  assert (SI : (pow10 (5 - e0) * pow10 (e0 - 5) == 1)%Q) by (rewrite <- pow10_plus; replace (5 - e0 + (e0 - 5)) with 0 by lia; reflexivity).
  pose proof (pow10_pos (5 - e0)) as P5. pose proof (pow10_pos (e0 - 5)) as PM.
  assert (R : 10 ^ 5 <= m0 <= 10 ^ 6).
  { apply round_half_even_range; [rewrite <- S; apply Qmult_le_compat_r; [exact LO|now apply Qlt_le_weak]|]. rewrite <- S6. apply Qmult_le_compat_r; [now apply Qlt_le_weak|now apply Qlt_le_weak]. }
  assert (V : (Qabs (inject_Z m0 * pow10 (e0 - 5) - q) <= (1 # 200000) * q)%Q).
  { setoid_replace (inject_Z m0 * pow10 (e0 - 5) - q)%Q with ((inject_Z m0 - q * pow10 (5 - e0)) * pow10 (e0 - 5))%Q.
    2:{ setoid_replace ((inject_Z m0 - q * pow10 (5 - e0)) * pow10 (e0 - 5))%Q with (inject_Z m0 * pow10 (e0 - 5) - q * (pow10 (5 - e0) * pow10 (e0 - 5)))%Q by ring. rewrite SI. ring. }
    rewrite Qabs_Qmult, (Qabs_pos (pow10 _)) by now apply Qlt_le_weak. pose proof (round_half_even_spec (q * pow10 (5 - e0))) as B. fold m0 in B.
    apply Qle_trans with ((1 # 2) * pow10 (e0 - 5))%Q; [apply Qmult_le_compat_r; [exact B|now apply Qlt_le_weak]|].
    assert (T : (pow10 (e0 - 5) == (1 # 100000) * pow10 e0)%Q) by (unfold Z.sub; rewrite pow10_plus, Qmult_comm; reflexivity). rewrite T. lra. }
  assert (X : forall n k, Z.abs n < 10 ^ 6 -> (q == inject_Z n * pow10 k)%Q -> (inject_Z m0 * pow10 (e0 - 5) == q)%Q).
  { intros n k N Q. assert (NP : 0 < n). { pose proof (pow10_pos k). rewrite Zlt_Qlt. assert (0 < inject_Z n * pow10 k)%Q by (rewrite <- Q; exact H). change (inject_Z 0) with 0%Q. nra. }
    assert (K : e0 - k < 6).
    { apply pow10_lt_inv. apply Qle_lt_trans with (inject_Z n).
      - unfold Z.sub. rewrite pow10_plus. pose proof (pow10_pos (- k)) as Pk. apply Qle_trans with (q * pow10 (- k))%Q; [apply Qmult_le_compat_r; [exact LO|now apply Qlt_le_weak]|].
        rewrite Q. pose proof (pow10_opp k) as O. setoid_replace (inject_Z n * pow10 k * pow10 (- k))%Q with (inject_Z n * (pow10 k * pow10 (- k)))%Q by ring. rewrite O, Qmult_1_r. apply Qle_refl.
      - rewrite pow10_nonneg by lia. rewrite <- Zlt_Qlt. lia. }
    assert (M : m0 = n * 10 ^ (k + 5 - e0)).
    { apply round_half_even_int. rewrite Q, inject_Z_mult, <- pow10_nonneg by lia. rewrite <- Qmult_assoc, <- pow10_plus. replace (k + (5 - e0)) with (k + 5 - e0) by lia. reflexivity. }
    rewrite M, inject_Z_mult, <- pow10_nonneg by lia. rewrite <- Qmult_assoc, <- pow10_plus. replace (k + 5 - e0 + (e0 - 5)) with k by lia. symmetry. exact Q. }
  destruct (m0 =? 10 ^ 6) eqn:EM; injection E as <- <-.
  - apply Z.eqb_eq in EM. rewrite EM in V, X. assert (C : (inject_Z (10 ^ 5) * pow10 (e0 + 1 - 5) == inject_Z (10 ^ 6) * pow10 (e0 - 5))%Q).
    { replace (e0 + 1 - 5) with (1 + (e0 - 5)) by lia. rewrite pow10_plus, Qmult_assoc. reflexivity. }
    split; [lia|]. split; [now rewrite C|intros n k N Q; rewrite C; now apply (X n k)].
  - apply Z.eqb_neq in EM. split; [lia|]. split; [exact V|exact X].
Qed.

(** ** The printed text *)
(** value of a decimal: the digits before the point and the stripped fraction *)
Lemma strip_value ip fp : (inject_Z (digits_value (ip ++ strip_zeros fp)) * pow10 (- Z.of_nat (length (strip_zeros fp))) ==
  inject_Z (digits_value (ip ++ fp)) * pow10 (- Z.of_nat (length fp)))%Q.
Proof.
  destruct (strip_zeros_spec fp) as [k E]. set (st := strip_zeros fp) in *. clearbody st. subst fp. rewrite app_assoc, (digits_value_app (ip ++ st)), digits_value_zeros, repeat_length, Z.add_0_r, app_length, repeat_length.
  rewrite inject_Z_mult, <- (pow10_nonneg (e := Z.of_nat k)) by lia. rewrite <- Qmult_assoc, <- pow10_plus.
  replace (Z.of_nat k + - Z.of_nat (length st + k)) with (- Z.of_nat (length st)) by lia. reflexivity.
Qed.
Lemma strip_ok fp : Forall digit_ok fp -> Forall digit_ok (strip_zeros fp).
Proof. intros F. destruct (strip_zeros_spec fp) as [k E]. rewrite E in F. apply Forall_app in F. apply F. Qed.

Definition sgnQ (neg : bool) : Q := if neg then -1 else 1.
Lemma signed_Q neg v : (inject_Z (signed neg v) == sgnQ neg * inject_Z v)%Q.
Proof. destruct neg; cbn [signed sgnQ]; [rewrite inject_Z_opp; ring|ring]. Qed.
Definition negb_of (x : Q) : bool := if Qlt_le_dec x 0 then true else false.

(** Shape of the text of a non-zero double: sign, digits, fraction, exponent. *)
Lemma print_double_shape x m e : ~ (x == 0)%Q -> six_digits (Qabs x) = (m, e) -> exists ip fp r e',
  print_double x = sign_text (negb_of x) ++ digits_text ip ++ frac_text fp ++ r /\ Forall digit_ok ip /\ ip <> [] /\ Forall digit_ok fp /\
  (r = [] /\ e' = 0 \/ r = exp_text e' /\ e' = e) /\ (inject_Z (digits_value (ip ++ fp)) * pow10 (e' - Z.of_nat (length fp)) == inject_Z m * pow10 (e - 5))%Q.
Proof.
  intros N E. assert (H : (0 < Qabs x)%Q). { destruct (Qlt_le_dec 0 (Qabs x)) as [L|L]; [exact L|]. exfalso. apply N. apply Qabs_Qle_condition in L. destruct L. apply Qle_antisym; [lra|lra]. }
  destruct (six_digits_spec H E) as [M _]. unfold print_double. replace (Qeq_bool x 0) with false by (symmetry; apply not_true_is_false; intros T; apply N; now apply Qeq_bool_eq). rewrite E.
  destruct (@last_digits_spec 6 m) as [V [F L]]; [lia|]. rewrite Z.mod_small in V by (change (10 ^ Z.of_nat 6) with (10 ^ 6); lia). set (ds := last_digits 6 m) in *. clearbody ds.
  assert (SG : forall t : text, (if Qlt_le_dec x 0 then ["-"%char] else []) ++ t = sign_text (negb_of x) ++ t) by (intros t; unfold negb_of; destruct (Qlt_le_dec x 0); reflexivity).
  assert (SP : forall k, Forall digit_ok (firstn k ds) /\ Forall digit_ok (skipn k ds)) by (intros k; apply Forall_app; now rewrite firstn_skipn).
  rewrite SG. destruct ((-4 <=? e) && (e <? 6)) eqn:B.
  - apply andb_true_iff in B. destruct B as [B1 B2]. apply Z.leb_le in B1. apply Z.ltb_lt in B2. destruct (0 <=? e) eqn:E0.
    + apply Z.leb_le in E0. set (k := Z.to_nat (e + 1)). exists (firstn k ds), (strip_zeros (skipn k ds)), [], 0. rewrite app_nil_r. destruct (SP k) as [S1 S2].
      split; [reflexivity|]. split; [exact S1|]. split; [intros T; apply (f_equal (@length Z)) in T; rewrite firstn_length, L in T; cbn in T; lia|]. split; [now apply strip_ok|]. split; [left; now split|].
      rewrite Z.sub_0_l, strip_value, firstn_skipn, V, skipn_length, L. replace (- Z.of_nat (6 - k)) with (e - 5) by lia. reflexivity.
    + apply Z.leb_gt in E0. set (z := Z.to_nat (- e - 1)). exists [0], (strip_zeros (repeat 0 z ++ ds)), [], 0. rewrite app_nil_r.
      assert (FZ : Forall digit_ok (repeat 0 z ++ ds)) by (apply Forall_app; split; [apply Forall_forall; intros y Hy; apply repeat_spec in Hy; subst y; unfold digit_ok; lia|exact F]).
      split; [reflexivity|]. split; [repeat constructor; unfold digit_ok; lia|]. split; [discriminate|]. split; [now apply strip_ok|]. split; [left; now split|].
      rewrite Z.sub_0_l, strip_value. change ([0] ++ ?l) with (repeat 0 1 ++ l). rewrite !digits_value_app, !digits_value_zeros, V, !Z.mul_0_l, !Z.add_0_l, app_length, repeat_length, L.
      replace (- Z.of_nat (z + 6)) with (e - 5) by lia. reflexivity.
  - exists (firstn 1 ds), (strip_zeros (skipn 1 ds)), (exp_text e), e. destruct (SP 1%nat) as [S1 S2].
    split; [reflexivity|]. split; [exact S1|]. split; [intros T; apply (f_equal (@length Z)) in T; rewrite firstn_length, L in T; cbn in T; lia|]. split; [now apply strip_ok|]. split; [right; now split|].
    unfold Z.sub. rewrite (pow10_plus e), (Qmult_comm (pow10 e)), Qmult_assoc, strip_value, firstn_skipn, V, skipn_length, L. rewrite (pow10_plus e). change (- Z.of_nat (6 - 1)) with (-5). change (Z.opp 5) with (-5). ring.
Qed.

Lemma print_double_chars x c : In c (print_double x) -> is_digit c = true \/ In c ["-"; "+"; "."; "e"]%char.
Proof.
  destruct (Qeq_dec x 0) as [Z0|N].
  - unfold print_double. rewrite (Qeq_eq_bool _ _ Z0). intros [<-|[]]. now left.
  - destruct (six_digits (Qabs x)) as [m e] eqn:E. destruct (print_double_shape N E) as [ip [fp [r [e' [-> [Fi [_ [Ff [R _]]]]]]]]]. intros H.
    assert (D : forall l, Forall digit_ok l -> In c (digits_text l) -> is_digit c = true) by (intros l F I; apply in_map_iff in I; destruct I as [d [<- I]]; rewrite Forall_forall in F; now apply is_digit_char, F).
    apply in_app_or in H. destruct H as [H|H]; [right; destruct (negb_of x); cbn in H; [|destruct H]; destruct H as [<-|[]]; cbn; tauto|].
    apply in_app_or in H. destruct H as [H|H]; [left; now apply (D ip)|]. apply in_app_or in H. destruct H as [H|H].
    + destruct fp as [|d fp]; [destruct H|]. destruct H as [<-|H]; [right; cbn; tauto|left; now apply (D (d :: fp))].
    + destruct R as [[-> _]|[-> _]]; [destruct H|]. unfold exp_text in H. apply in_app_or in H. destruct H as [H|H].
      * right. cbn in H. destruct (e' <? 0); destruct H as [<-|[<-|[]]]; cbn; tauto.
      * left. apply (D (if Z.abs e' <? 10 then [0; Z.abs e'] else decimal_digits (Z.abs e'))); [|exact H]. destruct (Z.abs e' <? 10) eqn:B.
        -- apply Z.ltb_lt in B. repeat constructor; unfold digit_ok; lia.
        -- apply decimal_digits_spec. lia.
Qed.
Lemma print_double_nonempty x : print_double x <> [].
Proof.
  destruct (Qeq_dec x 0) as [Z0|N].
  - unfold print_double. rewrite (Qeq_eq_bool _ _ Z0). discriminate.
  - destruct (six_digits (Qabs x)) as [m e] eqn:E. destruct (print_double_shape N E) as [ip [fp [r [e' [-> [_ [NE _]]]]]]]. intros H. apply app_eq_nil in H. destruct H as [_ H].
    apply app_eq_nil in H. destruct H as [H _]. apply map_eq_nil in H. auto.
Qed.

Lemma negb_of_abs x : (sgnQ (negb_of x) * Qabs x == x)%Q.
Proof.
  unfold negb_of. destruct (Qlt_le_dec x 0) as [H|H]; cbn [sgnQ]; [rewrite Qabs_neg by now apply Qlt_le_weak|rewrite Qabs_pos by exact H]; ring.
Qed.
Lemma atof_print_double_value x m e : ~ (x == 0)%Q -> six_digits (Qabs x) = (m, e) -> (atof (print_double x) == sgnQ (negb_of x) * (inject_Z m * pow10 (e - 5)))%Q.
Proof.
  intros N E. unfold atof. rewrite cstr_free. 2:{ intros I. apply print_double_chars in I. destruct I as [I|I]; [discriminate I|]. cbn in I. repeat (destruct I as [I|I]; [discriminate I|]). destruct I. }
  destruct (print_double_shape N E) as [ip [fp [r [e' [-> [Fi [NE [Ff [R V]]]]]]]]].
  rewrite (@scan_decimal_text (negb_of x) ip fp r e' []); [|assumption|assumption|assumption|].
  - rewrite signed_Q, <- Qmult_assoc, V. reflexivity.
  - destruct R as [[-> ->]|[-> _]]; [now apply tail_end|apply tail_exp].
Qed.
(** Reading back a printed double: relative error at most 5e-6, and none if six digits are enough. *)
Lemma atof_print_double x : (Qabs (atof (print_double x) - x) <= (1 # 200000) * Qabs x)%Q /\
  (forall n k, Z.abs n < 10 ^ 6 -> (x == inject_Z n * pow10 k)%Q -> (atof (print_double x) == x)%Q).
Proof.
  destruct (Qeq_dec x 0) as [Z0|N].
  - unfold print_double. rewrite (Qeq_eq_bool _ _ Z0). change (atof ["0"%char]) with (0 * 1)%Q. rewrite Z0. split; [discriminate|intros _ _ _ _; rewrite Z0; reflexivity].
  - destruct (six_digits (Qabs x)) as [m e] eqn:E. assert (H : (0 < Qabs x)%Q). { destruct (Qlt_le_dec 0 (Qabs x)) as [L|L]; [exact L|]. exfalso. apply N. apply Qabs_Qle_condition in L. destruct L. apply Qle_antisym; [lra|lra]. }
    destruct (six_digits_spec H E) as [_ [B X]].
    pose proof (atof_print_double_value N E) as A.
    rewrite A. pose proof (negb_of_abs x) as S. split.
    + setoid_replace (sgnQ (negb_of x) * (inject_Z m * pow10 (e - 5)) - x)%Q with (sgnQ (negb_of x) * (inject_Z m * pow10 (e - 5) - Qabs x))%Q.
      * rewrite Qabs_Qmult. setoid_replace (Qabs (sgnQ (negb_of x))) with 1%Q by (destruct (negb_of x); reflexivity). now rewrite Qmult_1_l.
      * rewrite <- S at 2. ring.
    + intros n k Hn Hx. assert (XX : (inject_Z m * pow10 (e - 5) == Qabs x)%Q); [apply (X (Z.abs n) k); [rewrite Z.abs_involutive; exact Hn|]|rewrite A, XX; exact S]. rewrite Hx, Qabs_Qmult, (Qabs_pos (pow10 k)) by (apply Qlt_le_weak, pow10_pos). reflexivity.
Qed.
