From Coq Require Import ZArith QArith Qabs Ascii Qfield Lqa.
From Verif Require Import Base Io IoSpec IoFacts IoNumber.
From Coq Require Import Lia.
Open Scope Z_scope.
Set Implicit Arguments.

Lemma digits_value_from ds : forall a, fold_left (fun a d => 10 * a + d) ds a = a * 10 ^ Z.of_nat (length ds) + digits_value ds.
Proof.
  unfold digits_value. induction ds as [|d ds IH]; intros a; [cbn; lia|]. cbn [fold_left length]. rewrite IH, (IH (10 * 0 + d)).
  replace (Z.of_nat (S (length ds))) with (Z.of_nat (length ds) + 1) by lia. rewrite Z.pow_add_r by lia. ring.
Qed.
Lemma digits_value_app a b : digits_value (a ++ b) = digits_value a * 10 ^ Z.of_nat (length b) + digits_value b.
Proof. unfold digits_value at 1. rewrite fold_left_app. apply digits_value_from. Qed.
Lemma digits_value_one d : digits_value [d] = d.
Proof. unfold digits_value. cbn [fold_left]. ring. Qed.

Definition digit_ok (d : Z) : Prop := 0 <= d <= 9.

Lemma digits_rev_spec : forall fuel n, 0 <= n < 2 ^ Z.of_nat fuel ->
  digits_value (rev (digits_rev fuel n)) = n /\ Forall digit_ok (digits_rev fuel n).
Proof.
  induction fuel as [|fuel IH]; intros n H.
  - cbn in *. split; [lia|constructor].
  - replace (Z.of_nat (S fuel)) with (Z.of_nat fuel + 1) in H by lia. rewrite Z.pow_add_r in H by lia. cbn [digits_rev].
    destruct (n <? 10) eqn:E.
    + apply Z.ltb_lt in E. cbn [rev app]. rewrite digits_value_one. split; [reflexivity|]. constructor; [unfold digit_ok; lia|constructor].
    + apply Z.ltb_ge in E. pose proof (Z.div_mod n 10). pose proof (Z.mod_pos_bound n 10).
      destruct (IH (n / 10)) as [V F].
      { split; [apply Z.div_pos; lia|]. apply Z.div_lt_upper_bound; lia. }
      cbn [rev]. rewrite digits_value_app, V, digits_value_one. cbn [length]. split; [change (10 ^ Z.of_nat 1) with 10; lia|].
      constructor; [unfold digit_ok; lia|exact F].
Qed.
Lemma decimal_digits_spec n : 0 <= n -> digits_value (decimal_digits n) = n /\ Forall digit_ok (decimal_digits n) /\ decimal_digits n <> [].
Proof.
  intros H. unfold decimal_digits. destruct (digits_rev_spec (S (Z.to_nat (Z.log2 n))) (n := n)) as [V F].
  - split; [exact H|]. pose proof (Z.log2_nonneg n). rewrite Nat2Z.inj_succ, Z2Nat.id by lia. destruct (Z.eq_dec n 0) as [->|N]; [reflexivity|]. apply Z.log2_spec. lia.
  - split; [exact V|]. split; [apply Forall_rev, F|]. cbn [digits_rev]. destruct (n <? 10); [discriminate|]. cbn [rev]. intros X. apply app_eq_nil in X. destruct X. discriminate.
Qed.

Lemma nat_digit d : digit_ok d -> (Z.to_nat (d + 48) < 256)%nat.
Proof. unfold digit_ok. lia. Qed.
Lemma code_digit d : digit_ok d -> code (digit_char d) = d + 48.
Proof. intros H. unfold code, digit_char. rewrite nat_ascii_embedding by (apply nat_digit, H). unfold digit_ok in H. lia. Qed.
Lemma is_digit_char d : digit_ok d -> is_digit (digit_char d) = true.
Proof. intros H. unfold is_digit. rewrite code_digit by exact H. unfold digit_ok in H. apply andb_true_iff. split; apply Z.leb_le; lia. Qed.

Definition no_digit_first (r : text) : Prop := match r with c :: _ => is_digit c = false | [] => True end.
Lemma take_digits_print ds r : Forall digit_ok ds -> no_digit_first r -> take_digits (map digit_char ds ++ r) = (ds, r).
Proof.
  intros F H. induction F as [|d ds D F IH]; cbn [map app take_digits].
  - destruct r as [|c r]; [reflexivity|]. cbn in H. cbn. now rewrite H.
  - rewrite is_digit_char by exact D. rewrite IH, code_digit by exact D. do 2 f_equal. lia.
Qed.

Lemma digit_char_inj_neq d c : digit_ok d -> is_digit c = false -> digit_char d <> c.
Proof. intros D H E. subst c. rewrite is_digit_char in H by exact D. discriminate. Qed.
Lemma digit_not_space d : digit_ok d -> is_space (digit_char d) = false.
Proof.
  intros H. unfold is_space. rewrite code_digit by exact H. unfold digit_ok in H. apply orb_false_iff. split; [apply Z.eqb_neq; lia|].
  apply andb_false_iff. right. apply Z.leb_gt. lia.
Qed.

(** A number text: an optional minus sign and digits. *)
Lemma take_sign_digits d r : digit_ok d -> take_sign (skip_space (digit_char d :: r)) = (false, digit_char d :: r).
Proof.
  intros H. cbn [skip_space]. rewrite digit_not_space by exact H. cbn [take_sign].
  rewrite !ascii_eqb_false by (apply digit_char_inj_neq; [exact H|reflexivity]). reflexivity.
Qed.
Lemma take_sign_minus r : take_sign (skip_space ("-"%char :: r)) = (true, r).
Proof. reflexivity. Qed.

Definition sign_text (neg : bool) : text := if neg then ["-"%char] else [].
Lemma take_sign_text neg ds r : Forall digit_ok ds -> ds <> [] ->
  take_sign (skip_space (sign_text neg ++ map digit_char ds ++ r)) = (neg, map digit_char ds ++ r).
Proof.
  intros F N. destruct neg; [reflexivity|]. destruct ds as [|d ds]; [congruence|]. inversion F; subst. cbn [sign_text app map]. now apply take_sign_digits.
Qed.

Lemma digits_no_nul ds : Forall digit_ok ds -> ~ In nul (map digit_char ds).
Proof.
  intros F H. apply in_map_iff in H. destruct H as [d [E I]]. rewrite Forall_forall in F. apply (@digit_char_inj_neq d nul (F d I) eq_refl E).
Qed.

Lemma print_int_text n : print_int n = sign_text (n <? 0) ++ map digit_char (decimal_digits (Z.abs n)).
Proof. reflexivity. Qed.
Lemma print_int_chars n c : In c (print_int n) -> is_digit c = true \/ c = "-"%char.
Proof.
  rewrite print_int_text. intros H. apply in_app_or in H. destruct H as [H|H].
  - destruct (n <? 0); cbn in H; [|destruct H]. destruct H as [<-|[]]. now right.
  - left. apply in_map_iff in H. destruct H as [d [<- I]]. destruct (decimal_digits_spec (n := Z.abs n)) as [_ [F _]]; [lia|]. rewrite Forall_forall in F.
    apply is_digit_char, F, I.
Qed.
Lemma print_int_nonempty n : print_int n <> [].
Proof.
  rewrite print_int_text. intros H. apply app_eq_nil in H. destruct H as [_ H]. apply map_eq_nil in H.
  destruct (decimal_digits_spec (n := Z.abs n)) as [_ [_ N]]; [lia|]. auto.
Qed.
Lemma print_int_no_nul n : ~ In nul (print_int n).
Proof. intros H. apply print_int_chars in H. destruct H as [H|H]; discriminate H. Qed.

Lemma atoi_print n r : ~ In nul r -> no_digit_first r -> - 2 ^ 31 <= n < 2 ^ 31 -> atoi (print_int n ++ r) = Ok n.
Proof.
  intros Z0 R H. destruct (decimal_digits_spec (n := Z.abs n)) as [V [F N]]; [lia|]. unfold atoi.
  rewrite cstr_free. 2:{ intros X. apply in_app_or in X. destruct X as [X|X]; [exact (print_int_no_nul _ X)|auto]. }
  rewrite print_int_text, <- app_assoc, take_sign_text by assumption. rewrite take_digits_print by assumption. cbn [fst]. rewrite V.
  assert (S : signed (n <? 0) (Z.abs n) = n). { unfold signed. destruct (n <? 0) eqn:E; [apply Z.ltb_lt in E|apply Z.ltb_ge in E]; lia. }
  rewrite S. replace ((- 2 ^ 31 <=? n) && (n <? 2 ^ 31)) with true; [reflexivity|]. symmetry. apply andb_true_iff. split; [apply Z.leb_le|apply Z.ltb_lt]; lia.
Qed.

Lemma atoi_overflow n : n < - 2 ^ 31 \/ 2 ^ 31 <= n -> atoi (print_int n) = UB.
Proof.
  intros H. destruct (decimal_digits_spec (n := Z.abs n)) as [V [F N]]; [lia|]. unfold atoi. rewrite cstr_free by apply print_int_no_nul.
  rewrite print_int_text, <- (app_nil_r (map digit_char _)), take_sign_text by assumption. rewrite take_digits_print by (try exact I; assumption). cbn [fst]. rewrite V.
  assert (S : signed (n <? 0) (Z.abs n) = n). { unfold signed. destruct (n <? 0) eqn:E; [apply Z.ltb_lt in E|apply Z.ltb_ge in E]; lia. }
  rewrite S. replace ((- 2 ^ 31 <=? n) && (n <? 2 ^ 31)) with false; [reflexivity|]. symmetry. apply andb_false_iff.
  destruct H as [H|H]; [left; apply Z.leb_gt; lia|right; apply Z.ltb_ge; lia].
Qed.

Lemma cast_int_id (sgn : bool) bits n : 1 <= bits -> (if sgn then - 2 ^ (bits - 1) <= n < 2 ^ (bits - 1) else 0 <= n < 2 ^ bits) -> cast_int sgn bits n = n.
Proof.
  intros B H. unfold cast_int. assert (P : 2 ^ bits = 2 * 2 ^ (bits - 1)). { rewrite <- Z.pow_succ_r by lia. f_equal. lia. }
  destruct sgn; rewrite Z.mod_small; lia.
Qed.

(** ** Decimal fractions *)
(** A decimal text: sign, digits, optional fraction. *)
Lemma scan_decimal_print neg ip fp r : Forall digit_ok ip -> ip <> [] -> Forall digit_ok fp ->
  match r with c :: _ => is_digit c = false /\ c <> "e"%char /\ c <> "E"%char | [] => True end ->
  scan_decimal (sign_text neg ++ map digit_char ip ++ ["."%char] ++ map digit_char fp ++ r) =
  Some ((inject_Z (signed neg (digits_value (ip ++ fp))) * pow10 (0 - Z.of_nat (length fp)))%Q, r, true).
Proof.
  intros Fi N Ff R. unfold scan_decimal. rewrite take_sign_text by assumption. rewrite take_digits_print by (try exact Fi; reflexivity).
  cbn [app take_frac]. replace (Ascii.eqb "." ".") with true by reflexivity.
  assert (D : no_digit_first r) by (destruct r as [|c r]; cbn; [exact I|apply R]).
  rewrite take_digits_print by assumption.
  assert (E : take_exp r = (0, r, true)).
  { destruct r as [|c r]; [reflexivity|]. cbn [take_exp]. destruct R as [_ [R1 R2]]. now rewrite !ascii_eqb_false by assumption. }
  destruct ip as [|d ip]; [congruence|]. cbn [app]. rewrite E. reflexivity.
Qed.
