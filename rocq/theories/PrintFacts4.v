(** Facts about Print.v: integers; the character e *)
From Coq Require Import ZArith QArith Qabs Ascii String.
From Verif Require Import Base BaseFl FlFacts Functional FunctionalProofs Stats StatsOrder Io IoFacts IoNumber IoNumberFacts IoPrint IoPrintFacts Print PrintSpec PrintFacts PrintFacts2 PrintFacts3.
From Coq Require Import Lqa.
Open Scope Z_scope.
Set Implicit Arguments.
Notation length := List.length.

Lemma digit_char_zero d : digit_ok d -> digit_char d = "0"%char -> d = 0.
Proof. unfold digit_ok. intros D. assert (d = 0 \/ d = 1 \/ d = 2 \/ d = 3 \/ d = 4 \/ d = 5 \/ d = 6 \/ d = 7 \/ d = 8 \/ d = 9) as H by lia.
  repeat (destruct H as [-> |H]; [intros E; try discriminate E; reflexivity|]). subst. intros E. discriminate E. Qed.
Lemma print_int_number n : word (print_int n) /\ exists v, number_text (print_int n) v /\ (v == inject_Z n)%Q.
Proof.
  rewrite print_int_text. destruct (decimal_digits_spec (n := Z.abs n)) as [V [F N]]; [lia|]. set (ds := decimal_digits (Z.abs n)) in *. split.
  - split; [destruct (n <? 0), ds; try congruence; discriminate|]. apply Forall_app. split; [apply sign_no_space|now apply digits_text_no_space].
  - eexists. split; [unfold number_text; rewrite <- (app_nil_r (map digit_char ds)); apply (@scan_decimal_text (n <? 0) ds [] [] 0 []); [exact F|exact N|constructor|now apply tail_end]|].
    rewrite app_nil_r, signed_Q, V. cbn [length]. change (0 - Z.of_nat 0) with 0. change (pow10 0) with 1%Q. rewrite Qmult_1_r.
    unfold sgnQ. destruct (n <? 0) eqn:E; [apply Z.ltb_lt in E|apply Z.ltb_ge in E].
    + rewrite Z.abs_neq by lia. rewrite inject_Z_opp. ring.
    + rewrite Z.abs_eq by lia. ring.
Qed.
Lemma int_element w n : n mod 10 <> 0 -> holds_word (element_str true (put_int w n)) (print_int n).
Proof.
  intros H. unfold element_str, put_int. assert (remove_trailling_zeros (pad w (print_int n)) = pad w (print_int n)) as ->.
  { apply plain_remove. split; [apply print_int_number|]. rewrite print_int_text. destruct (decimal_digits_spec (n := Z.abs n)) as [V [F N]]; [lia|].
    destruct (exists_last N) as [l [d E]]. rewrite E in *. rewrite map_app, app_assoc. cbn [map]. rewrite last_last. intros Z0. apply Forall_app in F. destruct F as [_ F].
    inversion F; subst. apply digit_char_zero in Z0; [|assumption]. subst d. rewrite digits_value_app, digits_value_one in V. cbn [length] in V. change (10 ^ Z.of_nat 1) with 10 in V.
    apply H. apply Z.mod_divide; [lia|]. destruct (Z.abs_eq_or_opp n); [exists (digits_value l)|exists (- digits_value l)]; lia. }
  apply pad_holds. apply print_int_number.
Qed.

(** ** The letter e: scientific notation *)
Definition ee : ascii := "e"%char.
Lemma in_cstr c s : In c (cstr s) -> In c s.
Proof. induction s as [|d s IH]; cbn; [auto|]. destruct (Ascii.eqb d nul); [intros []|]. cbn. tauto. Qed.
Lemma print_elements_in o c : c <> " "%char -> c <> newline -> ~ In c (separator o) -> forall strs sep0 pos, sep0 = [] \/ sep0 = separator o ->
  (In c (fst (print_elements sep0 o strs pos)) <-> exists s, In s strs /\ In c s).
Proof.
  intros C1 C2 CS. induction strs as [|s strs IH]; intros sep0 pos H; [cbn; split; [intros []|intros [s [[] _]]]|].
  cbn [print_elements]. assert (NC : ~ In c (cstr sep0)) by (intros I; apply in_cstr in I; destruct H as [-> | ->]; [destruct I|exact (CS I)]).
  set (q := pos + _ + _). destruct (linewidth o <=? q).
  - specialize (IH (separator o) (1 + Z.of_nat (length s)) (or_intror eq_refl)). destruct (print_elements _ o strs _) as [t p]. cbn [fst] in *.
    rewrite !in_app_iff. cbn [In]. rewrite IH. split.
    + intros [X|[[X|[X|X]]|[s' [X Y]]]]; [contradiction|congruence|congruence|exists s; tauto|exists s'; tauto].
    + intros [s' [[-> |X] Y]]; [tauto|]. right. right. eauto.
  - specialize (IH (separator o) q (or_intror eq_refl)). destruct (print_elements _ o strs _) as [t p]. cbn [fst] in *.
    rewrite !in_app_iff. rewrite IH. split.
    + intros [X|[X|[s' [X Y]]]]; [contradiction|exists s; cbn; tauto|exists s'; cbn; tauto].
    + intros [s' [[-> |X] Y]]; [tauto|]. right. right. eauto.
Qed.
Lemma digit_char_not_e d : digit_ok d -> digit_char d <> ee.
Proof. unfold digit_ok. intros D. assert (d = 0 \/ d = 1 \/ d = 2 \/ d = 3 \/ d = 4 \/ d = 5 \/ d = 6 \/ d = 7 \/ d = 8 \/ d = 9) as H by lia.
  repeat (destruct H as [-> |H]; [intros E; discriminate E|]). subst. intros E. discriminate E. Qed.
Lemma digits_no_e l : Forall digit_ok l -> ~ In ee (digits_text l).
Proof. intros F H. apply in_map_iff in H. destruct H as [d [E H]]. rewrite Forall_forall in F. apply F in H. now apply digit_char_not_e in H. Qed.
Lemma fixed_no_e p x : ~ In ee (put_fixed p x).
Proof.
  unfold put_fixed. set (n := round_half_even _).
  assert (N : 0 <= n). { apply round_half_even_nonneg. apply Qmult_le_0_compat; [apply Qabs_nonneg|apply Qlt_le_weak, pow10_pos]. }
  rewrite !in_app_iff. intros [H|[H|H]].
  - unfold sign_of in H. destruct (Qlt_le_dec x 0); [destruct H as [H|[]]; discriminate H|destruct H].
  - revert H. apply digits_no_e. apply decimal_digits_spec. apply Z.div_pos; [exact N|]. apply Z.pow_pos_nonneg; lia.
  - destruct (last_digits_spec p N) as [_ [F _]]. destruct (last_digits p n) as [|d l]; [destruct H|]. destruct H as [H|H]; [discriminate H|]. now apply digits_no_e in H.
Qed.
Lemma scientific_e p x : In ee (put_scientific p x).
Proof.
  unfold put_scientific. destruct (Qeq_bool x 0); [|destruct (sig_digits p (Qabs x)) as [m e]]; rewrite !in_app_iff; unfold exp_text; rewrite in_app_iff; cbn [In]; tauto.
Qed.
Lemma pad_e w s : In ee (pad w s) <-> In ee s.
Proof. unfold pad. rewrite in_app_iff. split; [intros [H|H]; [apply repeat_spec in H; discriminate H|exact H]|tauto]. Qed.
Lemma remove_e s : In ee (remove_trailling_zeros s) -> In ee s.
Proof.
  unfold remove_trailling_zeros. destruct (list_eq_dec _ _ _); [tauto|]. rewrite <- in_rev. rewrite (in_rev s). induction (rev s) as [|c r IH]; [tauto|].
  cbn. destruct (Ascii.eqb c "0"); [|tauto]. intros [H|H]; [discriminate H|tauto].
Qed.
Lemma real_e o fixed v : ~ In ee (nanstr o) -> ~ In ee (infstr o) -> (In ee (element_str fixed (put_real o fixed 12 v)) <-> fixed = false /\ exists q, v = Fin q).
Proof.
  intros N I. split.
  - intros H. assert (J : In ee (put_real o fixed 12 v)) by (destruct fixed; [now apply remove_e|exact H]). clear H.
    destruct v as [q| | |]; cbn [put_real] in J; try rewrite in_app_iff in J; rewrite ?pad_e in J; try contradiction.
    + split; [|eauto]. destruct fixed; [|reflexivity]. now apply fixed_no_e in J.
    + destruct J as [[J|[]]|J]; [discriminate J|contradiction].
  - intros [-> [q ->]]. cbn [element_str put_real]. rewrite pad_e. apply scientific_e.
Qed.
Lemma array_e o a : ~ In ee (nanstr o) -> ~ In ee (infstr o) -> ~ In ee (separator o) -> (length a <= threshold o)%nat ->
  exists t, array2string print_reals o a = Ok t /\ (In ee t <-> suppress o = false /\ sci_real a = true /\ exists q, In (Fin q) a).
Proof.
  intros N I S TH. destruct a as [|x a].
  - eexists. split; [reflexivity|]. cbn. split; [intros H; repeat (destruct H as [H|H]; [discriminate H|]); destruct H|intros [_ [H _]]; discriminate H].
  - cbn [array2string]. rewrite (proj2 (Nat.leb_le _ _) TH). set (A := x :: a). cbn [scientific print_reals]. set (fixed := suppress o || _). eexists. split; [reflexivity|].
    unfold print_array_elements. rewrite !in_app_iff. rewrite print_elements_in; [|discriminate|discriminate|exact S|now left].
    assert (FX : fixed = false <-> suppress o = false /\ sci_real A = true) by (unfold fixed; destruct (suppress o), (sci_real A); cbn; split; intuition discriminate).
    split.
    + intros [H|[[s [H J]]|[H|H]]]; try (repeat (destruct H as [H|H]; [discriminate H|]); destruct H; fail).
      apply in_map_iff in H. destruct H as [v [<- H]]. cbn [put width print_reals] in J. apply real_e in J; [|assumption|assumption]. destruct J as [J [q ->]].
      apply FX in J. destruct J. eauto.
    + intros [S1 [S2 [q H]]]. right. left. eexists. split; [apply in_map_iff; eexists; split; [reflexivity|exact H]|]. cbn [put width print_reals]. apply real_e; [assumption|assumption|].
      split; [apply FX; now split|eauto].
Qed.
