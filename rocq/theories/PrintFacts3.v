(** Facts about Print.v: lengths of the texts of the elements *)
From Coq Require Import ZArith QArith Qabs Ascii String.
From Verif Require Import Base BaseFl FlFacts Functional FunctionalProofs Stats StatsOrder Io IoFacts IoNumber IoNumberFacts IoPrint IoPrintFacts Print PrintSpec PrintFacts PrintFacts2.
From Coq Require Import Lqa.
Open Scope Z_scope.
Set Implicit Arguments.
Notation length := List.length.

Lemma len_nonneg s : 0 <= len s. Proof. unfold len. lia. Qed.
Lemma digits_len n k : 1 <= k -> 0 <= n < 10 ^ k -> Z.of_nat (length (decimal_digits n)) <= k.
Proof.
  intros K [N H]. destruct (Z.eq_dec n 0) as [-> |D]; [cbn; lia|]. destruct (decimal_digits_length (n := n)) as [L _]; [lia|].
  assert (10 ^ (Z.of_nat (length (decimal_digits n)) - 1) < 10 ^ k) as G by lia. apply Z.pow_lt_mono_r_iff in G; lia.
Qed.
Lemma len_pad w s : len (pad w s) = Z.max w (len s).
Proof. unfold pad, len. rewrite app_length, repeat_length. lia. Qed.
Lemma blank_zeros_rev_len s : length (blank_zeros_rev s) = length s.
Proof. induction s as [|c s IH]; [reflexivity|]. cbn. destruct (Ascii.eqb c "0"); cbn; congruence. Qed.
Lemma len_remove s : len (remove_trailling_zeros s) = len s.
Proof. unfold remove_trailling_zeros, len. destruct (list_eq_dec _ _ _); [reflexivity|]. now rewrite rev_length, blank_zeros_rev_len, rev_length. Qed.
Lemma len_element fixed s : len (element_str fixed s) = len s.
Proof. destruct fixed; [apply len_remove|reflexivity]. Qed.
Lemma len_digits_text l : len (digits_text l) = Z.of_nat (length l).
Proof. unfold len, digits_text. now rewrite map_length. Qed.
Lemma len_point_text l : len (point_text l) <= 1 + Z.of_nat (length l).
Proof. destruct l as [|d l]; [unfold len; cbn; lia|]. unfold point_text. change (len ("."%char :: digits_text (d :: l))) with (len (["."%char] ++ digits_text (d :: l))). rewrite len_app, len_digits_text. unfold len. cbn [length]. lia. Qed.
Lemma len_sign_of x : len (sign_of x) <= 1.
Proof. unfold sign_of. destruct (Qlt_le_dec x 0); unfold len; cbn; lia. Qed.
Lemma len_fixed p x k : 0 <= k -> (Qabs x < inject_Z (10 ^ k))%Q -> len (put_fixed p x) <= k + Z.of_nat p + 3.
Proof.
  intros K H. unfold put_fixed. set (n := round_half_even _). set (P := Z.of_nat p).
  assert (T : 0 < 10 ^ P) by (apply Z.pow_pos_nonneg; lia). assert (TK : 0 < 10 ^ k) by (apply Z.pow_pos_nonneg; lia).
  assert (N : 0 <= n <= 10 ^ k * 10 ^ P).
  { unfold n. apply round_half_even_range; [apply Qmult_le_0_compat; [apply Qabs_nonneg|apply Qlt_le_weak, pow10_pos]|].
    fold P. rewrite inject_Z_mult, pow10_nonneg by lia. apply Qmult_le_compat_r; [lra|]. change 0%Q with (inject_Z 0). rewrite <- Zle_Qle. lia. }
  assert (D : 0 <= n / 10 ^ P < 10 ^ (k + 1)).
  { split; [apply Z.div_pos; lia|]. rewrite Z.pow_add_r by lia. apply Z.div_lt_upper_bound; [lia|]. nia. }
  rewrite !len_app, len_digits_text. pose proof (len_sign_of x). pose proof (len_point_text (last_digits p n)) as L.
  destruct (last_digits_spec p (n := n)) as [_ [_ LL]]; [lia|]. rewrite LL in L. pose proof (@digits_len (n / 10 ^ P) (k + 1) ltac:(lia) D). fold P in L. lia.
Qed.
Lemma len_exp e : Z.abs e < 1000 -> len (exp_text e) <= 5.
Proof.
  intros H. unfold exp_text. rewrite len_app, len_digits_text. destruct (Z.abs e <? 10); [unfold len; cbn; lia|].
  pose proof (@digits_len (Z.abs e) 3 ltac:(lia) ltac:(change (10 ^ 3) with 1000; lia)). unfold len. cbn [length]. lia.
Qed.
Lemma len_scientific p x : (Qabs x < pow10 999)%Q -> (x == 0 \/ pow10 (- 999) <= Qabs x)%Q -> len (put_scientific p x) <= Z.of_nat p + 8.
Proof.
  intros U Lo. unfold put_scientific. destruct (Qeq_bool x 0) eqn:E0.
  - rewrite !len_app. pose proof (len_point_text (repeat 0 p)) as L. rewrite repeat_length in L. pose proof (@len_exp 0 ltac:(lia)). unfold len in *. cbn [length] in *. lia.
  - apply Qeq_bool_neq in E0. destruct Lo as [Lo|Lo]; [contradiction|].
    assert (A : (0 < Qabs x)%Q) by (pose proof (pow10_pos (-999)); lra). destruct (sig_digits p (Qabs x)) as [m e] eqn:SD.
    destruct (sig_digits_spec _ A SD) as [[M _] _]. destruct (log10_floor_spec A) as [L1 L2].
    assert (M0 : 0 <= m) by (pose proof (Z.pow_pos_nonneg 10 (Z.of_nat p)); lia).
    assert (E : Z.abs e < 1000).
    { assert (log10_floor (Qabs x) < 999) by (apply pow10_lt_inv; lra). assert (-999 < log10_floor (Qabs x) + 1) by (apply pow10_lt_inv; lra).
      unfold sig_digits in SD. destruct (_ =? _); injection SD as <- <-; lia. }
    rewrite !len_app, len_digits_text. pose proof (len_sign_of x). pose proof (@len_exp e E). set (ds := last_digits (S p) m).
    assert (LD : length ds = S p) by (apply last_digits_spec; lia). pose proof (len_point_text (skipn 1 ds)) as L. rewrite skipn_length, LD in L.
    rewrite firstn_length, LD. lia.
Qed.
Lemma one_line_remove s : one_line s -> one_line (remove_trailling_zeros s).
Proof.
  intros H. unfold remove_trailling_zeros. destruct (list_eq_dec _ _ _); [exact H|]. intros I. apply in_rev in I.
  assert (J : ~ In newline (rev s)) by (intros J; apply H; now apply in_rev). clear H. induction (rev s) as [|c r IH]; [exact I|].
  cbn in I. destruct (Ascii.eqb c "0"); [|contradiction]. destruct I as [I|I]; [discriminate I|]. apply IH; [exact I|]. intros K. apply J. now right.
Qed.
Lemma one_line_element fixed s : one_line s -> one_line (element_str fixed s).
Proof. intros H. destruct fixed; [now apply one_line_remove|exact H]. Qed.
Lemma one_line_spaces k : one_line (repeat " "%char k).
Proof. intros H. apply repeat_spec in H. discriminate H. Qed.
Lemma one_line_pad w s : one_line s -> one_line (pad w s).
Proof. intros H. apply one_line_app; [apply one_line_spaces|exact H]. Qed.
Lemma one_line_word w : word w -> one_line w.
Proof. intros [_ F] H. rewrite Forall_forall in F. apply F in H. discriminate H. Qed.
Lemma real_len o fixed v k : 0 <= k <= 999 ->
  (forall q, v = Fin q -> (Qabs (this q) < inject_Z (10 ^ k))%Q /\ (q = 0%Qc \/ (/ inject_Z (10 ^ 999) <= Qabs (this q))%Q)) ->
  one_line (nanstr o) -> one_line (infstr o) ->
  one_line (put_real o fixed 12 v) /\
  len (put_real o fixed 12 v) <= Z.max (k + Z.of_nat (precision o) + 3) (Z.max (Z.of_nat (precision o) + 8) (Z.max 12 (Z.max (len (nanstr o)) (Z.max (len (infstr o)) (11 + len (infstr o) + 1))))).
Proof.
  intros K H ON OI. destruct v as [q| | |]; cbn [put_real].
  - destruct (H q eq_refl) as [U Lo]. split.
    + apply one_line_pad. apply one_line_word. destruct fixed; [destruct (fixed_number (precision o) (this q)) as [? [W _]]|destruct (scientific_number (precision o) (this q)) as [? [W _]]]; exact W.
    + rewrite len_pad. destruct fixed; [pose proof (@len_fixed (precision o) (this q) k ltac:(lia) U); lia|].
      assert (len (put_scientific (precision o) (this q)) <= Z.of_nat (precision o) + 8); [|lia]. apply len_scientific.
      * eapply Qlt_le_trans; [exact U|]. rewrite <- pow10_nonneg by lia. apply pow10_le. lia.
      * destruct Lo as [-> |Lo]; [left; reflexivity|right]. rewrite (@pow10_inv 999). exact Lo.
  - split; [now apply one_line_pad|rewrite len_pad; lia].
  - split; [apply one_line_app; [apply one_line_pad; intros [E|[]]; discriminate E|exact OI]|]. rewrite len_app, len_pad. change (len ["-"%char]) with 1. lia.
  - split; [now apply one_line_pad|rewrite len_pad; lia].
Qed.
Lemma int_len n : - 2 ^ 31 <= n < 2 ^ 31 -> one_line (put_int 12 n) /\ len (put_int 12 n) = 12.
Proof.
  intros H. split.
  - apply one_line_pad. intros I. destruct (print_int_chars _ _ I) as [D|D]; discriminate D.
  - unfold put_int. rewrite len_pad, print_int_text, len_app. pose proof (@digits_len (Z.abs n) 10 ltac:(lia) ltac:(lia)).
    unfold len. rewrite map_length. unfold sign_text. destruct (n <? 0); cbn [length]; lia.
Qed.
Lemma print_elements_fit o L : one_line (separator o) -> cstr (separator o) = separator o -> forall strs, Forall (fun s => one_line s /\ len s <= L) strs ->
  forall sep0 pos, sep0 = [] \/ sep0 = separator o -> pos + len sep0 + Z.of_nat (length strs) * (L + len (separator o)) - len (separator o) < linewidth o ->
  one_line (fst (print_elements sep0 o strs pos)).
Proof.
  intros OS CS. induction 1 as [|s strs [S1 S2] F IH]; intros sep0 pos HS HP; [intros []|]. cbn [print_elements]. fold (len sep0) (len s).
  assert (C0 : cstr sep0 = sep0) by (destruct HS as [-> | ->]; [reflexivity|exact CS]).
  assert (O0 : one_line sep0) by (destruct HS as [-> | ->]; [intros []|exact OS]).
  cbn [length] in HP. pose proof (len_nonneg (separator o)) as NS. pose proof (len_nonneg s) as N1.
  assert (NL : 0 <= Z.of_nat (length strs) * (L + len (separator o))) by (apply Z.mul_nonneg_nonneg; lia).
  assert (linewidth o <=? pos + len sep0 + len s = false) as -> by (apply Z.leb_gt; lia).
  specialize (IH (separator o) (pos + len sep0 + len s) (or_intror eq_refl) ltac:(lia)).
  destruct (print_elements (separator o) o strs _) as [t p]. cbn [fst] in *. rewrite C0. apply one_line_app; [exact O0|]. now apply one_line_app.
Qed.
Lemma lines_one s : one_line s -> lines s = [s].
Proof.
  intros H. induction s as [|c s IH]; [reflexivity|]. cbn. destruct (Ascii.eqb_spec c newline) as [-> |N]; [exfalso; apply H; now left|].
  rewrite IH; [reflexivity|]. intros I. apply H. now right.
Qed.
Lemma array_fits {T} (K : printable T) o L a : one_line (separator o) -> cstr (separator o) = separator o -> (length a <= threshold o)%nat ->
  (forall fixed x, In x a -> one_line (element_text K o fixed x) /\ len (element_text K o fixed x) <= L) ->
  1 + Z.of_nat (length a) * (L + len (separator o)) - len (separator o) < linewidth o ->
  exists l, array2string K o a = Ok (l ++ [newline]) /\ one_line l.
Proof.
  intros OS CS TH F B. destruct a as [|x a]; [exists (tx "[]"); split; [reflexivity|]; intros H; repeat (destruct H as [H|H]; [discriminate H|]); destruct H|].
  cbn [array2string]. rewrite (proj2 (Nat.leb_le _ _) TH). set (fixed := suppress o || _). unfold print_array_elements. set (strs := map _ (x :: a)).
  assert (LS : length strs = length (x :: a)) by (unfold strs; now rewrite map_length).
  exists (tx "[" ++ fst (print_elements [] o strs 1) ++ tx "]"). split; [now rewrite <- !app_assoc|].
  apply one_line_app; [intros [H|[]]; discriminate H|]. apply one_line_app; [|intros [H|[]]; discriminate H].
  apply print_elements_fit with (L := L); [exact OS|exact CS| |now left|rewrite LS; change (len []) with 0; lia].
  apply Forall_forall. intros s H. apply in_map_iff in H. destruct H as [y [<- H]]. now apply F.
Qed.
