(** Facts about Print.v: number formats and words *)
From Coq Require Import ZArith QArith Qabs Ascii Qpower.
From Verif Require Import Base BaseFl Functional Io IoFacts IoNumber IoNumberFacts IoPrint IoPrintFacts Print PrintSpec.
From Coq Require Import Lqa.
Open Scope Z_scope.
Set Implicit Arguments.

(** ** Words *)
Lemma space_sp : is_space " "%char = true. Proof. reflexivity. Qed.
Lemma words_app_space a : forall c b, is_space c = true -> words (a ++ c :: b) = words a ++ words (c :: b).
Proof.
  induction a as [|x a IH]; intros c b C; [reflexivity|]. specialize (IH c b C).
  cbn [app words]. destruct (is_space x) eqn:X; [exact IH|].
  destruct a as [|y a]; cbn [app].
  - rewrite C. cbn [words]. rewrite C. reflexivity.
  - cbn [app] in IH. destruct (is_space y) eqn:Y; [cbn [app]; f_equal; exact IH|].
    rewrite IH. destruct (words (y :: a)) as [|w ws] eqn:W; [|reflexivity].
    exfalso. cbn [words] in W. rewrite Y in W. destruct a as [|z a]; [discriminate W|]. destruct (is_space z); [discriminate W|].
    destruct (words (z :: a)); discriminate W.
Qed.
Lemma words_spaces s t : Forall (fun c => is_space c = true) s -> words (s ++ t) = words t.
Proof. induction 1 as [|c s C _ IH]; [reflexivity|]. cbn [app words]. rewrite C. exact IH. Qed.
Lemma words_all_spaces s : Forall (fun c => is_space c = true) s -> words s = [].
Proof. intros H. rewrite <- (app_nil_r s), words_spaces by exact H. reflexivity. Qed.
Lemma words_word w : word w -> words w = [w].
Proof.
  intros [N F]. induction F as [|c w C F IH]; [congruence|]. cbn [words]. rewrite C. destruct w as [|d w]; [reflexivity|].
  inversion F as [|? ? D _]; subst. rewrite D, IH by discriminate. reflexivity.
Qed.
Lemma spaces_repeat k : Forall (fun c => is_space c = true) (repeat " "%char k).
Proof. apply Forall_forall. intros c H. apply repeat_spec in H. now subst. Qed.
(** [s] is the word [w] with spaces around it *)
Definition holds_word (s w : text) : Prop := word w /\ exists i j, s = repeat " "%char i ++ w ++ repeat " "%char j.
Lemma holds_word_words s w : holds_word s w -> words s = [w].
Proof.
  intros [W [i [j ->]]]. rewrite words_spaces by apply spaces_repeat. destruct j as [|j]; [cbn; rewrite app_nil_r; now apply words_word|].
  cbn [repeat]. rewrite words_app_space by reflexivity. rewrite words_word by exact W. rewrite (words_all_spaces (s := " "%char :: repeat " "%char j)); [reflexivity|].
  change (" "%char :: repeat " "%char j) with (repeat " "%char (S j)). apply spaces_repeat.
Qed.
Lemma words_blank_app a s b : blank s -> words (a ++ s ++ b) = words a ++ words b.
Proof.
  intros [N F]. destruct s as [|c s]; [congruence|]. inversion F as [|? ? C F']; subst. cbn [app]. rewrite words_app_space by exact C.
  f_equal. change (c :: s ++ b) with ((c :: s) ++ b). apply words_spaces. exact F.
Qed.
Lemma words_newline a b : words (a ++ newline :: " "%char :: b) = words a ++ words b.
Proof. now rewrite words_app_space. Qed.
Lemma blank_cstr s : blank s -> cstr s = s.
Proof. intros [_ F]. apply cstr_free. intros H. rewrite Forall_forall in F. apply F in H. discriminate H. Qed.

Lemma print_elements_words o : blank (separator o) -> forall strs ws, Forall2 holds_word strs ws ->
  forall sep0 pos, sep0 = [] \/ sep0 = separator o -> words (fst (print_elements sep0 o strs pos)) = ws.
Proof.
  intros B. induction 1 as [|s w strs ws H F IH]; intros sep0 pos S; [reflexivity|].
  cbn [print_elements]. set (pos1 := pos + _ + _). 
  assert (E : exists pre q, (if linewidth o <=? pos1 then (newline :: " "%char :: s, 1 + Z.of_nat (length s)) else (s, pos1)) = (pre ++ s, q) /\ Forall (fun c => is_space c = true) pre).
  { destruct (linewidth o <=? pos1); [exists [newline; " "%char]|exists []]; eexists; (split; [reflexivity|repeat constructor]). }
  destruct E as [pre [q [-> P]]]. specialize (IH (separator o) q (or_intror eq_refl)).
  destruct (print_elements (separator o) o strs q) as [t p] eqn:Et. cbn [fst] in IH |- *.
  assert (S0 : Forall (fun c => is_space c = true) (cstr sep0)) by (destruct S as [-> | ->]; [constructor|rewrite blank_cstr by exact B; apply B]).
  rewrite words_spaces by exact S0. rewrite <- app_assoc, words_spaces by exact P. pose proof (holds_word_words H) as W.
  destruct F as [|s' w' strs ws H' F'].
  - cbn in Et. injection Et as <- <-. rewrite app_nil_r. exact W.
  - assert (exists t', t = separator o ++ t') as [t' ->].
    { cbn [print_elements] in Et. destruct (if linewidth o <=? _ then _ else _) as [out pos2]. destruct (print_elements (separator o) o strs pos2) as [u v].
      injection Et as <- <-. exists (out ++ u). now rewrite blank_cstr. }
    rewrite words_blank_app by exact B. rewrite W. cbn [app]. f_equal. rewrite words_spaces in IH by apply B. exact IH.
Qed.

(** ** Numbers *)
Lemma sign_of_text x : sign_of x = sign_text (negb_of x).
Proof. unfold sign_of, negb_of. destruct (Qlt_le_dec x 0); reflexivity. Qed.
Lemma scan_point neg ip fp r e r' : Forall digit_ok ip -> ip <> [] -> Forall digit_ok fp -> tail_value r e r' ->
  scan_decimal (sign_text neg ++ digits_text ip ++ "."%char :: digits_text fp ++ r) =
  Some ((inject_Z (signed neg (digits_value (ip ++ fp))) * pow10 (e - Z.of_nat (length fp)))%Q, r', true).
Proof.
  intros Fi N Ff [R1 [R2 R3]]. unfold scan_decimal, digits_text. rewrite take_sign_text by assumption.
  rewrite take_digits_print by (try assumption; reflexivity). cbn [take_frac]. replace (Ascii.eqb "." ".") with true by reflexivity.
  rewrite take_digits_print by assumption. destruct (ip ++ fp) eqn:E; [apply app_eq_nil in E; destruct E; contradiction|]. rewrite <- E, R1. reflexivity.
Qed.
Lemma digits_text_no_space l : Forall digit_ok l -> Forall (fun c => is_space c = false) (digits_text l).
Proof. intros F. apply Forall_forall. intros c H. apply in_map_iff in H. destruct H as [d [<- H]]. apply digit_not_space. rewrite Forall_forall in F. auto. Qed.
Lemma sign_no_space neg : Forall (fun c => is_space c = false) (sign_text neg).
Proof. destruct neg; repeat constructor. Qed.

(** blanking the zeros after the decimal point *)
Lemma blank_zeros_digits b l : Forall digit_ok l -> exists k,
  blank_zeros_rev (digits_text l ++ "."%char :: b) = repeat " "%char k ++ digits_text (drop_zeros l) ++ "."%char :: b.
Proof.
  induction 1 as [|d l D F [k IH]]; [exists O; reflexivity|]. cbn [drop_zeros digits_text map app blank_zeros_rev]. fold (digits_text l).
  destruct (Z.eqb_spec d 0) as [->|N].
  - exists (S k). replace (Ascii.eqb (digit_char 0) "0") with true by reflexivity. cbn [repeat app]. f_equal. exact IH.
  - exists O. replace (Ascii.eqb (digit_char d) "0") with false; [reflexivity|]. symmetry. apply Ascii.eqb_neq. intros E.
    apply (f_equal code) in E. rewrite code_digit in E by exact D. change (code "0") with 48 in E. lia.
Qed.
Lemma remove_point a fp : Forall digit_ok fp -> exists j,
  remove_trailling_zeros (a ++ "."%char :: digits_text fp) = a ++ "."%char :: digits_text (strip_zeros fp) ++ repeat " "%char j.
Proof.
  intros F. unfold remove_trailling_zeros. destruct (list_eq_dec ascii_dec _ _) as [E|_].
  - exfalso. destruct a as [|x [|y a]]; discriminate E.
  - rewrite rev_app_distr. cbn [rev]. rewrite <- app_assoc. cbn [app]. unfold digits_text at 1. rewrite <- map_rev. change (map digit_char (rev fp)) with (digits_text (rev fp)).
    destruct (@blank_zeros_digits (rev a) (rev fp)) as [k ->]; [now apply Forall_rev|]. exists k.
    rewrite !rev_app_distr. cbn [rev]. rewrite rev_involutive. rewrite <- !app_assoc. cbn [app]. f_equal. f_equal. unfold strip_zeros, digits_text. rewrite map_rev. f_equal.
    clear. induction k as [|k IH]; [reflexivity|]. cbn [repeat rev]. rewrite IH. clear. induction k as [|k IH]; [reflexivity|]. cbn [repeat app]. now rewrite IH.
Qed.
Lemma remove_last a c : c <> "0"%char -> remove_trailling_zeros (a ++ [c]) = a ++ [c].
Proof.
  intros N. unfold remove_trailling_zeros. destruct (list_eq_dec ascii_dec _ _); [reflexivity|]. rewrite rev_app_distr. cbn [rev app blank_zeros_rev].
  destruct (Ascii.eqb_spec c "0"); [congruence|]. cbn [rev]. now rewrite rev_involutive.
Qed.
Lemma round_half_even_nonneg q : (0 <= q)%Q -> 0 <= round_half_even q.
Proof.
  intros H. destruct q as [n d]. unfold round_half_even. cbn [Qnum Qden]. assert (0 <= n) by (unfold Qle in H; cbn in H; lia).
  assert (0 <= n / Zpos d) by (apply Z.div_pos; lia). destruct (_ <? _); [lia|]. destruct (_ =? _); [destruct (Z.even _)|]; lia.
Qed.
Lemma point_text_pos ds : ds <> [] -> point_text ds = "."%char :: digits_text ds.
Proof. destruct ds; [congruence|reflexivity]. Qed.

Lemma put_fixed_shape p x : (1 <= p)%nat -> exists ip fp n,
  put_fixed p x = sign_text (negb_of x) ++ digits_text ip ++ "."%char :: digits_text fp /\ Forall digit_ok ip /\ ip <> [] /\ Forall digit_ok fp /\
  length fp = p /\ digits_value (ip ++ fp) = n /\ 0 <= n /\ (Qabs (inject_Z n - Qabs x * pow10 (Z.of_nat p)) <= 1 # 2)%Q.
Proof.
  intros P. unfold put_fixed. set (n := round_half_even (Qabs x * pow10 (Z.of_nat p))).
  assert (N : 0 <= n). { apply round_half_even_nonneg. apply Qmult_le_0_compat; [apply Qabs_nonneg|apply Qlt_le_weak, pow10_pos]. }
  assert (T : 0 < 10 ^ Z.of_nat p) by (apply Z.pow_pos_nonneg; lia).
  destruct (@decimal_digits_spec (n / 10 ^ Z.of_nat p)) as [V1 [F1 N1]]; [apply Z.div_pos; lia|].
  destruct (last_digits_spec p N) as [V2 [F2 L2]].
  exists (decimal_digits (n / 10 ^ Z.of_nat p)), (last_digits p n), n. rewrite sign_of_text, point_text_pos; [|intros E; rewrite E in L2; cbn in L2; lia].
  split; [reflexivity|]. split; [exact F1|]. split; [exact N1|]. split; [exact F2|]. split; [exact L2|]. split.
  - rewrite digits_value_app, V1, V2, L2. pose proof (Z.div_mod n (10 ^ Z.of_nat p)). lia.
  - split; [exact N|]. apply round_half_even_spec.
Qed.
Lemma sgn_abs neg : (Qabs (sgnQ neg) == 1)%Q. Proof. destruct neg; reflexivity. Qed.
Lemma close_from x m e p (fixed : bool) : (Qabs (inject_Z m * pow10 e - Qabs x) <= (1 # 2) * / inject_Z (10 ^ Z.of_nat p) * (if fixed then 1 else Qabs x))%Q ->
  forall v, (v == sgnQ (negb_of x) * (inject_Z m * pow10 e))%Q -> close fixed p v x.
Proof.
  intros H v E. unfold close. rewrite E.
  assert (S : (sgnQ (negb_of x) * (inject_Z m * pow10 e) - x == sgnQ (negb_of x) * (inject_Z m * pow10 e - Qabs x))%Q) by (pose proof (negb_of_abs x); lra).
  rewrite S, Qabs_Qmult, sgn_abs, Qmult_1_l. exact H.
Qed.
Lemma pow10_inv p : (pow10 (- Z.of_nat p) == / inject_Z (10 ^ Z.of_nat p))%Q.
Proof.
  pose proof (pow10_opp (Z.of_nat p)) as H. rewrite (pow10_nonneg (e := Z.of_nat p)) in H by lia.
  assert (N : ~ (inject_Z (10 ^ Z.of_nat p) == 0)%Q). { intros E. rewrite E, Qmult_0_l in H. discriminate H. }
  apply (Qmult_inj_l _ _ _ N). rewrite H, Qmult_inv_r by exact N. reflexivity.
Qed.

(** the text of an element in fixed notation *)
Lemma fixed_element w p x : (1 <= p)%nat -> exists t, holds_word (remove_trailling_zeros (pad w (put_fixed p x))) t /\
  exists v, number_text t v /\ close true p v x.
Proof.
  intros P. destruct (put_fixed_shape x P) as [ip [fp [n [E [Fi [Ni [Ff [L [V [N R]]]]]]]]]].
  set (t := sign_text (negb_of x) ++ digits_text ip ++ "."%char :: digits_text (strip_zeros fp)).
  assert (Fs := strip_ok Ff). exists t. split.
  - split.
    + split; [unfold t; destruct (negb_of x); [discriminate|]; destruct ip; [congruence|discriminate]|].
      unfold t. apply Forall_app. split; [apply sign_no_space|]. apply Forall_app. split; [now apply digits_text_no_space|].
      constructor; [reflexivity|now apply digits_text_no_space].
    + unfold pad. rewrite E. set (k := Z.to_nat _). clearbody k.
      replace (repeat " "%char k ++ sign_text (negb_of x) ++ digits_text ip ++ "."%char :: digits_text fp)
        with ((repeat " "%char k ++ sign_text (negb_of x) ++ digits_text ip) ++ "."%char :: digits_text fp) by now rewrite <- !app_assoc.
      destruct (remove_point (repeat " "%char k ++ sign_text (negb_of x) ++ digits_text ip) Ff) as [j ->]. exists k, j. unfold t. now rewrite <- !app_assoc.
  - eexists. split.
    + unfold number_text, t. rewrite <- (app_nil_r (digits_text (strip_zeros fp))). apply scan_point; [assumption|assumption|exact Fs|now apply tail_end].
    + apply (@close_from x n (- Z.of_nat p)).
      * rewrite pow10_inv, Qmult_1_r. set (u := inject_Z (10 ^ Z.of_nat p)).
        assert (U : (pow10 (Z.of_nat p) == u)%Q) by (apply pow10_nonneg; lia). assert (UP : (0 < u)%Q) by (rewrite <- U; apply pow10_pos).
        rewrite U in R. assert (IP : (0 < / u)%Q) by now apply Qinv_lt_0_compat.
        assert (I1 : (u * / u == 1)%Q) by (apply Qmult_inv_r; intros Z0; rewrite Z0 in UP; discriminate UP).
        assert (S : (inject_Z n * / u - Qabs x == (inject_Z n - Qabs x * u) * / u)%Q).
        { setoid_replace ((inject_Z n - Qabs x * u) * / u)%Q with (inject_Z n * / u - Qabs x * (u * / u))%Q by ring. rewrite I1. ring. }
        rewrite S, Qabs_Qmult, (Qabs_pos (/ u)) by now apply Qlt_le_weak. apply Qmult_le_compat_r; [exact R|now apply Qlt_le_weak].
      * rewrite signed_Q, Z.sub_0_l, <- Qmult_assoc, strip_value, V, L. reflexivity.
Qed.

(** ** Scientific notation *)
Lemma sig_digits_spec p q m e : (0 < q)%Q -> sig_digits p q = (m, e) ->
  10 ^ Z.of_nat p <= m < 10 ^ (Z.of_nat p + 1) /\
  (Qabs (inject_Z m * pow10 (e - Z.of_nat p) - q) <= (1 # 2) * / inject_Z (10 ^ Z.of_nat p) * q)%Q.
Proof.
  intros H E. destruct (log10_floor_spec H) as [LO HI]. unfold sig_digits in E. set (e0 := log10_floor q) in *. set (P := Z.of_nat p) in *.
  assert (P0 : 0 <= P) by lia. set (m0 := round_half_even (q * pow10 (P - e0))) in *.
  assert (T : 0 < 10 ^ P) by (apply Z.pow_pos_nonneg; lia). assert (T1 : 10 ^ (P + 1) = 10 * 10 ^ P) by (rewrite Z.pow_add_r by lia; lia).
  assert (S : (pow10 e0 * pow10 (P - e0) == inject_Z (10 ^ P))%Q) by (rewrite <- pow10_plus; replace (e0 + (P - e0)) with P by lia; now apply pow10_nonneg).
  assert (S6 : (pow10 (e0 + 1) * pow10 (P - e0) == inject_Z (10 ^ (P + 1)))%Q) by (rewrite <- pow10_plus; replace (e0 + 1 + (P - e0)) with (P + 1) by lia; apply pow10_nonneg; lia).
  assert (SI : (pow10 (P - e0) * pow10 (e0 - P) == 1)%Q) by (rewrite <- pow10_plus; replace (P - e0 + (e0 - P)) with 0 by lia; reflexivity).
  pose proof (pow10_pos (P - e0)) as P5. pose proof (pow10_pos (e0 - P)) as PM.
  assert (R : 10 ^ P <= m0 <= 10 ^ (P + 1)).
  { apply round_half_even_range; [rewrite <- S; apply Qmult_le_compat_r; [exact LO|now apply Qlt_le_weak]|]. rewrite <- S6. apply Qmult_le_compat_r; [now apply Qlt_le_weak|now apply Qlt_le_weak]. }
  assert (V : (Qabs (inject_Z m0 * pow10 (e0 - P) - q) <= (1 # 2) * / inject_Z (10 ^ P) * q)%Q).
  { setoid_replace (inject_Z m0 * pow10 (e0 - P) - q)%Q with ((inject_Z m0 - q * pow10 (P - e0)) * pow10 (e0 - P))%Q.
    2:{ setoid_replace ((inject_Z m0 - q * pow10 (P - e0)) * pow10 (e0 - P))%Q with (inject_Z m0 * pow10 (e0 - P) - q * (pow10 (P - e0) * pow10 (e0 - P)))%Q by ring. rewrite SI. ring. }
    rewrite Qabs_Qmult, (Qabs_pos (pow10 _)) by now apply Qlt_le_weak. pose proof (round_half_even_spec (q * pow10 (P - e0))) as B. fold m0 in B.
    apply Qle_trans with ((1 # 2) * pow10 (e0 - P))%Q; [apply Qmult_le_compat_r; [exact B|now apply Qlt_le_weak]|].
    assert (T2 : (pow10 (e0 - P) == pow10 e0 * / inject_Z (10 ^ P))%Q) by (unfold Z.sub; rewrite pow10_plus; unfold P; rewrite pow10_inv; reflexivity). rewrite T2.
    assert (I : (0 < / inject_Z (10 ^ P))%Q) by (apply Qinv_lt_0_compat; change 0%Q with (inject_Z 0); rewrite <- Zlt_Qlt; exact T).
    set (i := (/ inject_Z (10 ^ P))%Q) in *. clearbody i. setoid_replace ((1 # 2) * (pow10 e0 * i))%Q with (((1 # 2) * i) * pow10 e0)%Q by ring. 
    apply Qmult_le_l; [apply Qmult_lt_0_compat; [reflexivity|exact I]|exact LO]. }
  destruct (m0 =? 10 ^ (P + 1)) eqn:EM; injection E as <- <-.
  - apply Z.eqb_eq in EM. rewrite EM in V. split; [lia|].
    assert (C : (inject_Z (10 ^ P) * pow10 (e0 + 1 - P) == inject_Z (10 ^ (P + 1)) * pow10 (e0 - P))%Q).
    { replace (e0 + 1 - P) with (1 + (e0 - P)) by lia. rewrite pow10_plus, T1, inject_Z_mult, pow10_1. change (inject_Z 10) with 10%Q. ring. }
    now rewrite C.
  - apply Z.eqb_neq in EM. split; [lia|exact V].
Qed.
Lemma exp_text_no_space e : Forall (fun c => is_space c = false) (exp_text e).
Proof.
  unfold exp_text. apply Forall_app. split; [constructor; [reflexivity|]; constructor; [destruct (e <? 0); reflexivity|constructor]|].
  apply digits_text_no_space. destruct (Z.abs e <? 10) eqn:B; [apply Z.ltb_lt in B; repeat constructor; unfold digit_ok; lia|apply decimal_digits_spec; lia].
Qed.
Lemma point_frac ds : point_text ds = frac_text ds. Proof. reflexivity. Qed.
Lemma frac_no_space ds : Forall digit_ok ds -> Forall (fun c => is_space c = false) (frac_text ds).
Proof. intros F. destruct ds; [constructor|]. constructor; [reflexivity|]. now apply digits_text_no_space. Qed.
Lemma put_scientific_shape p x : exists ip fp e m,
  put_scientific p x = sign_text (negb_of x) ++ digits_text ip ++ frac_text fp ++ exp_text e /\ Forall digit_ok ip /\ ip <> [] /\ Forall digit_ok fp /\ length fp = p /\
  digits_value (ip ++ fp) = m /\ (Qabs (inject_Z m * pow10 (e - Z.of_nat p) - Qabs x) <= (1 # 2) * / inject_Z (10 ^ Z.of_nat p) * Qabs x)%Q.
Proof.
  unfold put_scientific. destruct (Qeq_bool x 0) eqn:E0.
  - apply Qeq_bool_eq in E0. exists [0], (repeat 0 p), 0, 0.
    assert (NG : negb_of x = false) by (unfold negb_of; destruct (Qlt_le_dec x 0) as [L|L]; [rewrite E0 in L; discriminate L|reflexivity]). rewrite NG.
    assert (FZ : Forall digit_ok (repeat 0 p)) by (apply Forall_forall; intros y Hy; apply repeat_spec in Hy; subst y; unfold digit_ok; lia).
    split; [reflexivity|]. split; [repeat constructor; unfold digit_ok; lia|]. split; [discriminate|]. split; [exact FZ|]. split; [apply repeat_length|].
    split; [change ([0] ++ repeat 0 p) with (repeat 0 (S p)); apply digits_value_zeros|]. rewrite E0. 
    setoid_replace (inject_Z 0 * pow10 (0 - Z.of_nat p) - Qabs 0)%Q with 0%Q by (change (inject_Z 0) with 0%Q; change (Qabs 0) with 0%Q; ring).
    change (Qabs 0) with 0%Q. rewrite Qmult_0_r. apply Qle_refl.
  - assert (N : ~ (x == 0)%Q) by (intros Q; apply Qeq_eq_bool in Q; congruence).
    assert (H : (0 < Qabs x)%Q). { destruct (Qlt_le_dec 0 (Qabs x)) as [L|L]; [exact L|]. exfalso. apply N. apply Qabs_Qle_condition in L. destruct L. apply Qle_antisym; [lra|lra]. }
    destruct (sig_digits p (Qabs x)) as [m e] eqn:E. destruct (sig_digits_spec p H E) as [M V].
    assert (M0 : 0 <= m) by (assert (0 < 10 ^ Z.of_nat p) by (apply Z.pow_pos_nonneg; lia); lia).
    destruct (last_digits_spec (S p) M0) as [DV [DF DL]]. rewrite Z.mod_small in DV by (replace (Z.of_nat (S p)) with (Z.of_nat p + 1) by lia; lia).
    set (ds := last_digits (S p) m) in *. clearbody ds. exists (firstn 1 ds), (skipn 1 ds), e, m. rewrite sign_of_text.
    assert (SP : Forall digit_ok (firstn 1 ds) /\ Forall digit_ok (skipn 1 ds)) by (apply Forall_app; now rewrite firstn_skipn).
    split; [reflexivity|]. split; [apply SP|]. split; [destruct ds; [discriminate DL|discriminate]|]. split; [apply SP|]. split; [rewrite skipn_length, DL; lia|].
    split; [rewrite firstn_skipn; exact DV|exact V].
Qed.
Lemma pad_holds w t : word t -> holds_word (pad w t) t.
Proof. intros W. split; [exact W|]. eexists _, O. unfold pad. cbn [repeat]. rewrite app_nil_r. reflexivity. Qed.
Lemma scientific_number p x : exists v, word (put_scientific p x) /\ number_text (put_scientific p x) v /\ close false p v x.
Proof.
  destruct (put_scientific_shape p x) as [ip [fp [e [m [E [Fi [Ni [Ff [L [V B]]]]]]]]]]. rewrite E. eexists. split; [|split].
  - split; [destruct (negb_of x); [discriminate|]; destruct ip; [congruence|discriminate]|].
    apply Forall_app. split; [apply sign_no_space|]. apply Forall_app. split; [now apply digits_text_no_space|]. apply Forall_app. split; [now apply frac_no_space|apply exp_text_no_space].
  - unfold number_text. apply scan_decimal_text; [assumption|assumption|assumption|apply tail_exp].
  - apply (@close_from x m (e - Z.of_nat p)); [exact B|]. rewrite signed_Q, V, L, <- Qmult_assoc. reflexivity.
Qed.
Lemma fixed_number p x : exists v, word (put_fixed p x) /\ number_text (put_fixed p x) v /\ close true p v x.
Proof.
  unfold put_fixed. set (n := round_half_even (Qabs x * pow10 (Z.of_nat p))).
  assert (N : 0 <= n). { apply round_half_even_nonneg. apply Qmult_le_0_compat; [apply Qabs_nonneg|apply Qlt_le_weak, pow10_pos]. }
  assert (T : 0 < 10 ^ Z.of_nat p) by (apply Z.pow_pos_nonneg; lia).
  destruct (@decimal_digits_spec (n / 10 ^ Z.of_nat p)) as [V1 [F1 N1]]; [apply Z.div_pos; lia|].
  destruct (last_digits_spec p N) as [V2 [F2 L2]]. rewrite sign_of_text, point_frac.
  assert (R : (Qabs (inject_Z n - Qabs x * pow10 (Z.of_nat p)) <= 1 # 2)%Q) by apply round_half_even_spec.
  set (ip := decimal_digits (n / 10 ^ Z.of_nat p)) in *. set (fp := last_digits p n) in *.
  assert (V : digits_value (ip ++ fp) = n) by (rewrite digits_value_app, V1, V2, L2; pose proof (Z.div_mod n (10 ^ Z.of_nat p)); lia).
  clearbody ip fp n. rewrite <- (app_nil_r (frac_text fp)). eexists. split; [|split].
  - split; [destruct (negb_of x); [discriminate|]; destruct ip; [congruence|discriminate]|].
    apply Forall_app. split; [apply sign_no_space|]. apply Forall_app. split; [now apply digits_text_no_space|]. rewrite app_nil_r. now apply frac_no_space.
  - unfold number_text. apply scan_decimal_text; [assumption|assumption|assumption|now apply tail_end].
  - apply (@close_from x n (- Z.of_nat p)).
    + rewrite pow10_inv, Qmult_1_r. set (u := inject_Z (10 ^ Z.of_nat p)).
      assert (U : (pow10 (Z.of_nat p) == u)%Q) by (apply pow10_nonneg; lia). assert (UP : (0 < u)%Q) by (rewrite <- U; apply pow10_pos).
      rewrite U in R. assert (IP : (0 < / u)%Q) by now apply Qinv_lt_0_compat.
      assert (I1 : (u * / u == 1)%Q) by (apply Qmult_inv_r; intros Z0; rewrite Z0 in UP; discriminate UP).
      assert (S : (inject_Z n * / u - Qabs x == (inject_Z n - Qabs x * u) * / u)%Q).
      { setoid_replace ((inject_Z n - Qabs x * u) * / u)%Q with (inject_Z n * / u - Qabs x * (u * / u))%Q by ring. rewrite I1. ring. }
      rewrite S, Qabs_Qmult, (Qabs_pos (/ u)) by now apply Qlt_le_weak. apply Qmult_le_compat_r; [exact R|now apply Qlt_le_weak].
    + rewrite signed_Q, Z.sub_0_l, V, L2, <- Qmult_assoc. reflexivity.
Qed.

(** ** Elements *)
Definition options_ok (o : print_options) : Prop := blank (separator o) /\ plain (nanstr o) /\ plain (infstr o).
Lemma plain_remove a w : plain w -> remove_trailling_zeros (a ++ w) = a ++ w.
Proof.
  intros [[N _] L]. destruct (exists_last N) as [b [c ->]]. rewrite last_last in L. rewrite app_assoc. now apply remove_last.
Qed.
Lemma plain_minus w : plain w -> plain ("-"%char :: w).
Proof. intros [[N F] L]. split; [split; [discriminate|now constructor]|]. destruct w; [congruence|exact L]. Qed.
(** a real element in an array *)
Lemma real_element o fixed w v : options_ok o -> (1 <= precision o)%nat \/ fixed = false ->
  exists t, holds_word (element_str fixed (put_real o fixed w v)) t /\ shows fixed (precision o) (nanstr o) (infstr o) t v.
Proof.
  intros [_ [PN PI]] P. destruct v as [q| | |]; cbn [put_real shows].
  - destruct fixed; cbn [element_str].
    + destruct P as [P|P]; [|discriminate P]. destruct (fixed_element w (this q) P) as [t [H [r [R C]]]]. eauto.
    + destruct (scientific_number (precision o) (this q)) as [r [W [R C]]]. eexists. split; [now apply pad_holds|]. eauto.
  - exists (infstr o). split; [|reflexivity]. assert (W : holds_word (pad w (infstr o)) (infstr o)) by now apply pad_holds, PI.
    destruct fixed; [|exact W]. unfold element_str, pad. rewrite plain_remove by exact PI. exact W.
  - exists ("-"%char :: infstr o). split; [|reflexivity].
    assert (W : holds_word (pad w ["-"%char] ++ infstr o) ("-"%char :: infstr o)).
    { split; [apply plain_minus, PI|]. eexists _, O. unfold pad. cbn [repeat]. rewrite app_nil_r, <- app_assoc. reflexivity. }
    destruct fixed; [|exact W]. unfold element_str. rewrite plain_remove by exact PI. exact W.
  - exists (nanstr o). split; [|reflexivity]. assert (W : holds_word (pad w (nanstr o)) (nanstr o)) by now apply pad_holds, PN.
    destruct fixed; [|exact W]. unfold element_str, pad. rewrite plain_remove by exact PN. exact W.
Qed.
Lemma put_real_word o fixed w v : options_ok o -> exists t k, put_real o fixed w v = repeat " "%char k ++ t /\ word t /\ (w <= 0 -> k = O) /\
  shows fixed (precision o) (nanstr o) (infstr o) t v.
Proof.
  intros [_ [PN PI]]. destruct v as [q| | |]; cbn [put_real shows]; unfold pad.
  - destruct fixed.
    + destruct (fixed_number (precision o) (this q)) as [r [W [R C]]]. eexists _, _. split; [reflexivity|]. split; [exact W|]. split; [lia|]. eauto.
    + destruct (scientific_number (precision o) (this q)) as [r [W [R C]]]. eexists _, _. split; [reflexivity|]. split; [exact W|]. split; [lia|]. eauto.
  - eexists _, _. split; [reflexivity|]. split; [apply PI|]. split; [lia|reflexivity].
  - exists ("-"%char :: infstr o). eexists. split; [rewrite <- app_assoc; reflexivity|]. split; [apply plain_minus, PI|]. split; [cbn [length]; lia|reflexivity].
  - eexists _, _. split; [reflexivity|]. split; [apply PN|]. split; [lia|reflexivity].
Qed.
(** a complex element in an array: any precision *)
Lemma complex_element o fixed w z : options_ok o ->
  exists t, holds_word (element_str fixed (put_complex o fixed w z)) t /\ shows_complex fixed (precision o) (nanstr o) (infstr o) t z.
Proof.
  intros OK. destruct z as [re im]. unfold put_complex. cbn [fst snd].
  destruct (put_real_word fixed w re OK) as [a [k [E [[NA WA] [_ SA]]]]]. rewrite E.
  assert (G : forall c b, is_space c = false -> word b -> holds_word (element_str fixed ((repeat " "%char k ++ a) ++ (c :: b) ++ ["j"%char])) (a ++ c :: b ++ ["j"%char])).
  { intros c b C [NB WB]. assert (H : holds_word ((repeat " "%char k ++ a) ++ (c :: b) ++ ["j"%char]) (a ++ c :: b ++ ["j"%char])).
    { split; [split; [destruct a; discriminate|]; apply Forall_app; split; [exact WA|]; constructor; [exact C|]; apply Forall_app; split; [exact WB|now repeat constructor]|].
      exists k, O. cbn [repeat]. rewrite app_nil_r, <- app_assoc. reflexivity. }
    unfold element_str. destruct fixed; [|exact H]. rewrite (app_assoc (repeat _ _ ++ a) (c :: b)), remove_last by discriminate. rewrite <- app_assoc. exact H. }
  unfold is_negative. destruct (flt im f0) eqn:I.
  - destruct (put_real_word fixed 0 (fneg im) OK) as [b [j [Eb [WB [J SB]]]]]. rewrite Eb, J by lia. cbn [repeat app].
    eexists. split; [apply (G "-"%char b); [reflexivity|exact WB]|]. exists a, b. cbn [fst snd]. split; [exact SA|]. left. repeat split; assumption.
  - destruct (put_real_word fixed 0 im OK) as [b [j [Eb [WB [J SB]]]]]. rewrite Eb, J by lia. cbn [repeat app].
    eexists. split; [apply (G "+"%char b); [reflexivity|exact WB]|]. exists a, b. cbn [fst snd]. split; [exact SA|]. right. repeat split; assumption.
Qed.
