(** Facts about Print.v: whole arrays, notation, line lengths *)
From Coq Require Import ZArith QArith Qabs Ascii String.
From Verif Require Import Base BaseFl FlFacts Functional FunctionalProofs Stats StatsOrder Io IoFacts IoNumber IoNumberFacts IoPrint IoPrintFacts Print PrintSpec PrintFacts.
From Coq Require Import Lqa.
Open Scope Z_scope.
Set Implicit Arguments.
Notation length := List.length.

(** ** Words of the whole text *)
Section Arrays.
Context {T : Type} (K : printable T) (o : print_options).
Hypothesis B : blank (separator o).
Variable R : text -> T -> Prop.
Definition elem_ok (fixed : bool) (x : T) : Prop := exists t, holds_word (element_str fixed (put K o fixed (width K fixed) x)) t /\ R t x.
Lemma elements_words fixed a pos : Forall (elem_ok fixed) a -> Forall2 R (words (fst (print_array_elements K o fixed a pos))) a.
Proof.
  intros F. unfold print_array_elements.
  assert (exists ws, Forall2 holds_word (map (fun x => element_str fixed (put K o fixed (width K fixed) x)) a) ws /\ Forall2 R ws a) as [ws [H HR]].
  { induction F as [|x a [t [Ht Rt]] F [ws [I1 I2]]]; [exists []; split; constructor|]. exists (t :: ws). split; constructor; assumption. }
  rewrite (@print_elements_words o B _ _ H) by now left. exact HR.
Qed.
Lemma array_words a : (length a <= threshold o)%nat -> Forall (elem_ok (suppress o || negb (scientific K a))) a ->
  exists body, array2string K o a = Ok (["["%char] ++ body ++ ["]"%char; newline]) /\ Forall2 R (words body) a.
Proof.
  intros L F. destruct a as [|x a]; [exists []; split; [reflexivity|constructor]|]. cbn [array2string].
  rewrite (proj2 (Nat.leb_le _ _) L). eexists. split; [reflexivity|]. now apply elements_words.
Qed.
Lemma words_dots : words (tx "...") = [tx "..."]. Proof. reflexivity. Qed.
Lemma array_words_summary a : (threshold o < length a)%nat -> (2 * edgeitems o < length a)%nat ->
  let first := firstn (edgeitems o) a in let last := skipn (length a - edgeitems o) a in
  Forall (elem_ok (suppress o || negb (scientific K first || scientific K last))) (first ++ last) ->
  exists body w1 w2, array2string K o a = Ok (["["%char] ++ body ++ ["]"%char; newline]) /\
    words body = w1 ++ [tx "..."] ++ w2 /\ Forall2 R w1 first /\ Forall2 R w2 last.
Proof.
  intros L E first last_ F. apply Forall_app in F. destruct F as [F1 F2]. unfold array2string. destruct a as [|x a]; [cbn in E; lia|]. set (A := x :: a) in *.
  assert ((length A <=? threshold o)%nat = false) as -> by (apply Nat.leb_gt; exact L). unfold require. rewrite (proj2 (Nat.ltb_lt _ _) E).
  fold first last_. set (fixed := suppress o || _) in *.
  destruct (print_array_elements K o fixed first 1) as [t0 pos] eqn:E0. set (pos1 := pos + 3 + _).
  pose proof (elements_words 1 F1) as W1. rewrite E0 in W1. pose proof (elements_words pos1 F2) as W2. cbn [fst] in W1.
  exists (t0 ++ separator o ++ tx "..." ++ separator o ++ fst (print_array_elements K o fixed last_ pos1)), (words t0), (words (fst (print_array_elements K o fixed last_ pos1))).
  split; [now rewrite <- !app_assoc|]. split; [|now split]. rewrite words_blank_app, words_blank_app by exact B. now rewrite words_dots.
Qed.
End Arrays.

(** ** Notation *)
Lemma tenth_milli_eq : tenth_milli = c1em4. Proof. reflexivity. Qed.
Definition keep (x : fl) : bool := negb (feq x f0) && negb (match x with PInf | NInf => true | _ => false end).
Lemma keep_abs v : keep (fabs_fl v) = true <-> v = NaN \/ exists x, v = Fin x /\ x <> 0%Qc.
Proof.
  destruct v as [x| | |]; unfold keep; cbn.
  - rewrite andb_true_r, negb_true_iff. split.
    + intros H. right. exists x. split; [reflexivity|]. intros ->. now rewrite (proj2 (qeqb_eq _ _)) in H by reflexivity.
    + intros [H|[y [[= <-] N]]]; [discriminate|]. destruct (qeqb_spec (if qltb x 0%Qc then (- x)%Qc else x) 0%Qc) as [E|]; [|reflexivity].
      exfalso. apply N. destruct (qltb x 0%Qc); [|exact E]. apply (f_equal Qcopp) in E. rewrite Qcopp_involutive in E. exact E.
  - split; [discriminate|intros [H|[y [H _]]]; discriminate].
  - split; [discriminate|intros [H|[y [H _]]]; discriminate].
  - split; [now left|reflexivity].
Qed.
Lemma kept a : filter_scicpp (map fabs_fl a) keep = map fabs_fl (filter (fun v => keep (fabs_fl v)) a).
Proof. rewrite filter_scicpp_filter. induction a as [|v a IH]; [reflexivity|]. cbn [map filter]. destruct (keep (fabs_fl v)); cbn [map]; now rewrite IH. Qed.
Lemma kept_nan_first a : nan_first a <-> exists r, filter (fun v => keep (fabs_fl v)) a = NaN :: r.
Proof.
  split.
  - intros [pre [post [-> H]]]. exists (filter (fun v => keep (fabs_fl v)) post). rewrite filter_app.
    replace (filter (fun v => keep (fabs_fl v)) pre) with (@nil fl); [reflexivity|]. induction pre as [|v pre IH]; [reflexivity|]. cbn [filter].
    rewrite <- IH by (intros w Hw; apply H; now right). destruct (H v (or_introl eq_refl)) as [->|[->| ->]]; reflexivity.
  - induction a as [|v a IH]; intros [r E]; [discriminate|]. cbn [filter] in E. destruct (keep (fabs_fl v)) eqn:K.
    + injection E as -> E. exists [], a. split; [reflexivity|]. intros _ [].
    + destruct IH as [pre [post [-> H]]]; [eauto|]. exists (v :: pre), post. split; [reflexivity|]. intros w [<-|Hw]; [|now apply H].
      destruct v as [x| | |]; auto. left. apply (f_equal Fin). destruct (Qc_eq_dec x 0%Qc) as [e|n]; [exact e|]. exfalso.
      assert (keep (fabs_fl (Fin x)) = true) by (apply keep_abs; right; eauto). congruence. discriminate K.
Qed.
Lemma flt_nan_r x : flt x NaN = false. Proof. destruct x; reflexivity. Qed.
Lemma max_skip_nan l : forall cur, is_num cur -> max_element flt cur l = max_element flt cur (filter not_nan l).
Proof.
  induction l as [|x l IH]; intros cur C; [reflexivity|]. cbn [max_element filter]. destruct (not_nan x) eqn:N.
  - cbn [max_element]. apply IH. apply not_nan_iff in N. destruct (flt cur x); assumption.
  - destruct x; try discriminate N. rewrite flt_nan_r. now apply IH.
Qed.
Lemma min_skip_nan l : forall cur, is_num cur -> min_element flt cur l = min_element flt cur (filter not_nan l).
Proof.
  induction l as [|x l IH]; intros cur C; [reflexivity|]. cbn [min_element filter]. destruct (not_nan x) eqn:N.
  - cbn [min_element]. apply IH. apply not_nan_iff in N. destruct (flt x cur); assumption.
  - destruct x; try discriminate N. cbn [flt]. now apply IH.
Qed.
Lemma magnitude_pos x : x <> 0%Qc -> (0 < magnitude x)%Qc.
Proof.
  intros N. unfold magnitude. destruct (qltb_spec x 0%Qc) as [L|L].
  - apply Qclt_minus_iff in L. rewrite Qcplus_0_l in L. exact L.
  - destruct (Qclt_le_dec 0%Qc x) as [H|H]; [exact H|]. destruct (Qcle_lt_or_eq _ _ H) as [H'|H']; contradiction.
Qed.
Lemma in_magnitudes a m : In (Fin m) (map fabs_fl (filter (fun v => keep (fabs_fl v)) a)) <-> exists x, In (Fin x) a /\ x <> 0%Qc /\ m = magnitude x.
Proof.
  rewrite in_map_iff. split.
  - intros [v [E H]]. apply filter_In in H. destruct H as [I K]. apply keep_abs in K. destruct K as [->|[x [-> N]]]; [discriminate E|].
    injection E as <-. exists x. auto.
  - intros [x [I [N ->]]]. exists (Fin x). split; [reflexivity|]. apply filter_In. split; [exact I|]. apply keep_abs. eauto.
Qed.
Lemma fin_of_kept a v : In v (map fabs_fl (filter (fun v => keep (fabs_fl v)) a)) -> is_num v -> exists m, v = Fin m /\ (0 < m)%Qc.
Proof.
  intros I N. apply in_map_iff in I. destruct I as [u [<- H]]. apply filter_In in H. destruct H as [_ K]. apply keep_abs in K.
  destruct K as [->|[x [-> X]]]; [now elim N|]. exists (magnitude x). split; [reflexivity|now apply magnitude_pos].
Qed.
Lemma fleP_fin x y : fleP (Fin x) (Fin y) -> (x <= y)%Qc.
Proof. unfold fleP, fle. cbn. intros H. apply orb_true_iff in H. destruct H as [H|H]; [apply Qclt_le_weak; now apply qltb_lt|apply qeqb_eq in H; subst; apply Qcle_refl]. Qed.
Lemma sci_real_spec a :
  (nan_first a -> sci_real a = false) /\ (~ nan_first a -> (sci_real a = true <-> wide_range a)).
Proof.
  unfold sci_real. change (fun x => _ && _) with keep. rewrite kept. split.
  - intros H. apply kept_nan_first in H. destruct H as [r ->]. cbn [map fabs_fl amin amax]. set (l := map fabs_fl r).
    assert (MN : forall l, min_element flt NaN l = NaN) by (induction l0 as [|x l0 IH]; [reflexivity|]; cbn [min_element]; rewrite flt_nan_r; exact IH).
    rewrite MN. cbn [flt orb]. destruct (max_element flt NaN l); reflexivity.
  - intros NF. pose proof (in_magnitudes a) as IM. pose proof (fin_of_kept a) as FK.
    destruct (map fabs_fl (filter (fun v => keep (fabs_fl v)) a)) as [|m0 l] eqn:E.
    { split; [discriminate|]. intros [x [I [N _]]]. destruct (proj2 (IM (magnitude x))); eauto. }
    assert (N0 : is_num m0).
    { intros ->. apply NF, kept_nan_first. destruct (filter _ a) as [|v r] eqn:Ef; [discriminate E|]. injection E as E1 E2. exists r.
      destruct v as [x| | |]; try discriminate E1. reflexivity. }
    cbn [amin amax]. rewrite max_skip_nan, min_skip_nan by exact N0. set (l' := filter not_nan l) in *.
    assert (FN : Forall is_num (m0 :: l')). { constructor; [exact N0|]. apply Forall_forall. intros x H. apply filter_In in H. now apply not_nan_iff. }
    destruct (max_element_spec _ _ FN) as [XI XM]. destruct (min_element_spec _ _ FN) as [NI NM].
    assert (SUB : forall v, In v (m0 :: l') -> In v (m0 :: l)) by (intros v [->|H]; [now left|right; apply filter_In in H; apply H]).
    assert (SUP : forall m, In (Fin m) (m0 :: l) -> In (Fin m) (m0 :: l')) by (intros m [->|H]; [now left|right; apply filter_In; split; [exact H|reflexivity]]).
    rewrite Forall_forall in FN.
    destruct (FK _ (SUB _ XI) (FN _ XI)) as [M [EM PM]]. destruct (FK _ (SUB _ NI) (FN _ NI)) as [m [Em Pm]]. rewrite EM in *. rewrite Em in *.
    destruct (proj1 (IM M) (SUB _ XI)) as [yM [IyM [NyM HyM]]]. destruct (proj1 (IM m) (SUB _ NI)) as [xm [Ixm [Nxm Hxm]]].
    assert (m <> 0%Qc) as Mz by (intros ->; now apply (Qclt_not_eq _ _ Pm)).
    cbn [flt fdiv]. destruct (qeqb_spec m 0%Qc) as [|_]; [contradiction|]. rewrite orb_true_iff, !qltb_lt.
    assert (RT : (qz 1000 < M / m)%Qc <-> (qz 1000 * m < M)%Qc).
    { split; intros H.
      - apply (Qcmult_lt_compat_r _ _ _ Pm) in H. replace (M / m * m)%Qc with M in H by (field; exact Mz). exact H.
      - destruct (Qclt_le_dec (qz 1000) (M / m)%Qc) as [L|L]; [exact L|]. exfalso. apply (Qclt_not_le _ _ H).
        apply (Qcmult_le_compat_r _ _ m) in L; [|now apply Qclt_le_weak]. replace (M / m * m)%Qc with M in L by (field; exact Mz). exact L. }
    rewrite RT, <- tenth_milli_eq. split.
    + intros H. exists xm. split; [exact Ixm|]. split; [exact Nxm|]. rewrite <- Hxm. destruct H as [H|H]; [now left|]. right. exists yM. rewrite <- HyM. auto.
    + intros [x [I [N H]]].
      assert (LE : forall x, In (Fin x) a -> x <> 0%Qc -> (m <= magnitude x)%Qc /\ (magnitude x <= M)%Qc).
      { intros z Iz Nz. assert (J : In (Fin (magnitude z)) (m0 :: l')) by (apply SUP, IM; eauto). split; apply fleP_fin; [now apply NM|now apply XM]. }
      destruct (LE x I N) as [L1 _]. destruct H as [H|[y [Iy [Ny H]]]].
      * left. eapply Qcle_lt_trans; eassumption.
      * right. destruct (LE y Iy Ny) as [_ L2]. eapply Qclt_le_trans; [|exact L2]. eapply Qcle_lt_trans; [|exact H].
        rewrite !(Qcmult_comm (qz 1000)). apply Qcmult_le_compat_r; [exact L1|discriminate].
Qed.

(** ** Lines *)
Definition one_line (s : text) : Prop := ~ In newline s.
Lemma lines_app a : forall b ls l, lines a = ls ++ [l] -> lines (a ++ b) = ls ++ match lines b with x :: xs => (l ++ x) :: xs | [] => [l] end.
Proof.
  induction a as [|c a IH]; intros b ls l E.
  - cbn in E. destruct ls as [|x ls]; [injection E as <-|destruct ls; discriminate E]. cbn [app]. destruct (lines b) as [|x xs] eqn:Eb; [|reflexivity].
    destruct b as [|d b]; [discriminate Eb|]. cbn in Eb. destruct (Ascii.eqb d newline); [discriminate Eb|]. destruct (lines b); discriminate Eb.
  - cbn [app lines] in E |- *. destruct (Ascii.eqb c newline).
    + destruct ls as [|x ls]; cbn [app] in E.
      * injection E as _ E. destruct a as [|d a]; [discriminate E|]. cbn in E. destruct (Ascii.eqb d newline); [discriminate E|]. destruct (lines a); discriminate E.
      * injection E as <- E. cbn [app]. f_equal. now apply IH.
    + destruct (lines a) as [|y ys] eqn:Ea.
      * destruct a as [|d a]; [discriminate Ea|]. cbn in Ea. destruct (Ascii.eqb d newline); [discriminate Ea|]. destruct (lines a); discriminate Ea.
      * destruct ls as [|x ls]; cbn [app] in E.
        -- injection E as <- ->. specialize (IH b [] y eq_refl). cbn [app] in IH. rewrite IH. destruct (lines b); reflexivity.
        -- injection E as <- ->. specialize (IH b (y :: ls) l eq_refl). cbn [app] in IH. rewrite IH. reflexivity.
Qed.
Lemma lines_one s : one_line s -> lines s = [s].
Proof.
  induction s as [|c s IH]; intros H; [reflexivity|]. cbn [lines]. destruct (Ascii.eqb_spec c newline) as [->|N]; [elim H; now left|].
  rewrite IH by (intros I; apply H; now right). reflexivity.
Qed.
Lemma lines_app_one a b ls l : lines a = ls ++ [l] -> one_line b -> lines (a ++ b) = ls ++ [l ++ b].
Proof. intros E H. rewrite (lines_app a b ls l E), lines_one by exact H. reflexivity. Qed.
Lemma lines_app_nl a b : lines (a ++ newline :: b) = lines a ++ lines b.
Proof.
  assert (exists ls l, lines a = ls ++ [l]) as [ls [l E]].
  { destruct (@exists_last _ (lines a)) as [ls [l E]]; [|eauto]. destruct a as [|c a]; [discriminate|]. cbn. destruct (Ascii.eqb c newline); [discriminate|]. destruct (lines a); discriminate. }
  rewrite (lines_app a (newline :: b) ls l E). cbn [lines]. replace (Ascii.eqb newline newline) with true by reflexivity. rewrite app_nil_r, E, <- app_assoc. reflexivity.
Qed.
Lemma one_line_app a b : one_line a -> one_line b -> one_line (a ++ b).
Proof. intros A B H. apply in_app_or in H. destruct H as [H|H]; [exact (A H)|exact (B H)]. Qed.
Definition len (s : text) : Z := Z.of_nat (List.length s).
Lemma len_app a b : len (a ++ b) = len a + len b. Proof. unfold len. rewrite app_length. lia. Qed.

Lemma print_elements_lines o M : one_line (separator o) -> cstr (separator o) = separator o -> linewidth o - 1 + len (separator o) <= M ->
  forall strs, Forall (fun s => one_line s /\ len s + 2 <= linewidth o) strs -> forall sep0 a ls l,
  sep0 = [] \/ sep0 = separator o -> lines a = ls ++ [l] -> Forall (fun x => len x <= M) ls -> len l + len sep0 <= M ->
  let '(t, p) := print_elements sep0 o strs (len l) in
  exists ls' l', lines (a ++ t) = ls' ++ [l'] /\ Forall (fun x => len x <= M) ls' /\ len l' = p /\ (strs <> [] -> p <= linewidth o - 1) /\ (strs = [] -> p = len l).
Proof.
  intros OS CS HM. induction 1 as [|s strs [S1 S2] F IH]; intros sep0 a ls l HS E FL LL.
  - cbn [print_elements]. rewrite app_nil_r. exists ls, l. repeat split; auto. congruence.
  - cbn [print_elements]. fold (len sep0) (len s).
    assert (C0 : cstr sep0 = sep0) by (destruct HS as [-> | ->]; [reflexivity|exact CS]).
    assert (O0 : one_line sep0) by (destruct HS as [-> | ->]; [intros []|exact OS]).
    assert (Ls : len (separator o) + linewidth o - 1 <= M) by lia.
    destruct (linewidth o <=? len l + len sep0 + len s) eqn:B.
    + assert (E1 : lines (a ++ sep0 ++ newline :: " "%char :: s) = (ls ++ [l ++ sep0]) ++ [" "%char :: s]).
      { rewrite app_assoc, lines_app_nl. rewrite (@lines_app_one a sep0 ls l E O0). f_equal. apply lines_one. intros [H|H]; [discriminate H|now apply S1]. }
      specialize (IH (separator o) (a ++ sep0 ++ newline :: " "%char :: s) (ls ++ [l ++ sep0]) (" "%char :: s) (or_intror eq_refl) E1).
      replace (1 + len s) with (len (" "%char :: s)) by (unfold len; cbn [List.length]; lia).
      destruct (print_elements (separator o) o strs (len (" "%char :: s))) as [t p]. rewrite C0.
      assert (L1 : len (" "%char :: s) = len s + 1) by (unfold len; cbn [List.length]; lia).
      destruct IH as [ls' [l' [I1 [I2 [I3 [I4 I5]]]]]]; [apply Forall_app; split; [exact FL|repeat constructor; rewrite len_app; exact LL]|lia|].
      exists ls', l'. rewrite <- !app_assoc in I1. cbn [app] in I1 |- *. split; [exact I1|]. split; [exact I2|]. split; [exact I3|]. split; [|discriminate].
      intros _. destruct strs; [rewrite I5 by reflexivity; lia|apply I4; discriminate].
    + apply Z.leb_gt in B.
      assert (E1 : lines (a ++ sep0 ++ s) = ls ++ [l ++ sep0 ++ s]) by (apply lines_app_one; [exact E|now apply one_line_app]).
      specialize (IH (separator o) (a ++ sep0 ++ s) ls (l ++ sep0 ++ s) (or_intror eq_refl) E1 FL).
      replace (len l + len sep0 + len s) with (len (l ++ sep0 ++ s)) in B |- * by (rewrite !len_app; lia).
      destruct (print_elements (separator o) o strs (len (l ++ sep0 ++ s))) as [t p]. rewrite C0.
      destruct IH as [ls' [l' [I1 [I2 [I3 [I4 I5]]]]]]; [lia|]. exists ls', l'. rewrite <- !app_assoc in I1.
      split; [exact I1|]. split; [exact I2|]. split; [exact I3|]. split; [|discriminate]. intros _. destruct strs; [rewrite I5 by reflexivity; lia|apply I4; discriminate].
Qed.

Section Width.
Context {T : Type} (K : printable T) (o : print_options).
(** the text of each element, as placed in the array *)
Definition element_text (fixed : bool) (x : T) : text := element_str fixed (put K o fixed (width K fixed) x).
Hypothesis OS : one_line (separator o).
Hypothesis CS : cstr (separator o) = separator o.
Lemma array_lines a : (List.length a <= threshold o)%nat ->
  (forall fixed x, In x a -> one_line (element_text fixed x) /\ len (element_text fixed x) + 2 <= linewidth o) -> 2 <= linewidth o ->
  exists t, array2string K o a = Ok t /\ Forall (fun l => len l <= linewidth o - 1 + Z.max 1 (len (separator o))) (lines t).
Proof.
  intros L F LW. destruct a as [|x a].
  - eexists. split; [reflexivity|]. cbn. repeat constructor; unfold len; cbn [List.length]; lia.
  - cbn [array2string]. rewrite (proj2 (Nat.leb_le _ _) L). eexists. split; [reflexivity|].
    set (fixed := suppress o || _). unfold print_array_elements. set (strs := map _ (x :: a)).
    assert (FS : Forall (fun s => one_line s /\ len s + 2 <= linewidth o) strs).
    { apply Forall_forall. intros s H. apply in_map_iff in H. destruct H as [y [<- H]]. now apply F. }
    pose proof (@print_elements_lines o (linewidth o - 1 + Z.max 1 (len (separator o))) OS CS ltac:(lia) strs FS [] ["["%char] [] ["["%char] (or_introl eq_refl) eq_refl (Forall_nil _)) as P.
    change (len ["["%char]) with 1 in P. specialize (P ltac:(unfold len at 1; cbn [List.length]; lia)).
    destruct (print_elements [] o strs 1) as [t p]. destruct P as [ls [l [E [FL [PL [PP _]]]]]]. cbn [fst].
    specialize (PP ltac:(discriminate)).
    change (tx "[" ++ t ++ tx "]" ++ [newline]) with (["["%char] ++ t ++ ["]"%char] ++ newline :: []). 
    rewrite app_assoc, app_assoc, lines_app_nl. rewrite (@lines_app_one (["["%char] ++ t) ["]"%char] ls l E) by (intros [H|[]]; discriminate H).
    apply Forall_app. split; [apply Forall_app; split; [exact FL|]|]; (constructor; [|constructor]); [rewrite len_app; change (len ["]"%char]) with 1; lia|unfold len; cbn; lia].
Qed.
Lemma in_firstn {A} (x : A) n l : In x (firstn n l) -> In x l.
Proof. intros H. rewrite <- (firstn_skipn n l). apply in_or_app. now left. Qed.
Lemma in_skipn {A} (x : A) n l : In x (skipn n l) -> In x l.
Proof. intros H. rewrite <- (firstn_skipn n l). apply in_or_app. now right. Qed.
Lemma array_lines_summary a : (threshold o < List.length a)%nat -> (2 * edgeitems o < List.length a)%nat ->
  (forall fixed x, In x a -> one_line (element_text fixed x) /\ len (element_text fixed x) + 2 <= linewidth o) -> 2 <= linewidth o ->
  exists t, array2string K o a = Ok t /\ Forall (fun l => len l <= linewidth o + 3 + 2 * len (separator o)) (lines t).
Proof.
  intros L E F LW. unfold array2string. destruct a as [|x a]; [cbn in E; lia|]. set (A := x :: a) in *.
  assert ((List.length A <=? threshold o)%nat = false) as -> by (apply Nat.leb_gt; exact L). unfold require. rewrite (proj2 (Nat.ltb_lt _ _) E).
  set (e0 := firstn (edgeitems o) A). set (e1 := skipn _ A). set (fixed := suppress o || _). unfold print_array_elements.
  set (s0 := map _ e0). set (s1 := map _ e1). set (M := linewidth o + 3 + 2 * len (separator o)).
  assert (P0 : 0 <= len (separator o)) by (unfold len; lia).
  assert (FS : forall e, (forall y, In y e -> In y A) -> Forall (fun s => one_line s /\ len s + 2 <= linewidth o) (map (fun x => element_str fixed (put K o fixed (width K fixed) x)) e)).
  { intros e He. apply Forall_forall. intros s H. apply in_map_iff in H. destruct H as [y [<- H]]. apply F. now apply He. }
  assert (F0 := FS e0 (fun y H => @in_firstn T y _ _ H)). fold s0 in F0. assert (F1 := FS e1 (fun y H => @in_skipn T y _ _ H)). fold s1 in F1.
  pose proof (@print_elements_lines o M OS CS ltac:(unfold M; lia) s0 F0 [] ["["%char] [] ["["%char] (or_introl eq_refl) eq_refl (Forall_nil _)) as Q.
  change (len ["["%char]) with 1 in Q. specialize (Q ltac:(unfold M; change (len []) with 0; lia)).
  destruct (print_elements [] o s0 1) as [t0 p]. destruct Q as [ls [l [El [FL [PL [PP PN]]]]]].
  assert (PB : p <= linewidth o - 1) by (destruct s0; [rewrite PN by reflexivity; change (len ["["%char]) with 1; lia|apply PP; discriminate]).
  assert (ON : one_line (separator o ++ tx "..." ++ separator o)) by (apply one_line_app; [exact OS|]; apply one_line_app; [intros H; repeat (destruct H as [H|H]; [discriminate H|]); destruct H|exact OS]).
  pose proof (@lines_app_one _ _ ls l El ON) as E2.
  pose proof (@print_elements_lines o M OS CS ltac:(unfold M; lia) s1 F1 [] _ ls _ (or_introl eq_refl) E2 FL) as Q.
  assert (LL : len (l ++ separator o ++ tx "..." ++ separator o) = p + 3 + 2 * len (separator o)) by (rewrite !len_app, PL; change (len (tx "...")) with 3; lia).
  rewrite LL in Q. change (len []) with 0 in Q. specialize (Q ltac:(unfold M; lia)). unfold len in Q at 1.
  destruct (print_elements [] o s1 (p + 3 + 2 * Z.of_nat (List.length (separator o)))) as [t1 p1]. destruct Q as [ls1 [l1 [El1 [FL1 [PL1 [PP1 PN1]]]]]]. cbn [fst].
  eexists. split; [reflexivity|].
  replace (tx "[" ++ t0 ++ separator o ++ tx "..." ++ separator o ++ t1 ++ tx "]" ++ [newline])
    with (((((["["%char] ++ t0) ++ separator o ++ tx "..." ++ separator o) ++ t1) ++ ["]"%char]) ++ newline :: []) by (rewrite <- !app_assoc; reflexivity).
  rewrite lines_app_nl. rewrite (@lines_app_one _ ["]"%char] ls1 l1 El1) by (intros [H|[]]; discriminate H).
  apply Forall_app. split; [|cbn [lines]; repeat constructor; change (len []) with 0; unfold M; lia].
  apply Forall_app. split; [exact FL1|]. constructor; [|constructor]. rewrite len_app. change (len ["]"%char]) with 1.
  destruct s1 as [|z s1]; [rewrite PL1, PN1 by reflexivity; unfold M; lia|specialize (PP1 ltac:(discriminate)); unfold M; lia].
Qed.
End Width.
