(** Properties C83 (scicpp/core/io.hpp): what savetxt writes, loadtxt reads. *)
From Coq Require Import ZArith QArith Qabs Ascii String Lqa Qfield.
From Verif Require Import Base Io IoSpec IoFacts IoFacts2 IoNumber IoNumberFacts IoFacts3 IoPrint IoPrintFacts PropIo.
From Coq Require Import Lia.
Open Scope nat_scope.
Set Implicit Arguments.

(** [writes num put sep x x']: the text of x is a non-empty piece (no separator, newline or NUL in it) that the parser reads as x'. *)
Definition writes {V} (num : text -> outcome V) (put : V -> text) (sep : ascii) (x x' : V) : Prop :=
  put x <> [] /\ ~ In sep (put x) /\ ~ In newline (put x) /\ ~ In nul (put x) /\ num (put x) = Ok x'.

Lemma lines_of_rows rs : Forall (fun r => ~ In newline r) rs -> lines (concat (map (fun r => r ++ [newline]) rs)) rs.
Proof.
  induction 1 as [|r rs H F IH]; [constructor|]. cbn [map concat]. rewrite <- app_assoc. cbn [app]. now apply lines_more.
Qed.

Section Save.
Context {V : Type}.
Definition row_text (puts : list (V -> text)) (row : list V) : list text := map (fun x => fst x (snd x)) (combine puts row).
Lemma save_row_ok delim i : forall puts (X : list (list V)) r, length puts = length X -> X <> [] -> length r = length X ->
  (forall j xs, nth_error X j = Some xs -> nth_error r j = nth_error xs i) ->
  save_row puts X i delim newline = Ok (join delim (row_text puts r) ++ [newline]).
Proof.
  induction puts as [|put puts IH]; intros [|xs X] [|v r] L N Lr F; try discriminate; [congruence|]. cbn [save_row].
  unfold at_ub. specialize (F 0 xs eq_refl) as E. cbn in E. rewrite <- E. cbn [bind]. destruct X as [|ys X].
  - destruct puts; [|discriminate L]. destruct r; [|discriminate]. reflexivity.
  - rewrite (IH (ys :: X) r); [|cbn in *; lia|discriminate|cbn in *; lia|intros j zs Ej; exact (F (S j) zs Ej)]. cbn [bind is_nil].
    destruct puts as [|put2 puts]; [discriminate L|]. destruct r as [|w r]; [discriminate|].
    cbn [row_text map combine fst snd join]. rewrite <- !app_assoc. reflexivity.
Qed.
Lemma transpose (X : list (list V)) n : X <> [] -> (forall xs, In xs X -> length xs = n) -> exists rows : list (list V), length rows = n /\
  (forall j xs i, nth_error X j = Some xs -> forall r, nth_error rows i = Some r -> nth_error r j = nth_error xs i /\ i < n) /\
  (forall r, In r rows -> length r = length X).
Proof.
  intros NE LN. assert (D : n = 0 \/ exists d : V, True).
  { destruct X as [|[|x x0] X]; [congruence|left; symmetry; apply (LN []); now left|right; now exists x]. }
  destruct D as [->|[d _]].
  - exists []. split; [reflexivity|]. split; [intros j xs i _ r E; destruct i; discriminate|intros r []].
  - exists (map (fun i => map (fun xs => nth i xs d) X) (seq 0 n)). split; [now rewrite map_length, seq_length|]. split.
    + intros j xs i E r Er. assert (Hi : i < n). { assert (i < length (map (fun i0 => map (fun xs0 => nth i0 xs0 d) X) (seq 0 n))) by (apply nth_error_Some; congruence). rewrite map_length, seq_length in H. exact H. }
      split; [|exact Hi]. rewrite nth_error_map in Er. rewrite (nth_error_nth' (seq 0 n) 0) in Er by (rewrite seq_length; exact Hi). rewrite seq_nth in Er by exact Hi. cbn in Er.
      injection Er as <-. rewrite nth_error_map, E. cbn. symmetry. apply nth_error_nth'. rewrite (LN xs); [exact Hi|]. now apply nth_error_In in E.
    + intros r Hr. apply in_map_iff in Hr. destruct Hr as [i [<- _]]. apply map_length.
Qed.
Lemma row_texts sep : forall (puts : list (V -> text)) (nums : list (text -> outcome V)) r r', length puts = length r -> length nums = length r -> length r' = length r ->
  (forall j put num x x', nth_error puts j = Some put -> nth_error nums j = Some num -> nth_error r j = Some x -> nth_error r' j = Some x' -> writes num put sep x x') ->
  Forall (fun t => t <> [] /\ ~ In sep t /\ ~ In newline t /\ ~ In nul t) (row_text puts r) /\
  Forall2 (fun nt x => fst nt (snd nt) = Ok x) (combine nums (row_text puts r)) r' /\ length (row_text puts r) = length nums.
Proof.
  induction puts as [|p puts IH]; intros [|m nums] [|v r] [|v' r'] L1 L2 L3 W; try discriminate; [repeat split; constructor|].
  destruct (IH nums r r') as [I1 [I2 I3]]; [cbn in L1; lia|cbn in L2; lia|cbn in L3; lia|intros j put num x x'; exact (W (S j) put num x x')|].
  destruct (W 0 p m v v' eq_refl eq_refl eq_refl eq_refl) as [A [B [C [D E]]]]. unfold row_text. cbn [combine map fst snd length].
  split; [constructor; auto|]. split; [constructor; [exact E|exact I2]|]. f_equal. exact I3.
Qed.
End Save.

Lemma kept_all {A} (P : A -> Prop) l k : (forall x, In x l -> P x) -> kept P l k -> k = l.
Proof.
  intros H K. induction K as [|x l k Px K IH|x l k Px K IH]; [reflexivity| |].
  - f_equal. apply IH. intros y Y. apply H. now right.
  - exfalso. apply Px, H. now left.
Qed.

Lemma map_outcome_F2 {A B} (f : A -> outcome B) : forall l l', length l = length l' ->
  (forall i x, nth_error l i = Some x -> exists y, nth_error l' i = Some y /\ f x = Ok y) -> map_outcome f l = Ok l'.
Proof.
  induction l as [|x l IH]; intros [|y l'] L H; try discriminate; [reflexivity|]. cbn [map_outcome]. destruct (H 0 x eq_refl) as [z [E1 E2]]. cbn in E1. injection E1 as <-.
  rewrite E2. cbn [bind]. rewrite (IH l'); [reflexivity|cbn in L; lia|]. intros i a Ea. exact (H (S i) a Ea).
Qed.

(** C83: saving a tuple of arrays and loading it with the same delimiter returns the arrays, each value as its text is read back. *)
Theorem C83_save_load : forall (V : Type) (nums : list (text -> outcome V)) (puts : list (V -> text)) (X X' : list (list V)) (n : nat) (sep comment : ascii),
  sep <> nul -> sep <> newline -> X <> [] -> length nums = length X -> length puts = length X -> length X' = length X ->
  (forall xs, In xs X \/ In xs X' -> length xs = n) ->
  (forall j num put xs xs' i x x', nth_error nums j = Some num -> nth_error puts j = Some put -> nth_error X j = Some xs -> nth_error X' j = Some xs' ->
     nth_error xs i = Some x -> nth_error xs' i = Some x' -> writes num put sep x x') ->
  (forall put xs x, nth_error puts 0 = Some put -> nth_error X 0 = Some xs -> In x xs -> hd nul (put x) <> comment) ->
  exists content, savetxt_tuple puts X sep newline = Ok content /\
    load_tuple nums (Loader sep 0 comment [] [] [] (-1)) (Some content) false = Ok X'.
Proof.
  intros V nums puts X X' n sep comment S1 S2 NE L1 L2 L3 LN0 W C.
  assert (LN : forall xs, In xs X -> length xs = n) by (intros xs I; apply LN0; now left).
  assert (LN' : forall xs, In xs X' -> length xs = n) by (intros xs I; apply LN0; now right).
  assert (LX : match X with [] => 0 | x0 :: _ => length x0 end = n) by (destruct X as [|x0 X]; [congruence|apply LN; now left]).
  assert (FB : forallb (fun xs => length xs =? n) X = true) by (apply forallb_forall; intros xs I; apply Nat.eqb_eq, LN, I).
  unfold savetxt_tuple. rewrite LX, FB. cbn [require].
  assert (NE' : X' <> []) by (destruct X, X'; try discriminate; congruence).
  destruct (transpose NE LN) as [rows [LR [RX RL]]]. destruct (transpose NE' LN') as [rows' [LR' [RX' RL']]].
  assert (KE : map_outcome (fun i => save_row puts X i sep newline) (seq 0 n) = Ok (map (fun r => join sep (row_text puts r) ++ [newline]) rows)).
  { apply map_outcome_F2; [now rewrite seq_length, map_length|]. intros i k Ek.
    assert (Hi : i < n) by (rewrite <- (seq_length n 0); apply nth_error_Some; congruence). rewrite (nth_error_nth' (seq 0 n) 0) in Ek by (rewrite seq_length; exact Hi).
    rewrite seq_nth in Ek by exact Hi. injection Ek as <-. destruct (nth_error rows i) as [r|] eqn:Er; [|apply nth_error_None in Er; lia].
    exists (join sep (row_text puts r) ++ [newline]). split; [now rewrite nth_error_map, Er|]. apply save_row_ok; [exact L2|exact NE|apply RL; now apply nth_error_In in Er|].
    intros j xs Ej. now apply (RX j xs i Ej r Er). }
  rewrite KE. cbn [bind]. eexists. split; [reflexivity|].
  (* each printed row *)
  assert (GT2 : forall i r r', nth_error rows i = Some r -> nth_error rows' i = Some r' -> Forall (fun t => t <> [] /\ ~ In sep t /\ ~ In newline t /\ ~ In nul t) (row_text puts r) /\
    Forall2 (fun nt x => fst nt (snd nt) = Ok x) (combine nums (row_text puts r)) r' /\ length (row_text puts r) = length nums).
  { intros i r r' Hi Hi'. pose proof (RL r (nth_error_In _ _ Hi)) as Lr. pose proof (RL' r' (nth_error_In _ _ Hi')) as Lr'.
    apply row_texts; [congruence|congruence|congruence|]. intros j put num x x' J1 J2 J3 J4.
    assert (JX : exists xs, nth_error X j = Some xs).
    { destruct (nth_error X j) eqn:E; [eauto|]. apply nth_error_None in E. assert (j < length puts) by (apply nth_error_Some; congruence). lia. }
    assert (JX' : exists xs, nth_error X' j = Some xs).
    { destruct (nth_error X' j) eqn:E; [eauto|]. apply nth_error_None in E. assert (j < length puts) by (apply nth_error_Some; congruence). lia. }
    destruct JX as [xs JX]. destruct JX' as [xs' JX']. destruct (RX j xs i JX r Hi) as [E _]. destruct (RX' j xs' i JX' r' Hi') as [E' _]. rewrite J3 in E. rewrite J4 in E'.
    apply (W j num put xs xs' i x x' J2 J1 JX JX'); auto. }
  assert (GT : forall r, In r rows -> Forall (fun t => t <> [] /\ ~ In sep t /\ ~ In newline t /\ ~ In nul t) (row_text puts r) /\ length (row_text puts r) = length nums).
  { intros r Hr. apply In_nth_error in Hr. destruct Hr as [i Hi]. destruct (nth_error rows' i) as [r'|] eqn:E.
    - destruct (GT2 i r r' Hi E) as [A [_ B]]. now split.
    - apply nth_error_None in E. assert (i < length rows) by (apply nth_error_Some; congruence). lia. }
  set (content := concat (map (fun r => join sep (row_text puts r) ++ [newline]) rows)).
  assert (LI : lines content (map (fun r => join sep (row_text puts r)) rows)).
  { unfold content. rewrite <- map_map with (f := fun r => join sep (row_text puts r)) (g := fun r => r ++ [newline]). apply lines_of_rows.
    rewrite Forall_forall. intros t It. apply in_map_iff in It. destruct It as [r [<- Hr]]. intros X0. apply join_chars in X0. destruct (GT r Hr) as [F _]. rewrite Forall_forall in F.
    destruct X0 as [X0|[t [It X0]]]; [congruence|]. destruct (F t It) as [_ [_ [Nn _]]]. exact (Nn X0). }
  assert (CO : counted comment 0 (-1) (map (fun r => join sep (row_text puts r)) rows) = map (fun r => join sep (row_text puts r)) rows).
  { unfold counted. cbn [Z.to_nat skipn Z.ltb Z.compare]. assert (H : forall t, In t (map (fun r => join sep (row_text puts r)) rows) -> negb (Ascii.eqb (hd nul t) comment) = true).
    { intros t It. apply in_map_iff in It. destruct It as [r [<- Hr]]. apply negb_true_iff, Ascii.eqb_neq. pose proof (RL r Hr) as Lr.
      destruct X as [|xs X]; [congruence|]. destruct puts as [|put puts]; [discriminate|]. destruct r as [|x r]; [discriminate|].
      destruct (GT (x :: r) Hr) as [F _]. cbn in F. inversion F as [|? ? [F1 _] _]; subst.
      apply In_nth_error in Hr. destruct Hr as [i Hi]. destruct (RX 0 xs i eq_refl _ Hi) as [E _]. cbn in E. specialize (C put xs x eq_refl eq_refl (nth_error_In _ _ (eq_sym E))).
      cbn [row_text combine map fst snd join]. destruct (map _ (combine puts r)); destruct (put x); auto; congruence. }
    clear - H. induction (map (fun r => join sep (row_text puts r)) rows) as [|t l IH]; [reflexivity|]. cbn [filter]. rewrite H by now left. f_equal. apply IH. intros u Iu. apply H. now right. }
  destruct (@C60_tuples_partial V nums [] [] content (map (fun r => join sep (row_text puts r)) rows) comment sep 0%Z [] (-1)%Z (map (fun r => columns (row_text puts r)) rows) rows') as [kr [K1 K2]].
  - split; [intros i j _ H; cbn in H; lia|intros c []].
  - exact LI.
  - rewrite CO. clear - GT S1 S2. induction rows as [|r rows IH]; constructor; [|apply IH; intros q Hq; apply GT; now right].
    exists (join sep (row_text puts r)), (row_text puts r). destruct (GT r (or_introl eq_refl)) as [F _]. rewrite Forall_forall in F.
    split; [constructor; intros X0; apply join_chars in X0; destruct X0 as [X0|[t [It X0]]]; [apply S1; symmetry; exact X0|destruct (F t It) as [_ [_ [_ Nn]]]; exact (Nn X0)]|].
    split; [apply fields_join; rewrite Forall_forall; intros t It; split; apply (F t It)|]. symmetry. apply chosen_nil.
  - assert (LL : length rows = length rows') by congruence. clear - GT2 LL. revert rows' GT2 LL. induction rows as [|r rows IH]; intros [|r' rows'] GT2 LL; try discriminate; constructor.
    2:{ apply IH; [intros i q q' Hq Hq'; exact (GT2 (S i) q q' Hq Hq')|cbn in LL; lia]. }
    destruct (GT2 0 r r' eq_refl eq_refl) as [_ [F2 L]]. rewrite <- number_columns. generalize 0%Z. revert F2 L. generalize (row_text puts r). clear. intros ts.
    revert nums r'. induction ts as [|t ts IH]; intros [|num nums] r F2 L c; try discriminate; inversion F2; subst; [constructor|]. cbn [number]. constructor; [exact H1|]. apply IH; [assumption|cbn in L; lia].
  - transitivity (unpack (length nums) (map snd kr)).
    { exact (f_equal (fun o => do data <- o; unpack (length nums) data) K2). }
    apply kept_all in K1.
    2:{ intros [cells vs] I. cbn [fst snd]. apply in_combine_l in I as I1. apply in_combine_r in I as I2.
        assert (LL : length cells = length vs).
        { clear - I1 I2 GT RL' L1 L3. apply in_map_iff in I1. destruct I1 as [r [<- Hr]]. destruct (GT r Hr) as [_ L]. rewrite (RL' vs I2).
          rewrite <- (map_length fst), columns_fst. lia. }
        clear - LL. revert vs LL. induction cells as [|c cells IH]; intros [|v vs] L; try discriminate; constructor; [exact I|]. apply IH. cbn in L. lia. }
    assert (MS : map snd kr = rows').
    { rewrite K1. assert (LL : length rows = length rows') by congruence. clear - LL. revert rows' LL. induction rows as [|r rows IH]; intros [|r' rows'] LL; try discriminate; [reflexivity|].
      cbn. f_equal. apply IH. cbn in LL. lia. }
    rewrite MS. unfold unpack. rewrite L1, <- L3. apply nth_error_eq_map; [reflexivity|]. intros j xs E. 
    apply map_outcome_F2.
    + rewrite LR'. symmetry. apply LN'. now apply nth_error_In in E.
    + intros i r Er. destruct (RX' j xs i E r Er) as [Ex Hi]. destruct (nth_error xs i) as [v|] eqn:Ev.
      * exists v. split; [reflexivity|]. unfold at_ub. now rewrite Ex.
      * exfalso. apply nth_error_None in Ev. rewrite (LN' xs) in Ev by now apply nth_error_In in E. lia.
Qed.
Print Assumptions C83_save_load.

Definition not_in_int (c : ascii) : Prop := is_digit c = false /\ c <> "-"%char.
Lemma print_int_writes sep x : not_in_int sep -> (- 2 ^ 31 <= x < 2 ^ 31)%Z -> writes (to_number_int true 32) print_int sep x x.
Proof.
  intros [D M] H. split; [apply print_int_nonempty|]. split; [intros X; apply print_int_chars in X; destruct X; congruence|].
  split; [intros X; apply print_int_chars in X; destruct X as [X|X]; discriminate X|]. split; [apply print_int_no_nul|].
  unfold to_number_int. rewrite <- (app_nil_r (print_int x)), atoi_print by (auto; cbn; auto). cbn [bind]. f_equal. apply cast_int_id; lia.
Qed.
Lemma print_int_hd x c : not_in_int c -> hd nul (print_int x) <> c.
Proof.
  intros [D M] E. pose proof (print_int_nonempty x) as N. destruct (print_int x) as [|d r] eqn:P; [congruence|]. cbn in E. subst d.
  assert (I : In c (print_int x)) by (rewrite P; now left). apply print_int_chars in I. destruct I; congruence.
Qed.

(** Tuples of int arrays: exactly what was saved. *)
Theorem C83_ints : forall (X : list (list Z)) (n : nat) (sep comment : ascii),
  not_in_int sep -> sep <> nul -> sep <> newline -> not_in_int comment -> X <> [] ->
  (forall xs, In xs X -> length xs = n /\ forall x, In x xs -> (- 2 ^ 31 <= x < 2 ^ 31)%Z) ->
  exists content, savetxt_tuple (map (fun _ => print_int) X) X sep newline = Ok content /\
    load_tuple (map (fun _ => to_number_int true 32) X) (Loader sep 0 comment [] [] [] (-1)) (Some content) false = Ok X.
Proof.
  intros X n sep comment S S1 S2 C NE H. apply C83_save_load with n; auto; try apply map_length.
  - intros xs [I|I]; now apply H.
  - intros j num put xs xs' i x x' E1 E2 E3 E4 E5 E6. rewrite nth_error_map in E1, E2. rewrite E3 in *. cbn in E1, E2. injection E1 as <-. injection E2 as <-. injection E4 as <-.
    rewrite E5 in E6. injection E6 as <-. apply print_int_writes; [exact S|]. apply (H xs (nth_error_In _ _ E3)). now apply nth_error_In in E5.
  - intros put xs x E1 E2 I. rewrite nth_error_map in E1. destruct (nth_error X 0); [|discriminate]. cbn in E1. injection E1 as <-. now apply print_int_hd.
Qed.
Print Assumptions C83_ints.
(** Arrays of different sizes are refused. *)
Theorem C83_sizes : forall (V : Type) (puts : list (V -> text)) (x0 : list V) (X : list (list V)) delim nl', (exists xs, In xs X /\ length xs <> length x0) ->
  savetxt_tuple puts (x0 :: X) delim nl' = RequireFail.
Proof.
  intros V puts x0 X delim nl' [xs [I N]]. unfold savetxt_tuple. destruct (forallb _ _) eqn:E; [|reflexivity]. exfalso. rewrite forallb_forall in E.
  specialize (E xs (or_intror I)). apply Nat.eqb_eq in E. auto.
Qed.
Print Assumptions C83_sizes.

(** One array: the vector overload. *)
Theorem C83_array : forall (V : Type) (num : text -> outcome V) (put : V -> text) (X X' : list V) (sep comment : ascii),
  sep <> nul -> Forall2 (writes num put sep) X X' -> (forall x, In x X -> hd nul (put x) <> comment) ->
  load_vector num (Loader sep 0 comment [] [] [] (-1)) (Some (savetxt put X newline)) = Ok (X', if is_nil X then 0%Z else 1%Z).
Proof.
  intros V num put X X' sep comment S1 W C. unfold load_vector. cbn [l_comments l_delimiter l_skiprows l_usecols l_converters l_filters l_max_rows].
  assert (WX : forall x, In x X -> put x <> [] /\ ~ In sep (put x) /\ ~ In newline (put x) /\ ~ In nul (put x)).
  { clear - W. induction W as [|x x' X X' A W IH]; intros y I; [destruct I|]. destruct I as [<-|I]; [|now apply IH]. destruct A as [A [B [D [E _]]]]. auto. }
  assert (LI : lines (savetxt put X newline) (map put X)).
  { unfold savetxt. rewrite flat_map_concat_map, <- (map_map put (fun r => r ++ [newline])). apply lines_of_rows. rewrite Forall_forall. intros t I. apply in_map_iff in I. destruct I as [x [<- I]]. now apply WX. }
  unfold loadtxt_to_vector. rewrite (iterate_file_spec _ _ _ LI). cbn [bind].
  replace (counted comment 0 (-1) (map put X)) with (map put X).
  2:{ unfold counted. cbn [Z.to_nat skipn Z.ltb Z.compare]. clear - C. induction X as [|x X IH]; [reflexivity|]. cbn [map filter].
      assert (CX : hd "000"%char (put x) <> comment) by exact (C x (or_introl eq_refl)). rewrite (proj2 (Ascii.eqb_neq _ _) CX). cbn [negb]. f_equal. apply IH. intros y I. apply C. now right. }
  assert (G : forall X X', Forall2 (writes num put sep) X X' -> forall res (first : bool) nc, first = true \/ nc = 1%Z ->
     load_rows num sep [] [] [] (map put X) res first nc = Ok (res ++ X', if is_nil X then nc else 1%Z)).
  { clear - S1. induction 1 as [|x x' X X' A W IH]; intros res first nc H; cbn [map load_rows is_nil]; [now rewrite app_nil_r|].
    destruct A as [A [B [D [E F]]]]. unfold push_string_to_vector. rewrite iterate_line_all, cstr_free by exact E. cbn [bind]. rewrite pieces_free by exact B. cbn [app].
    rewrite emit_nonempty by exact A. change (columns [put x]) with [(put x, 0%Z)]. cbn [push_tokens]. unfold convert. cbn [is_nil negb]. rewrite F. cbn [bind].
    assert (Q : load_rows num sep [] [] [] (map put X) (res ++ [x']) false 1 = Ok (res ++ x' :: X', 1%Z)).
    { rewrite IH by now right. rewrite <- app_assoc. cbn [app]. destruct X; reflexivity. }
    destruct first; [exact Q|]. destruct H as [H|H]; [discriminate|]. subst nc. exact Q. }
  rewrite (G X X' W) by now left. reflexivity.
Qed.
Print Assumptions C83_array.

(** FINDING: TxtLoader has no newline option.  Int arrays saved with another newline character are read as one row, of which std::atoi takes the first
    number: all other values are silently lost. *)
Theorem C83_newline_refuted : forall (x : Z) (xs : list Z) (sep c comment : ascii), not_in_int sep -> sep <> nul -> sep <> c -> not_in_int c -> c <> nul -> c <> newline ->
  not_in_int comment -> (- 2 ^ 31 <= x < 2 ^ 31)%Z ->
  load_vector (to_number_int true 32) (Loader sep 0 comment [] [] [] (-1)) (Some (savetxt print_int (x :: xs) c)) = Ok ([x], 1%Z).
Proof.
  intros x xs sep c comment [S1 S2] S3 S4 [C1 C2] C3 C4 CC H. set (s := savetxt print_int (x :: xs) c).
  assert (CH : forall a, In a s -> is_digit a = true \/ a = "-"%char \/ a = c).
  { unfold s, savetxt. intros a I. apply in_flat_map in I. destruct I as [z [_ I]]. apply in_app_or in I. destruct I as [I|[<-|[]]]; [|auto]. apply print_int_chars in I. tauto. }
  assert (N1 : ~ In newline s) by (intros I; apply CH in I; destruct I as [I|[I|I]]; [discriminate I|discriminate I|congruence]).
  assert (N2 : ~ In nul s) by (intros I; apply CH in I; destruct I as [I|[I|I]]; [discriminate I|discriminate I|congruence]).
  assert (N3 : ~ In sep s) by (intros I; apply CH in I; destruct I as [I|[I|I]]; congruence).
  assert (E : s = print_int x ++ c :: flat_map (fun x => print_int x ++ [c]) xs) by (unfold s, savetxt; cbn [flat_map]; now rewrite <- app_assoc).
  assert (NE : s <> []) by (rewrite E; intros X; apply app_eq_nil in X; destruct X; discriminate).
  unfold load_vector, loadtxt_to_vector. cbn [l_comments l_delimiter l_skiprows l_usecols l_converters l_filters l_max_rows].
  assert (LI : lines s [s]) by now apply lines_last.
  rewrite (iterate_file_spec _ _ _ LI). cbn [bind]. unfold counted. cbn [Z.to_nat skipn Z.ltb Z.compare filter].
  assert (HD : hd "000"%char s <> comment).
  { rewrite E. pose proof (print_int_hd x CC) as P. pose proof (print_int_nonempty x). destruct (print_int x); [congruence|]. exact P. }
  rewrite (proj2 (Ascii.eqb_neq _ _) HD). cbn [negb load_rows]. unfold push_string_to_vector. rewrite iterate_line_all, cstr_free by exact N2. cbn [bind].
  rewrite pieces_free by exact N3. cbn [app]. rewrite emit_nonempty by exact NE. change (columns [s]) with [(s, 0%Z)]. cbn [push_tokens]. unfold convert. cbn [is_nil negb].
  assert (R : to_number_int true 32 s = Ok x).
  { unfold to_number_int. rewrite E, atoi_print; [cbn [bind]; f_equal; apply cast_int_id; lia| |exact C1|exact H].
    intros I. apply N2. rewrite E. apply in_or_app. now right. }
  rewrite R. reflexivity.
Qed.
Print Assumptions C83_newline_refuted.

(** TxtSaver's options: each setter sets its own; the default is the loader's format. *)
Theorem C83_saver : forall (V : Type) (puts : list (V -> text)) (X : list (list V)) (o : saver) (c d e : ascii),
  save puts (set_newline d (set_delimiter c o)) X = savetxt_tuple puts X c d /\ save puts (set_delimiter c (set_newline d (set_delimiter e o))) X = savetxt_tuple puts X c d /\
  save puts default_saver X = savetxt_tuple puts X (l_delimiter (@default_loader V)) newline.
Proof. repeat split. Qed.
Print Assumptions C83_saver.
Example C83_nonvacuous :
  savetxt_tuple [print_int; print_int] [[1; -20; 3]; [4; 5; 6]]%Z ","%char newline = Ok (T ("1,4" ^^ nl ^^ "-20,5" ^^ nl ^^ "3,6" ^^ nl)) /\
  load_tuple [to_number_int true 32; to_number_int true 32] (Loader ","%char 0 "#"%char [] [] [] (-1)) (Some (T ("1,4" ^^ nl ^^ "-20,5" ^^ nl ^^ "3,6" ^^ nl))) false
  = Ok [[1; -20; 3]; [4; 5; 6]]%Z /\ not_in_int ","%char /\ not_in_int "#"%char /\
  Forall2 (writes (to_number_int true 32) print_int ","%char) [7; -8]%Z [7; -8]%Z /\ not_in_int ";"%char.
Proof.
  assert (C : not_in_int ","%char) by (split; [reflexivity|discriminate]).
  split; [reflexivity|]. split; [reflexivity|]. split; [exact C|]. split; [split; [reflexivity|discriminate]|]. split; [|split; [reflexivity|discriminate]].
  constructor; [apply print_int_writes; [exact C|lia]|]. constructor; [apply print_int_writes; [exact C|lia]|constructor].
Qed.
