From Coq Require Import ZArith Ascii.
From Verif Require Import Base Io IoSpec IoFacts.
Open Scope nat_scope.
Set Implicit Arguments.

(** ** Column selection *)
Lemma existsb_Z c l : existsb (Z.eqb c) l = true <-> In c l.
Proof.
  rewrite existsb_exists. split; [intros [x [H E]]; apply Z.eqb_eq in E; now subst|]. intros H. exists c. split; [exact H|apply Z.eqb_refl].
Qed.

Lemma select_increasing usecols : increasing usecols -> forall ps u col, u < length usecols ->
  (forall i, i < u -> (nth i usecols 0 < col)%Z) -> (col <= nth u usecols 0)%Z ->
  select usecols u (number ps col) = filter (fun x => existsb (Z.eqb (snd x)) usecols) (number ps col).
Proof.
  intros INC. induction ps as [|p ps IH]; intros u col U B C; [reflexivity|]. cbn [number select filter snd].
  assert (NONE : (forall i, i < length usecols -> (nth i usecols 0 < col + 1)%Z) ->
    filter (fun x => existsb (Z.eqb (snd x)) usecols) (number ps (col + 1)) = []).
  { intros H. assert (G : forall qs c, (col + 1 <= c)%Z -> filter (fun x => existsb (Z.eqb (snd x)) usecols) (number qs c) = []).
    { induction qs as [|q qs IHq]; intros c Hc; [reflexivity|]. cbn [number filter snd]. destruct (existsb (Z.eqb c) usecols) eqn:E.
      - apply existsb_Z in E. apply (In_nth _ _ 0%Z) in E. destruct E as [i [Hi Ei]]. specialize (H i Hi). lia.
      - apply IHq. lia. }
    apply G. lia. }
  destruct (Z.eqb (nth u usecols 0%Z) col) eqn:E.
  - apply Z.eqb_eq in E. replace (existsb (Z.eqb col) usecols) with true by (symmetry; apply existsb_Z; rewrite <- E; now apply nth_In).
    f_equal. destruct (S u =? length usecols) eqn:L.
    + apply Nat.eqb_eq in L. symmetry. apply NONE. intros i Hi. destruct (Nat.eq_dec i u) as [->|N]; [lia|]. specialize (B i). lia.
    + apply Nat.eqb_neq in L. apply IH; [lia| |].
      * intros i Hi. destruct (Nat.eq_dec i u) as [->|N]; [lia|]. specialize (B i). lia.
      * pose proof (INC u (S u)). lia.
  - apply Z.eqb_neq in E. replace (existsb (Z.eqb col) usecols) with false.
    + apply IH; [exact U| |lia]. intros i Hi. specialize (B i Hi). lia.
    + symmetry. apply not_true_is_false. intros X. apply existsb_Z in X. apply (In_nth _ _ 0%Z) in X. destruct X as [i [Hi Ei]].
      destruct (lt_eq_lt_dec i u) as [[H|H]|H].
      * specialize (B i H). lia.
      * subst i. lia.
      * pose proof (INC u i H Hi). lia.
Qed.

Lemma iterate_line_chosen str sep usecols : increasing usecols -> (forall c, In c usecols -> (0 <= c)%Z) ->
  iterate_line str sep usecols = Ok (chosen usecols (columns (pieces sep (cstr str) []))).
Proof.
  intros I P. destruct usecols as [|u0 us] eqn:E.
  - rewrite iterate_line_all. f_equal. unfold chosen. generalize (columns (pieces sep (cstr str) [])). induction l as [|x l IH]; cbn; congruence.
  - rewrite <- E in *. rewrite iterate_line_cols by (rewrite E; discriminate). f_equal. rewrite <- number_columns.
    rewrite select_increasing; [rewrite E; reflexivity|exact I|rewrite E; cbn; lia|lia|]. apply P. rewrite E. now left.
Qed.

(** A negative first entry, or a second entry not above the first, ends the reading. *)
Lemma select_negative usecols u : forall ps col, (nth u usecols 0 < col)%Z -> select usecols u (number ps col) = [].
Proof.
  induction ps as [|p ps IH]; intros col H; [reflexivity|]. cbn [number select]. replace (Z.eqb _ col) with false by (symmetry; apply Z.eqb_neq; lia).
  apply IH. lia.
Qed.
Lemma select_stuck a b r : (b <= a)%Z -> forall ps col, (col <= a)%Z ->
  select (a :: b :: r) 0 (number ps col) = filter (fun x => Z.eqb (snd x) a) (number ps col).
Proof.
  intros H. induction ps as [|p ps IH]; intros col C; [reflexivity|]. cbn [number select filter snd nth]. rewrite Z.eqb_sym. destruct (Z.eqb col a) eqn:E.
  - apply Z.eqb_eq in E. subst col. f_equal. cbn [length Nat.eqb]. rewrite select_negative by (cbn; lia). symmetry.
    assert (G : forall qs c, (a < c)%Z -> filter (fun x => Z.eqb (snd x) a) (number qs c) = []).
    { induction qs as [|q qs IHq]; intros c Hc; [reflexivity|]. cbn [number filter snd]. replace (Z.eqb c a) with false by (symmetry; apply Z.eqb_neq; lia). apply IHq. lia. }
    apply G. lia.
  - apply Z.eqb_neq in E. apply IH. lia.
Qed.

(** ** Lines *)
Fixpoint flines (s acc : text) : list text :=
  match s with [] => emit acc | c :: r => if Ascii.eqb c newline then acc :: flines r [] else flines r (acc ++ [c]) end.
Lemma flines_free t : forall acc, ~ In newline t -> flines t acc = emit (acc ++ t).
Proof.
  induction t as [|c t IH]; intros acc H; cbn.
  - now rewrite app_nil_r.
  - rewrite ascii_eqb_false by (intros ->; apply H; now left). rewrite IH by (intros X; apply H; now right). now rewrite <- app_assoc.
Qed.
Lemma flines_app t r : forall acc, ~ In newline t -> flines (t ++ newline :: r) acc = (acc ++ t) :: flines r [].
Proof.
  induction t as [|c t IH]; intros acc H; cbn.
  - now rewrite app_nil_r.
  - change "010"%char with newline. rewrite ascii_eqb_false by (intros ->; apply H; now left). rewrite IH by (intros X; apply H; now right). now rewrite <- app_assoc.
Qed.
Lemma lines_flines s ls : lines s ls -> ls = flines s [].
Proof.
  induction 1 as [|p N F|p s ls F H IH].
  - reflexivity.
  - rewrite flines_free by exact F. cbn. now rewrite emit_nonempty.
  - change "010"%char with newline. rewrite flines_app by exact F. cbn [app]. now f_equal.
Qed.
Lemma flines_lines : forall s, lines s (flines s []).
Proof.
  intros s. remember (length s) as n eqn:E. revert s E. induction n as [n IH] using lt_wf_ind. intros s ->.
  destruct (extract_spec newline s) as [t [F [[-> _]|[r [-> _]]]]].
  - rewrite flines_free by exact F. cbn [app]. destruct t as [|c t]; [constructor|]. cbn. constructor; [discriminate|exact F].
  - rewrite flines_app by exact F. cbn [app]. apply lines_more; [exact F|]. apply (IH (length r)); [rewrite app_length; cbn; lia|reflexivity].
Qed.

(** The lines a stream still has to deliver. *)
Definition rest_lines (st : stream) : list text := if st_good st then flines (st_rest st) [] else [].
Lemma getline_lines st line : match rest_lines st with
  | [] => exists l st', getline newline st line = (false, l, st') /\ rest_lines st' = [] /\ length (st_rest st') <= length (st_rest st)
  | l :: r => exists st', getline newline st line = (true, l, st') /\ rest_lines st' = r /\ length (st_rest st') < length (st_rest st)
  end.
Proof.
  destruct st as [rest good]. unfold rest_lines, getline. cbn [st_good st_rest]. destruct good.
  - destruct (extract_spec newline rest) as [t [F [[-> X]|[r [-> X]]]]]; rewrite X.
    + rewrite flines_free by exact F. cbn [app]. destruct t as [|c t]; cbn [emit].
      * eexists. eexists. cbn. auto.
      * eexists. cbn. split; [reflexivity|]. cbn. split; [reflexivity|lia].
    + rewrite flines_app by exact F. cbn [app]. eexists. cbn. split; [reflexivity|]. cbn. split; [reflexivity|]. rewrite app_length. cbn. lia.
  - eexists. eexists. cbn. auto.
Qed.

Lemma skip_lines_spec : forall k st line, exists st' line', skip_lines k st line = (st', line') /\ rest_lines st' = skipn k (rest_lines st).
Proof.
  induction k as [|k IH]; intros st line; [exists st, line; now split|]. cbn [skip_lines].
  pose proof (getline_lines st line) as G. destruct (rest_lines st) as [|l r].
  - destruct G as [l [st' [E [R _]]]]. rewrite E. destruct (IH st' l) as [s2 [l2 [E2 R2]]]. exists s2, l2. split; [exact E2|].
    rewrite R2, R. now destruct k.
  - destruct G as [st' [E [R _]]]. rewrite E. destruct (IH st' l) as [s2 [l2 [E2 R2]]]. exists s2, l2. split; [exact E2|]. now rewrite R2, R.
Qed.

Lemma read_lines_spec comments : forall fuel max st line, length (st_rest st) < fuel ->
  read_lines fuel comments max st line = Ok (let rows := filter (fun l => negb (Ascii.eqb (hd nul l) comments)) (rest_lines st) in
    if (max <? 0)%Z then rows else firstn (Z.to_nat max) rows).
Proof.
  induction fuel as [|fuel IH]; intros max st line L; [lia|]. cbn [read_lines]. pose proof (getline_lines st line) as G.
  destruct (rest_lines st) as [|l r].
  - destruct G as [l [st' [E _]]]. rewrite E. cbn. destruct (max <? 0)%Z; [reflexivity|now rewrite firstn_nil].
  - destruct G as [st' [E [R Lt]]]. rewrite E. cbn [andb]. destruct (Z.eqb max 0) eqn:M; cbn [negb].
    + apply Z.eqb_eq in M. subst max. reflexivity.
    + apply Z.eqb_neq in M. cbn [filter]. destruct (Ascii.eqb (hd nul l) comments) eqn:C; cbn [negb].
      * rewrite IH by lia. rewrite R. reflexivity.
      * rewrite IH by lia. rewrite R. cbn [bind]. f_equal. cbv zeta. destruct (max <? 0)%Z eqn:N.
        -- apply Z.ltb_lt in N. replace (max - 1 <? 0)%Z with true by (symmetry; apply Z.ltb_lt; lia). reflexivity.
        -- apply Z.ltb_ge in N. replace (max - 1 <? 0)%Z with false by (symmetry; apply Z.ltb_ge; lia).
           replace (Z.to_nat max) with (S (Z.to_nat (max - 1))) by lia. reflexivity.
Qed.

Lemma iterate_file_spec content ls comments skip max : lines content ls ->
  iterate_file (Some content) comments skip max = Ok (counted comments skip max ls).
Proof.
  intros H. apply lines_flines in H. unfold iterate_file. destruct (skip_lines_spec (Z.to_nat skip) (Stream content true) []) as [st [line [E R]]].
  rewrite E, read_lines_spec by lia. rewrite R. unfold rest_lines. cbn [st_good st_rest]. rewrite <- H. reflexivity.
Qed.

(** ** Rows *)
Lemma map_outcome_ok {A B} (f : A -> outcome B) (g : A -> B) l : (forall x, In x l -> f x = Ok (g x)) -> map_outcome f l = Ok (map g l).
Proof.
  induction l as [|x l IH]; intros H; [reflexivity|]. cbn. rewrite H by now left. cbn. rewrite IH by (intros y I; apply H; now right). reflexivity.
Qed.

Section Rows.
Context {V : Type} (num : text -> outcome V).

Lemma push_plain (f : text -> V) : forall calls vec len, (forall p, In p (map fst calls) -> num p = Ok (f p)) ->
  push_tokens num vec calls len [] [] = Ok (vec ++ map f (map fst calls), (len + Z.of_nat (length calls))%Z).
Proof.
  induction calls as [|[p c] calls IH]; intros vec len H; cbn [push_tokens map fst length].
  - rewrite app_nil_r. do 2 f_equal. lia.
  - unfold convert. cbn [is_nil negb]. rewrite H by now left. cbn [bind]. rewrite IH by (intros q Hq; apply H; now right).
    rewrite <- app_assoc. cbn [app]. do 2 f_equal. lia.
Qed.

(** [rows]: the chosen cells of each line. *)
Lemma load_rows_ok (f : text -> V) sep usecols m : forall lns rows res, 
  Forall2 (fun l cells => iterate_line l sep usecols = Ok cells /\ length cells = m /\ forall p, In p (map fst cells) -> num p = Ok (f p)) lns rows ->
  forall first nc, first = true \/ nc = Z.of_nat m ->
  load_rows num sep usecols [] [] lns res first nc = Ok (res ++ concat (map (fun cells => map f (map fst cells)) rows), match lns with [] => nc | _ => Z.of_nat m end).
Proof.
  induction lns as [|l lns IH]; intros rows res H first nc HF.
  - inversion H; subst. cbn. now rewrite app_nil_r.
  - inversion H as [|? cells ? rows' [E [L N]] H']; subst. cbn [load_rows]. unfold push_string_to_vector. rewrite E. cbn [bind].
    rewrite (push_plain f) by exact N. cbn [bind]. rewrite Z.add_0_l.
    assert (X : load_rows num sep usecols [] [] lns (res ++ map f (map fst cells)) false (Z.of_nat (length cells)) =
      Ok (res ++ concat (map (fun cells0 => map f (map fst cells0)) (cells :: rows')), Z.of_nat (length cells))).
    { rewrite (IH rows') by (auto). cbn [map concat]. rewrite app_assoc. now destruct lns. }
    destruct first; [exact X|]. destruct HF as [HF| ->]; [discriminate|]. rewrite Z.eqb_refl. cbn [require]. exact X.
Qed.

(** A row of another length stops the program. *)
Lemma load_rows_ragged (f : text -> V) sep usecols : forall lns rows res m,
  Forall2 (fun l cells => iterate_line l sep usecols = Ok cells /\ forall p, In p (map fst cells) -> num p = Ok (f p)) lns rows ->
  (exists cells, In cells rows /\ length cells <> m) -> load_rows num sep usecols [] [] lns res false (Z.of_nat m) = RequireFail.
Proof.
  induction lns as [|l lns IH]; intros rows res m H [bad [B1 B2]].
  - inversion H; subst. destruct B1.
  - inversion H as [|? cells ? rows' [E N] H']; subst. cbn [load_rows]. unfold push_string_to_vector. rewrite E. cbn [bind].
    rewrite (push_plain f) by exact N. cbn [bind]. rewrite Z.add_0_l. destruct (Z.eqb (Z.of_nat (length cells)) (Z.of_nat m)) eqn:Q; [|reflexivity].
    apply Z.eqb_eq in Q. cbn [require]. apply (IH rows'); [exact H'|]. destruct B1 as [->|B1]; [lia|]. exists bad. now split.
Qed.
End Rows.

Lemma concat_chunk {A} (rows : list (list A)) m : Forall (fun r => length r = m) rows ->
  length (concat rows) = length rows * m /\
  forall i j r, nth_error rows i = Some r -> j < m -> nth_error (concat rows) (i * m + j) = nth_error r j.
Proof.
  induction 1 as [|r rows H F [L IH]]; [split; [reflexivity|intros [|i] j r; discriminate]|]. cbn [concat length]. split; [rewrite app_length; lia|].
  intros [|i] j r' E J; cbn [nth_error] in E.
  - injection E as <-. cbn [Nat.mul Nat.add]. apply nth_error_app1. lia.
  - rewrite nth_error_app2 by lia. replace (S i * m + j - length r) with (i * m + j) by lia. apply IH; assumption.
Qed.

Lemma nth_error_eq_map {A} (l : list A) n (f : nat -> outcome A) : length l = n -> (forall i x, nth_error l i = Some x -> f i = Ok x) ->
  map_outcome f (seq 0 n) = Ok l.
Proof.
  intros <-. assert (G : forall l k, (forall i x, nth_error l i = Some x -> f (k + i) = Ok x) -> map_outcome f (seq k (length l)) = Ok l).
  { clear l. induction l as [|x l IH]; intros k H; [reflexivity|]. cbn [length seq map_outcome]. rewrite <- (Nat.add_0_r k), (H 0 x eq_refl). cbn [bind].
    rewrite Nat.add_0_r, IH; [reflexivity|]. intros i y E. replace (S k + i) with (k + S i) by lia. apply H. exact E. }
  intros H. apply G. exact H.
Qed.

(** The matrix built from the concatenated rows is the list of rows. *)
Lemma matrix_rows {V} (rows : list (list V)) m : Forall (fun r => length r = m) rows -> m <> 0 ->
  (let data := concat rows in let num_cols := Z.of_nat m in
   if Z.eqb num_cols 0 then UB
   else let rows := Z.to_nat (Z.quot (Z.of_nat (length data)) num_cols) in let cols := Z.to_nat num_cols in
    map_outcome (fun i => map_outcome (fun j => at_ub data (i * cols + j)) (seq 0 cols)) (seq 0 rows)) = Ok rows.
Proof.
  intros F M. destruct (concat_chunk F) as [L C]. cbv zeta. replace (Z.eqb (Z.of_nat m) 0) with false by (symmetry; apply Z.eqb_neq; lia).
  rewrite L, Nat2Z.inj_mul, Z.quot_mul, !Nat2Z.id by lia. apply nth_error_eq_map; [reflexivity|]. intros i r E.
  apply nth_error_eq_map; [rewrite Forall_forall in F; apply F; now apply nth_error_In in E|]. intros j x X.
  unfold at_ub. assert (J : j < m). { rewrite Forall_forall in F. rewrite <- (F r) by now apply nth_error_In in E. apply nth_error_Some. congruence. }
  rewrite (C i j r E J), X. reflexivity.
Qed.
