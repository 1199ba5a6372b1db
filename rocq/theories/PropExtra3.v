(** C59 for string fields, C89 for arrays of tuples and pairs (scicpp/core/print.hpp). *)
From Coq Require Import ZArith QArith Qabs Ascii String.
From Verif Require Import Base BaseFl FlFacts Functional FunctionalProofs Stats StatsOrder Io IoFacts IoNumber IoNumberFacts IoPrint IoPrintFacts
  Print PrintSpec PrintFacts PrintFacts2 PrintFacts3 PrintFacts4 PropPrint.
From Coq Require Import Lqa.
Open Scope Z_scope.
Set Implicit Arguments.
Notation length := List.length.

(** the characters of a text that are not white space *)
Definition visible (s : text) : text := filter (fun c => negb (is_space c)) s.
(** words separated by commas *)
Fixpoint commas (ws : list text) : text :=
  match ws with [] => [] | [w] => w | w :: r => w ++ ","%char :: commas r end.
(** (w1,w2,...) *)
Definition parenthesised (ws : list text) : text := "("%char :: commas ws ++ [")"%char].
(** a word shows an element of a tuple: an int exactly, a double with the chosen precision *)
Definition shows_item (o : print_options) (w : text) (i : item) : Prop :=
  match i with
  | IInt n => exists v, number_text w v /\ (v == inject_Z n)%Q
  | IReal v => shows (suppress o) (precision o) (nanstr o) (infstr o) w v
  end.

Lemma visible_app a b : visible (a ++ b) = visible a ++ visible b. Proof. apply filter_app. Qed.
Lemma visible_spaces s : Forall (fun c => is_space c = true) s -> visible s = [].
Proof. induction 1 as [|c s H F IH]; [reflexivity|]. cbn. now rewrite H. Qed.
Lemma visible_word w : Forall (fun c => is_space c = false) w -> visible w = w.
Proof. induction 1 as [|c s H F IH]; [reflexivity|]. cbn. rewrite H. cbn. f_equal. exact IH. Qed.
Lemma visible_elements o : blank (separator o) -> forall strs sep0 pos, sep0 = [] \/ sep0 = separator o ->
  visible (fst (print_elements sep0 o strs pos)) = concat (map visible strs).
Proof.
  intros B. induction strs as [|s strs IH]; intros sep0 pos S; [reflexivity|].
  cbn [print_elements]. set (pos1 := pos + _ + _).
  assert (E : exists pre q, (if linewidth o <=? pos1 then (newline :: " "%char :: s, 1 + Z.of_nat (length s)) else (s, pos1)) = (pre ++ s, q) /\ Forall (fun c => is_space c = true) pre).
  { destruct (linewidth o <=? pos1); [exists [newline; " "%char]|exists []]; eexists; (split; [reflexivity|repeat constructor]). }
  destruct E as [pre [q [-> P]]]. specialize (IH (separator o) q (or_intror eq_refl)).
  destruct (print_elements (separator o) o strs q) as [t p] eqn:Et. cbn [fst] in IH |- *.
  rewrite !visible_app, IH. rewrite (visible_spaces P). cbn [app map concat].
  assert (visible (cstr sep0) = []) as ->; [|reflexivity].
  destruct S as [-> | ->]; [reflexivity|]. rewrite blank_cstr by exact B. apply visible_spaces, B.
Qed.

Lemma item_word o i : sane o -> exists w, put_item o (suppress o) i = w /\ visible w = w /\ shows_item o w i.
Proof.
  intros S. eexists. split; [reflexivity|]. destruct i as [n|v]; cbn [put_item shows_item].
  - unfold put_int, pad. replace (Z.to_nat (0 - Z.of_nat (length (print_int n)))) with O by lia. cbn [repeat app].
    destruct (print_int_number n) as [W N]. split; [apply visible_word, W|exact N].
  - destruct (@put_real_word o (suppress o) 0 v S) as (t & k & E & W & K & Sh). rewrite E, (K (Z.le_refl 0)). cbn [repeat app]. split; [apply visible_word, W|exact Sh].
Qed.
Lemma items_word o t : sane o -> exists ws, visible (put_items o (suppress o) t) = commas ws /\ Forall2 (shows_item o) ws t.
Proof.
  intros S. induction t as [|i t [ws [IH F]]]; [exists []; split; [reflexivity|constructor]|].
  destruct (item_word i S) as (w & E & V & Sh). exists (w :: ws). split; [|now constructor].
  destruct t as [|j t].
  - inversion F. subst. cbn [put_items commas]. exact V.
  - inversion F as [|w' j' ws' t' H1 H2 E1 E2]. subst ws. change (put_items o (suppress o) (i :: j :: t)) with (put_item o (suppress o) i ++ tx ", " ++ put_items o (suppress o) (j :: t)).
    change (commas (w :: w' :: ws')) with (w ++ ","%char :: commas (w' :: ws')). rewrite !visible_app, IH, E, V. reflexivity.
Qed.
Lemma close_paren fixed s : element_str fixed (s ++ tx ")") = s ++ tx ")".
Proof. destruct fixed; [|reflexivity]. apply remove_last. discriminate. Qed.

Section Both.
Context {T : Type} (K : printable T) (items : T -> list item) (o : print_options).
Hypothesis SCI : forall a, scientific K a = true.
Hypothesis PUT : forall w x, exists pre, Forall (fun c => is_space c = true) pre /\
  put K o (suppress o) w x = pre ++ tx "(" ++ put_items o (suppress o) (items x) ++ tx ")".
Hypothesis S : sane o.
Lemma elements_visible a pos : exists wss, visible (fst (print_array_elements K o (suppress o) a pos)) = concat (map parenthesised wss) /\
  Forall2 (fun ws x => Forall2 (shows_item o) ws (items x)) wss a.
Proof.
  unfold print_array_elements. rewrite (@visible_elements o (proj1 S)) by now left. rewrite map_map. clear pos.
  induction a as [|x a [wss [IH F]]]; [exists []; split; [reflexivity|constructor]|].
  destruct (items_word (items x) S) as (ws & E & Sh). exists (ws :: wss). split; [|now constructor]. cbn [map concat]. rewrite IH. f_equal.
  destruct (PUT (width K (suppress o)) x) as (pre & P & ->). rewrite !app_assoc, close_paren, <- !app_assoc. rewrite !visible_app, E, (visible_spaces P). reflexivity.
Qed.
Lemma array_visible a : (length a <= threshold o)%nat -> exists body wss, array2string K o a = Ok (["["%char] ++ body ++ ["]"%char; newline]) /\
  visible body = concat (map parenthesised wss) /\ Forall2 (fun ws x => Forall2 (shows_item o) ws (items x)) wss a.
Proof.
  intros L. destruct a as [|x a]; [exists [], []; split; [reflexivity|split; [reflexivity|constructor]]|]. unfold array2string.
  rewrite (proj2 (Nat.leb_le _ _) L). rewrite SCI, orb_false_r. destruct (elements_visible (x :: a) 1) as (wss & E & F).
  eexists _, wss. split; [reflexivity|]. split; [exact E|exact F].
Qed.
End Both.

(** tuples of ints and doubles: each is written between parentheses, with its elements in order and separated by commas; white space is not counted.
    No condition on the precision: nothing is cut off at the end *)
Theorem C89_tuples o a : sane o -> (length a <= threshold o)%nat ->
  exists body wss, array2string print_tuples o a = Ok (["["%char] ++ body ++ ["]"%char; newline]) /\
    visible body = concat (map parenthesised wss) /\ Forall2 (Forall2 (shows_item o)) wss a.
Proof.
  intros S L. apply (@array_visible _ print_tuples (fun t => t) o); [reflexivity| |exact S|exact L].
  intros w x. exists []. split; [constructor|]. reflexivity.
Qed.
Print Assumptions C89_tuples.
Theorem C89_pairs o a : sane o -> (length a <= threshold o)%nat ->
  exists body wss, array2string print_pairs o a = Ok (["["%char] ++ body ++ ["]"%char; newline]) /\
    visible body = concat (map parenthesised wss) /\ Forall2 (fun ws t => Forall2 (shows_item o) ws [fst t; snd t]) wss a.
Proof.
  intros S L. apply (@array_visible _ print_pairs (fun t => [fst t; snd t]) o); [reflexivity| |exact S|exact L].
  intros w x. eexists. split; [apply spaces_repeat|]. cbn [print_pairs put]. unfold pad. rewrite <- !app_assoc. reflexivity.
Qed.
Print Assumptions C89_pairs.
Example C89_tuples_nonvacuous : array2string print_tuples default_options [[IInt 100; IReal (Fin (Q2Qc (3 # 2)))]; [IReal NInf]] =
  Ok (tx "[(100, 1.50000000e+00) (-inf)]" ++ [newline]) /\
  array2string print_pairs default_options [(IInt 1, IInt 20)] = Ok (tx "[           (1, 20)]" ++ [newline]).
Proof. vm_compute. split; reflexivity. Qed.

(** ** C59: a field read as a std::string is the piece of the line itself; only a NUL character ends it early *)
Theorem C59_string_fields : forall s t, (exists r, s = t ++ r /\ ~ In nul t /\ (r = [] \/ exists r', r = nul :: r')) <-> to_number_string s = Ok t.
Proof.
  intros s t. unfold to_number_string. split.
  - intros (r & -> & N & H). f_equal. apply cstr_before. destruct H as [-> | [r' ->]]; [rewrite app_nil_r|]; now constructor.
  - intros [= <-]. destruct (before_cstr s) as [p N|p r N].
    + exists []. rewrite app_nil_r. auto.
    + exists (nul :: r). eauto.
Qed.
Print Assumptions C59_string_fields.
Example C59_string_nonvacuous : to_number_string (tx " a b") = Ok (tx " a b") /\ to_number_string [] = Ok [].
Proof. split; reflexivity. Qed.
