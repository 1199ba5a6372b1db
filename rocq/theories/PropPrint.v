(** Properties C89-C93: printing arrays and numbers (scicpp/core/print.hpp) *)
From Coq Require Import ZArith QArith Qabs Ascii String.
From Verif Require Import Base BaseFl FlFacts Functional FunctionalProofs Stats StatsOrder Io IoFacts IoNumber IoNumberFacts IoPrint IoPrintFacts
  Print PrintSpec PrintFacts PrintFacts2 PrintFacts3 PrintFacts4.
From Coq Require Import Lqa.
Open Scope Z_scope.
Set Implicit Arguments.
Notation length := List.length.

(** the texts chosen by the user: a separator of white space; words for NaN and infinity that do not end in the digit 0 *)
Definition sane (o : print_options) : Prop := blank (separator o) /\ plain (nanstr o) /\ plain (infstr o).
Lemma default_sane : sane default_options.
Proof. repeat split; try discriminate; repeat constructor. Qed.

(** ** C89: every element can be read in the text *)
(** an array of doubles: brackets around one word per element, in order; each word shows its element with the chosen precision *)
Theorem C89_reals_partial o a : sane o -> (1 <= precision o)%nat -> (length a <= threshold o)%nat ->
  exists body fixed, array2string print_reals o a = Ok (["["%char] ++ body ++ ["]"%char; newline]) /\
    (suppress o = true -> fixed = true) /\
    Forall2 (fun w v => shows fixed (precision o) (nanstr o) (infstr o) w v) (words body) a.
Proof.
  intros S P L. set (fixed := suppress o || negb (sci_real a)).
  destruct (@array_words fl print_reals o (proj1 S) (fun w v => shows fixed (precision o) (nanstr o) (infstr o) w v) a L) as [body [E F]].
  { apply Forall_forall. intros v _. apply real_element; [exact S|now left]. }
  exists body, fixed. split; [exact E|]. split; [|exact F]. unfold fixed. now intros ->.
Qed.
Print Assumptions C89_reals_partial.
(** complex numbers, with any precision *)
Theorem C89_complexes o a : sane o -> (length a <= threshold o)%nat ->
  exists body fixed, array2string print_complexes o a = Ok (["["%char] ++ body ++ ["]"%char; newline]) /\
    (suppress o = true -> fixed = true) /\
    Forall2 (fun w z => shows_complex fixed (precision o) (nanstr o) (infstr o) w z) (words body) a.
Proof.
  intros S L. set (fixed := suppress o || negb (sci_real (map fst a) || sci_real (map snd a))).
  destruct (@array_words _ print_complexes o (proj1 S) (fun w z => shows_complex fixed (precision o) (nanstr o) (infstr o) w z) a L) as [body [E F]].
  { apply Forall_forall. intros v _. apply complex_element. exact S. }
  exists body, fixed. split; [exact E|]. split; [|exact F]. unfold fixed. now intros ->.
Qed.
Print Assumptions C89_complexes.
(** integers that do not end in 0 are printed exactly *)
Theorem C89_ints_partial o a : sane o -> (length a <= threshold o)%nat -> Forall (fun n => n mod 10 <> 0) a ->
  exists body, array2string print_ints o a = Ok (["["%char] ++ body ++ ["]"%char; newline]) /\
    Forall2 (fun w n => exists v, number_text w v /\ (v == inject_Z n)%Q) (words body) a.
Proof.
  intros S L F. apply (@array_words _ print_ints o (proj1 S) (fun w n => exists v, number_text w v /\ (v == inject_Z n)%Q) a L).
  apply Forall_forall. intros n H. rewrite Forall_forall in F. specialize (F n H). exists (print_int n). split; [|apply print_int_number].
  cbn [put width print_ints scientific]. rewrite orb_true_r. now apply int_element.
Qed.
Print Assumptions C89_ints_partial.
(** the zeros at the end of an integer disappear: 100 is printed as 1, and 0 as nothing *)
Theorem C89_ints_refuted : exists body, array2string print_ints default_options [100; 7; 0] = Ok (["["%char] ++ body ++ ["]"%char; newline]) /\
  words body = [tx "1"; tx "7"].
Proof. eexists. split; [reflexivity|]. vm_compute. reflexivity. Qed.
Print Assumptions C89_ints_refuted.
(** the same happens to doubles printed without decimals *)
Theorem C89_reals_refuted : exists o body, sane o /\ precision o = 0%nat /\
  array2string print_reals o [Fin (qz 100); Fin (qz 250)] = Ok (["["%char] ++ body ++ ["]"%char; newline]) /\ words body = [tx "1"; tx "25"].
Proof.
  exists {| separator := tx " "; precision := 0; threshold := 1000; linewidth := 75; edgeitems := 3; suppress := false; nanstr := tx "nan"; infstr := tx "inf" |}.
  eexists. split; [exact default_sane|]. split; [reflexivity|]. split; [reflexivity|]. vm_compute. reflexivity.
Qed.
Print Assumptions C89_reals_refuted.
Example C89_nonvacuous : sane default_options /\ (1 <= precision default_options)%nat /\
  array2string print_reals default_options [Fin (Q2Qc (3 # 2)); NaN; NInf; Fin (- qz 40)%Qc] =
  Ok (tx "[  1.5                 nan            -inf -40.        ]" ++ [newline]).
Proof. split; [exact default_sane|]. split; [cbn; lia|]. vm_compute. reflexivity. Qed.

(** ** C90: choice of the notation *)
(** the letter e of scientific notation appears exactly if it was not suppressed and the magnitudes are small or spread; without NaN *)
Theorem C90_notation_partial o a : ~ In "e"%char (nanstr o) -> ~ In "e"%char (infstr o) -> ~ In "e"%char (separator o) -> (length a <= threshold o)%nat -> ~ In NaN a ->
  exists t, array2string print_reals o a = Ok t /\ (In "e"%char t <-> suppress o = false /\ wide_range a).
Proof.
  intros N I S TH NN. destruct (array_e o a N I S TH) as [t [E H]]. exists t. split; [exact E|]. change "e"%char with ee. rewrite H.
  assert (NF : ~ nan_first a) by (intros [pre [post [-> _]]]; apply NN; apply in_or_app; right; now left).
  rewrite (proj2 (sci_real_spec a) NF). split; [tauto|]. intros [X Y]. split; [exact X|]. split; [exact Y|]. destruct Y as [x [Y _]]. eauto.
Qed.
Print Assumptions C90_notation_partial.
(** with NaN: the exact rule *)
Theorem C90_with_nan o a : ~ In "e"%char (nanstr o) -> ~ In "e"%char (infstr o) -> ~ In "e"%char (separator o) -> (length a <= threshold o)%nat ->
  exists t, array2string print_reals o a = Ok t /\ (In "e"%char t <-> suppress o = false /\ ~ nan_first a /\ wide_range a).
Proof.
  intros N I S TH. destruct (array_e o a N I S TH) as [t [E H]]. exists t. split; [exact E|]. change "e"%char with ee. rewrite H.
  destruct (sci_real_spec a) as [S1 S2]. split.
  - intros [X [Y _]]. assert (NF : ~ nan_first a) by (intros K; rewrite (S1 K) in Y; discriminate Y). split; [exact X|]. split; [exact NF|]. now apply S2.
  - intros [X [NF Y]]. split; [exact X|]. split; [now apply S2|]. destruct Y as [x [Y _]]. eauto.
Qed.
Print Assumptions C90_with_nan.
(** the order of the elements matters: a NaN in front hides the small values, which are printed as 0 *)
Theorem C90_refuted : exists x body1 body2, wide_range [NaN; Fin x] /\ wide_range [Fin x; NaN] /\
  array2string print_reals default_options [NaN; Fin x] = Ok (["["%char] ++ body1 ++ ["]"%char; newline]) /\ words body1 = [tx "nan"; tx "0."] /\
  array2string print_reals default_options [Fin x; NaN] = Ok (["["%char] ++ body2 ++ ["]"%char; newline]) /\ words body2 = [tx "1.00000000e-09"; tx "nan"].
Proof.
  exists (Q2Qc (1 # 1000000000)), (tx "         nan   0.        "), (tx "1.00000000e-09          nan").
  assert (M : (magnitude (Q2Qc (1 # 1000000000)) < tenth_milli)%Qc) by reflexivity.
  split; [exists (Q2Qc (1 # 1000000000)); split; [right; now left|]; split; [intros H; apply (f_equal this) in H; discriminate H|now left]|].
  split; [exists (Q2Qc (1 # 1000000000)); split; [now left|]; split; [intros H; apply (f_equal this) in H; discriminate H|now left]|].
  split; [vm_compute; reflexivity|]. split; [vm_compute; reflexivity|]. split; [vm_compute; reflexivity|]. vm_compute. reflexivity.
Qed.
Print Assumptions C90_refuted.
Example C90_nonvacuous : wide_range [Fin (qz 1); Fin (qz 2000)] /\ ~ wide_range [Fin (qz 2); Fin (qz 2000)].
Proof.
  split.
  - exists (qz 1). split; [now left|]. split; [discriminate|]. right. exists (qz 2000). split; [right; now left|]. split; [discriminate|reflexivity].
  - intros [x [X [_ H]]]. assert (X' : x = qz 2 \/ x = qz 2000) by (destruct X as [X|[X|[]]]; [left|right]; congruence).
    destruct H as [H|[y [Y [_ H]]]]; [destruct X' as [-> | ->]; discriminate H|].
    assert (Y' : y = qz 2 \/ y = qz 2000) by (destruct Y as [Y|[Y|[]]]; [left|right]; congruence).
    destruct X' as [-> | ->], Y' as [-> | ->]; discriminate H.
Qed.

(** ** C91: width of the lines *)
(** magnitudes below 10^k, not smaller than any double *)
Definition in_range (k : Z) (v : fl) : Prop :=
  match v with Fin q => (Qabs (this q) < inject_Z (10 ^ k))%Q /\ (q = 0%Qc \/ (/ inject_Z (10 ^ 999) <= Qabs (this q))%Q) | _ => True end.
Theorem C91_reals_partial o c k a : separator o = [c] -> c <> newline -> c <> nul -> one_line (nanstr o) -> one_line (infstr o) -> (length a <= threshold o)%nat ->
  0 <= k <= 999 -> Forall (in_range k) a ->
  14 <= linewidth o -> k + Z.of_nat (precision o) + 5 <= linewidth o -> Z.of_nat (precision o) + 10 <= linewidth o ->
  len (nanstr o) + 2 <= linewidth o -> len (infstr o) + 14 <= linewidth o ->
  exists t, array2string print_reals o a = Ok t /\ Forall (fun l => len l <= linewidth o) (lines t).
Proof.
  intros S N1 N2 ON OI TH K R W1 W2 W3 W4 W5.
  assert (OS : one_line (separator o)) by (rewrite S; intros [H|[]]; congruence).
  assert (CS : cstr (separator o) = separator o) by (apply cstr_free; rewrite S; intros [H|[]]; congruence).
  destruct (@array_lines fl print_reals o OS CS a TH) as [t [E F]]; [|lia|].
  - intros fixed v H. unfold element_text. cbn [put width print_reals]. rewrite len_element. rewrite Forall_forall in R. specialize (R v H).
    destruct (@real_len o fixed v k K) as [L1 L2]; [intros q ->; exact R|exact ON|exact OI|]. split; [now apply one_line_element|lia].
  - exists t. split; [exact E|]. rewrite S in F. change (len [c]) with 1 in F. eapply Forall_impl; [|exact F]. cbv beta. intros l H. lia.
Qed.
Print Assumptions C91_reals_partial.
(** ints: lines no longer than the limit, and a single line if the array fits *)
Theorem C91_ints_partial o c a : separator o = [c] -> c <> newline -> c <> nul -> (length a <= threshold o)%nat -> Forall (fun n => - 2 ^ 31 <= n < 2 ^ 31) a -> 14 <= linewidth o ->
  exists t, array2string print_ints o a = Ok t /\ Forall (fun l => len l <= linewidth o) (lines t) /\
    (13 * Z.of_nat (length a) < linewidth o -> exists l, t = l ++ [newline] /\ one_line l).
Proof.
  intros S N1 N2 TH R W.
  assert (OS : one_line (separator o)) by (rewrite S; intros [H|[]]; congruence).
  assert (CS : cstr (separator o) = separator o) by (apply cstr_free; rewrite S; intros [H|[]]; congruence).
  assert (EL : forall fixed x, In x a -> one_line (element_text print_ints o fixed x) /\ len (element_text print_ints o fixed x) <= 12).
  { intros fixed n H. unfold element_text. cbn [put width print_ints]. rewrite len_element. rewrite Forall_forall in R. destruct (int_len (R n H)) as [L1 L2]. split; [now apply one_line_element|lia]. }
  destruct (@array_lines Z print_ints o OS CS a TH) as [t [E F]]; [intros f x H; destruct (EL f x H); split; [assumption|lia]|lia|].
  exists t. split; [exact E|]. split.
  - rewrite S in F. change (len [c]) with 1 in F. eapply Forall_impl; [|exact F]. cbv beta. intros l H. lia.
  - intros B. destruct (@array_fits Z print_ints o 12 a OS CS TH EL) as [l [E2 O]]; [rewrite S; change (len [c]) with 1; lia|]. rewrite E in E2. injection E2 as ->. eauto.
Qed.
Print Assumptions C91_ints_partial.
(** a summarised array can overrun the limit, by the text of the dots, however short its elements *)
Theorem C91_summary_refuted : exists o a t, sane o /\ separator o = tx " " /\ linewidth o = 66 /\ Forall (fun n => 0 < n < 10) a /\
  array2string print_ints o a = Ok t /\ Exists (fun l => linewidth o + 4 = len l) (lines t).
Proof.
  exists {| separator := tx " "; precision := 8; threshold := 6; linewidth := 66; edgeitems := 5; suppress := false; nanstr := tx "nan"; infstr := tx "inf" |}.
  exists (repeat 1 11). eexists. split; [exact default_sane|]. split; [reflexivity|]. split; [reflexivity|]. split; [repeat constructor; lia|].
  split; [reflexivity|]. constructor. vm_compute. reflexivity.
Qed.
Print Assumptions C91_summary_refuted.
(** and never by more than the dots and two separators *)
Theorem C91_summary_ints_partial o a : one_line (separator o) -> ~ In nul (separator o) -> (threshold o < length a)%nat -> (2 * edgeitems o < length a)%nat ->
  Forall (fun n => - 2 ^ 31 <= n < 2 ^ 31) a -> 14 <= linewidth o ->
  exists t, array2string print_ints o a = Ok t /\ Forall (fun l => len l <= linewidth o + 3 + 2 * len (separator o)) (lines t).
Proof.
  intros OS NS TH E R W. apply array_lines_summary; [exact OS|now apply cstr_free|exact TH|exact E| |lia].
  intros fixed n H. unfold element_text. cbn [put width print_ints]. rewrite len_element. rewrite Forall_forall in R. destruct (int_len (R n H)) as [L1 L2]. split; [now apply one_line_element|lia].
Qed.
Print Assumptions C91_summary_ints_partial.
Example C91_nonvacuous : exists t, array2string print_ints default_options [1; 2; 3; 4; 5; 6; 7] = Ok t /\ map len (lines t) = [66; 27; 0].
Proof. eexists. split; [reflexivity|]. vm_compute. reflexivity. Qed.

(** ** C92: long arrays are summarised *)
(** more elements than the threshold: the first and last ones, with dots between *)
Theorem C92_summary_partial o a : sane o -> (1 <= precision o)%nat -> (threshold o < length a)%nat -> (2 * edgeitems o < length a)%nat ->
  exists body w1 w2 fixed first middle last, a = first ++ middle ++ last /\ length first = edgeitems o /\ length last = edgeitems o /\
    array2string print_reals o a = Ok (["["%char] ++ body ++ ["]"%char; newline]) /\ words body = w1 ++ [tx "..."] ++ w2 /\
    Forall2 (fun w v => shows fixed (precision o) (nanstr o) (infstr o) w v) w1 first /\
    Forall2 (fun w v => shows fixed (precision o) (nanstr o) (infstr o) w v) w2 last.
Proof.
  intros S P L E. set (n := edgeitems o) in *. set (first := firstn n a). set (lst := skipn (length a - n) a).
  set (fixed := suppress o || negb (sci_real first || sci_real lst)).
  destruct (@array_words_summary fl print_reals o (proj1 S) (fun w v => shows fixed (precision o) (nanstr o) (infstr o) w v) a L E) as [body [w1 [w2 [H1 [H2 [H3 H4]]]]]].
  { apply Forall_forall. intros v _. apply real_element; [exact S|now left]. }
  exists body, w1, w2, fixed, first, (skipn n (firstn (length a - n) a)), lst.
  split; [|split; [unfold first; rewrite firstn_length; lia|split; [unfold lst; rewrite skipn_length; lia|repeat split; assumption]]].
  rewrite <- (firstn_skipn (length a - n) a) at 1. fold lst. rewrite app_assoc. f_equal.
  rewrite <- (firstn_skipn n (firstn (length a - n) a)) at 1. f_equal. rewrite firstn_firstn. unfold first. f_equal. lia.
Qed.
Print Assumptions C92_summary_partial.
(** with more elements than the threshold but no more than twice edgeitems, printing fails *)
Theorem C92_refuted : exists o a, sane o /\ (threshold o < length a)%nat /\ array2string print_ints o a = RequireFail.
Proof.
  exists {| separator := tx " "; precision := 8; threshold := 4; linewidth := 75; edgeitems := 3; suppress := false; nanstr := tx "nan"; infstr := tx "inf" |}.
  exists [1; 2; 3; 4; 5]. split; [exact default_sane|]. split; [cbn; lia|reflexivity].
Qed.
Print Assumptions C92_refuted.
(** for every element type: the only failure is this one *)
Theorem C92_failure {T} (K : printable T) o a : array2string K o a = RequireFail <-> (threshold o < length a <= 2 * edgeitems o)%nat.
Proof.
  destruct a as [|x a]; [cbn; split; [discriminate|lia]|]. cbn [array2string]. set (A := x :: a).
  destruct (Nat.leb_spec (length A) (threshold o)) as [H|H]; [split; [discriminate|lia]|]. unfold require.
  destruct (Nat.ltb_spec (2 * edgeitems o) (length A)) as [G|G]; [|split; [intros _; lia|reflexivity]].
  destruct (print_array_elements _ _ _ _ _) as [t0 p]. split; [discriminate|lia].
Qed.
Print Assumptions C92_failure.
Example C92_nonvacuous : exists t, array2string print_ints default_options (map (fun i => 2 * Z.of_nat i + 1) (seq 0 1002)) = Ok t /\
  words t = [tx "["; tx "1"; tx "3"; tx "5"; tx "..."; tx "1999"; tx "2001"; tx "2003]"].
Proof. eexists. split; [vm_compute; reflexivity|]. vm_compute. reflexivity. Qed.

(** ** C93: printing one number *)
Theorem C93_finite_partial q : exists t v, print_scalar (Fin q) = Ok t /\ (exists w, words t = [w] /\ number_text w v) /\ close false 8 v (this q).
Proof.
  cbn [print_scalar]. cbn [put_real]. change (precision default_options) with 8%nat. destruct (scientific_number 8 (this q)) as [v [W [N C]]].
  eexists. exists v. split; [reflexivity|]. split; [|exact C]. eexists. split; [|exact N].
  rewrite words_app_space by reflexivity. rewrite (holds_word_words (pad_holds 12 W)). reflexivity.
Qed.
Print Assumptions C93_finite_partial.
(** NaN and the infinities read the options through a dangling reference *)
Theorem C93_refuted : print_scalar NaN = UB /\ print_scalar PInf = UB /\ print_scalar NInf = UB.
Proof. repeat split. Qed.
Print Assumptions C93_refuted.
Example C93_nonvacuous : print_scalar (Fin (Q2Qc (- 5 # 4))) = Ok (tx "-1.25000000e+00" ++ [newline]).
Proof. vm_compute. reflexivity. Qed.
