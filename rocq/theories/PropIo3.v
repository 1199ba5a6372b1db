(** Properties C84 and C85 (scicpp/core/io.hpp): texts of complex and floating-point values.  Doubles are exact rationals. *)
From Coq Require Import ZArith QArith Qabs Ascii String.
From Verif Require Import Base Io IoSpec IoFacts IoFacts2 IoNumber IoNumberFacts IoFacts3 IoPrint IoPrintFacts PropIo PropIo2.
From Coq Require Import Lia Lqa.
Open Scope nat_scope.
Set Implicit Arguments.

Lemma F2_length {A B} (R : A -> B -> Prop) l l' : Forall2 R l l' -> length l = length l'.
Proof. induction 1 as [|x y l l' H F IH]; cbn; congruence. Qed.

(** ** C84 *)
(** print_f6 x: sign, integer digits, point, six digits; its value is x rounded to a multiple of 10^-6. *)
Lemma print_f6_shape x : exists ip fp n, print_f6 x = sign_text (negb_of x) ++ digits_text ip ++ frac_text fp /\ Forall digit_ok ip /\ ip <> [] /\ Forall digit_ok fp /\
  length fp = 6 /\ digits_value (ip ++ fp) = n /\ n = round_half_even (Qabs x * inject_Z 1000000).
Proof.
  set (n := round_half_even (Qabs x * inject_Z 1000000)).
  assert (P : (0 <= n)%Z).
  { assert (E : (0 <= round_half_even (Qabs x * inject_Z 1000000))%Z); [|exact E]. pose proof (round_half_even_spec (Qabs x * inject_Z 1000000)) as R. apply Qabs_Qle_condition in R.
    fold n in R |- *. assert (XP : (0 <= Qabs x * inject_Z 1000000)%Q) by (apply Qmult_le_0_compat; [apply Qabs_nonneg|discriminate]). assert (L : (- (1 # 1) < inject_Z n)%Q) by lra. change (- (1 # 1))%Q with (inject_Z (-1)) in L. rewrite <- Zlt_Qlt in L. lia. }
  destruct (decimal_digits_spec (n := (n / 1000000)%Z)) as [V [F N]]; [apply Z.div_pos; lia|]. destruct (@last_digits_spec 6 n P) as [V' [F' L']].
  exists (decimal_digits (n / 1000000)), (last_digits 6 n), n. split; [|split; [exact F|split; [exact N|split; [exact F'|split; [exact L'|split; [|reflexivity]]]]]].
  - unfold print_f6. fold n. change (rev (map (fun k => ((n / 10 ^ Z.of_nat k) mod 10)%Z) (seq 0 6))) with (last_digits 6 n). unfold sign_text, negb_of.
    destruct (last_digits 6 n) as [|d r] eqn:E; [discriminate L'|]. destruct (Qlt_le_dec x 0); reflexivity.
  - rewrite digits_value_app, V, V', L'. change (10 ^ Z.of_nat 6)%Z with 1000000%Z. pose proof (Z.div_mod n 1000000). lia.
Qed.
Definition near6 (y x : Q) : Prop := (Qabs (y - x) <= 1 # 2000000)%Q /\ (forall n, (x == inject_Z n / inject_Z 1000000)%Q -> (y == x)%Q).
Lemma scan_f6 x r : tail_value r 0 r -> exists y, scan_decimal (print_f6 x ++ r) = Some (y, r, true) /\ near6 y x.
Proof.
  intros R. destruct (print_f6_shape x) as [ip [fp [n [-> [Fi [N [Ff [L [V E]]]]]]]]]. rewrite <- !app_assoc, (@scan_decimal_text (negb_of x) ip fp r 0 r) by assumption.
  eexists. split; [reflexivity|]. rewrite L, V. change (0 - Z.of_nat 6)%Z with (-6)%Z. pose proof (negb_of_abs x) as S.
  assert (W : (inject_Z (signed (negb_of x) n) * pow10 (-6) == sgnQ (negb_of x) * (inject_Z n * (1 # 1000000)))%Q) by (rewrite signed_Q; change (pow10 (-6)) with (1 # 1000000)%Q; ring).
  split.
  - rewrite W. setoid_replace (sgnQ (negb_of x) * (inject_Z n * (1 # 1000000)) - x)%Q with (sgnQ (negb_of x) * ((inject_Z n - Qabs x * inject_Z 1000000) * (1 # 1000000)))%Q.
    2:{ rewrite <- S at 2. change (inject_Z 1000000) with 1000000%Q. ring. }
    rewrite Qabs_Qmult. setoid_replace (Qabs (sgnQ (negb_of x))) with 1%Q by (destruct (negb_of x); reflexivity). rewrite Qmult_1_l, Qabs_Qmult. rewrite (Qabs_pos (1 # 1000000)) by discriminate.
    pose proof (round_half_even_spec (Qabs x * inject_Z 1000000)) as B. rewrite <- E in B. lra.
  - intros k K. rewrite W. assert (Q : n = Z.abs k).
    { rewrite E. apply round_half_even_int. rewrite K. unfold Qdiv. rewrite Qabs_Qmult. change (Qabs (inject_Z k)) with (inject_Z (Z.abs k)). change (Qabs (/ inject_Z 1000000)) with (1 # 1000000)%Q.
      change (inject_Z 1000000) with 1000000%Q. ring. }
    rewrite <- S at 2. assert (A : (Qabs x == inject_Z n * (1 # 1000000))%Q).
    { rewrite K, Q. unfold Qdiv. rewrite Qabs_Qmult. reflexivity. }
    rewrite A. reflexivity.
Qed.
Lemma print_f6_chars x c : In c (print_f6 x) -> is_digit c = true \/ c = "-"%char \/ c = "."%char.
Proof.
  destruct (print_f6_shape x) as [ip [fp [n [-> [Fi [_ [Ff _]]]]]]]. intros H.
  assert (D : forall l, Forall digit_ok l -> In c (digits_text l) -> is_digit c = true) by (intros l F I; apply in_map_iff in I; destruct I as [d [<- I]]; rewrite Forall_forall in F; now apply is_digit_char, F).
  apply in_app_or in H. destruct H as [H|H]; [destruct (negb_of x); cbn in H; [|destruct H]; destruct H as [<-|[]]; auto|].
  apply in_app_or in H. destruct H as [H|H]; [left; now apply (D ip)|]. destruct fp as [|d fp]; [destruct H|]. destruct H as [<-|H]; [auto|left; now apply (D (d :: fp))].
Qed.
Lemma print_f6_nonempty x : print_f6 x <> [].
Proof.
  destruct (print_f6_shape x) as [ip [fp [n [-> [_ [N _]]]]]]. intros H. apply app_eq_nil in H. destruct H as [_ H]. apply app_eq_nil in H. destruct H as [H _]. apply map_eq_nil in H. auto.
Qed.
Lemma format_complex_chars z c : In c (format_complex z) -> is_digit c = true \/ In c ["-"; "."; "+"; "j"]%char.
Proof.
  unfold format_complex. intros H. apply in_app_or in H. destruct H as [H|H]; [apply print_f6_chars in H; cbn; destruct H as [H|[H|H]]; auto|].
  apply in_app_or in H. destruct H as [[<-|[]]|H]; [right; cbn; tauto|].
  apply in_app_or in H. destruct H as [H|[<-|[]]]; [apply print_f6_chars in H; cbn; destruct H as [H|[H|H]]; auto|right; cbn; tauto].
Qed.

(** The text savetxt writes for an element of a complex<double> array of a tuple is read back: real and imaginary parts to the nearest 10^-6, in all
    combinations of signs. *)
Theorem C84_complex_text : forall x y : Q, exists x' y', to_number_complex true (format_complex (x, y)) = Ok (Some (x', y')) /\ near6 x' x /\ near6 y' y.
Proof.
  intros x y. unfold to_number_complex. rewrite cstr_free.
  2:{ intros I. apply format_complex_chars in I. destruct I as [I|I]; [discriminate I|]. cbn in I. repeat (destruct I as [I|I]; [discriminate I|]). destruct I. }
  unfold format_complex. cbn [fst snd app].
  destruct (@scan_f6 x ("+"%char :: print_f6 y ++ ["j"%char])) as [x' [E X]]; [apply tail_end; repeat split; discriminate|].
  destruct (@scan_f6 y ["j"%char]) as [y' [E' Y]]; [apply tail_end; repeat split; discriminate|].
  exists x', y'. unfold scanf_double. rewrite E. change (Ascii.eqb "+" "+") with true. cbv iota beta. rewrite E'. split; [reflexivity|]. split; assumption.
Qed.
Print Assumptions C84_complex_text.
(** Hence columns of complex numbers make the round trip (C83_save_load) to the nearest 10^-6 in each part. *)
Theorem C84_complex_columns : forall (X : list (list (Q * Q))) (n : nat) (sep comment : ascii),
  is_digit sep = false -> ~ In sep ["-"; "."; "+"; "j"]%char -> sep <> nul -> sep <> newline -> not_in_int comment -> comment <> "."%char -> X <> [] -> (forall xs, In xs X -> length xs = n) ->
  exists content X', savetxt_tuple (map (fun _ z => match z with Some z => format_complex z | None => [] end) X) (map (map (@Some (Q * Q))) X) sep newline = Ok content /\
    load_tuple (map (fun _ => to_number_complex true) X) (Loader sep 0 comment [] [] [] (-1)) (Some content) false = Ok (map (map (@Some (Q * Q))) X') /\
    Forall2 (Forall2 (fun z' z => near6 (fst z') (fst z) /\ near6 (snd z') (snd z))) X' X.
Proof.
  intros X n sep comment S0 S1 S2 S3 [C0 C1] C2 NE LN.
  assert (CH : forall z, exists z', writes (to_number_complex true) (fun z => match z with Some z => format_complex z | None => [] end) sep (Some z) (Some z') /\ near6 (fst z') (fst z) /\ near6 (snd z') (snd z)).
  { intros [x y]. destruct (C84_complex_text x y) as [x' [y' [E [A B]]]]. exists (x', y'). split; [|now split]. split; [intros H; apply app_eq_nil in H; destruct H as [H _]; exact (@print_f6_nonempty x H)|].
    split; [intros I; apply format_complex_chars in I; destruct I as [I|I]; [congruence|auto]|].
    split; [intros I; apply format_complex_chars in I; destruct I as [I|I]; [discriminate I|cbn in I; repeat (destruct I as [I|I]; [discriminate I|]); destruct I]|].
    split; [intros I; apply format_complex_chars in I; destruct I as [I|I]; [discriminate I|cbn in I; repeat (destruct I as [I|I]; [discriminate I|]); destruct I]|exact E]. }
  assert (EX : exists X', Forall2 (Forall2 (fun z' z => writes (to_number_complex true) (fun z => match z with Some z => format_complex z | None => [] end) sep (Some z) (Some z') /\ near6 (fst z') (fst z) /\ near6 (snd z') (snd z))) X' X).
  { clear - CH. induction X as [|xs X [X' IH]]; [exists []; constructor|]. assert (E : exists xs', Forall2 (fun z' z => writes (to_number_complex true) (fun z => match z with Some z => format_complex z | None => [] end) sep (Some z) (Some z') /\ near6 (fst z') (fst z) /\ near6 (snd z') (snd z)) xs' xs).
    { induction xs as [|x xs [xs' IHx]]; [exists []; constructor|]. destruct (CH x) as [x' Hx]. exists (x' :: xs'). now constructor. }
    destruct E as [xs' E]. exists (xs' :: X'). now constructor. }
  destruct EX as [X' F].
  assert (F2n : forall {A B} (R : A -> B -> Prop) l l', Forall2 R l l' -> forall i a b, nth_error l i = Some a -> nth_error l' i = Some b -> R a b).
  { clear. intros A B R l l' F. induction F as [|x y l l' H F IH]; intros [|i] a b E1 E2; try discriminate; cbn in *; [congruence|eauto]. }
  destruct (@C83_save_load _ (map (fun _ => to_number_complex true) X) (map (fun _ z => match z with Some z => format_complex z | None => [] end) X) (map (map (@Some (Q * Q))) X) (map (map (@Some (Q * Q))) X') n sep comment) as [content [E1 E2]]; auto.
  - intros E. apply map_eq_nil in E. auto.
  - now rewrite !map_length.
  - now rewrite !map_length.
  - rewrite !map_length. now apply F2_length in F.
  - intros xs [I|I]; apply in_map_iff in I; destruct I as [ys [<- I]]; rewrite map_length; [now apply LN|]. apply In_nth_error in I. destruct I as [i Ei].
    destruct (nth_error X i) as [zs|] eqn:Ez; [|apply nth_error_None in Ez; apply F2_length in F; assert (i < length X') by (apply nth_error_Some; congruence); lia].
    pose proof (F2n _ _ _ _ _ F i _ _ Ei Ez) as G. apply F2_length in G. rewrite G. apply LN. now apply nth_error_In in Ez.
  - intros j num put xs xs' i x x' J1 J2 J3 J4 J5 J6. rewrite nth_error_map in J1, J2, J3, J4. destruct (nth_error X j) as [zs|] eqn:Ez; [|discriminate]. cbn in J1, J2, J3. injection J1 as <-. injection J2 as <-. injection J3 as <-.
    destruct (nth_error X' j) as [zs'|] eqn:Ez'; [|discriminate]. cbn in J4. injection J4 as <-. rewrite nth_error_map in J5, J6. destruct (nth_error zs i) as [z|] eqn:E5; [|discriminate]. destruct (nth_error zs' i) as [z'|] eqn:E6; [|discriminate].
    cbn in J5, J6. injection J5 as <-. injection J6 as <-. pose proof (F2n _ _ _ _ _ F j _ _ Ez' Ez) as G. exact (proj1 (F2n _ _ _ _ _ G i _ _ E6 E5)).
  - intros put xs x J1 J2 I. rewrite nth_error_map in J1, J2. destruct (nth_error X 0) as [zs|]; [|discriminate]. cbn in J1, J2. injection J1 as <-. injection J2 as <-. apply in_map_iff in I. destruct I as [z [<- _]].
    intros H. destruct z as [x y]. assert (I : In comment (print_f6 x)).
    { pose proof (@print_f6_nonempty x). unfold format_complex in H. cbn [fst] in H. destruct (print_f6 x) as [|a r]; [congruence|]. cbn in H. now left. }
    apply print_f6_chars in I. destruct I as [I|[I|I]]; congruence.
  - exists content, X'. split; [exact E1|]. split; [exact E2|]. clear - F. induction F as [|a b l l' H F IH]; constructor; [|exact IH]. clear - H. induction H as [|a b l l' [_ H] F IH]; constructor; auto.
Qed.
Print Assumptions C84_complex_columns.

(** FINDINGS.  A negative imaginary part written the usual way, a-bj, and a plain real number leave y uninitialised, which is then read. *)
Theorem C84_other_texts_refuted : forall x y : Q,
  ((y < 0)%Q -> to_number_complex true (print_f6 x ++ print_f6 y ++ ["j"%char]) = UB) /\ to_number_complex true (print_f6 x) = UB.
Proof.
  intros x y. split.
  - intros Y. unfold to_number_complex. rewrite cstr_free.
    2:{ intros I. apply in_app_or in I. destruct I as [I|I]; [apply print_f6_chars in I; destruct I as [I|[I|I]]; discriminate I|]. apply in_app_or in I.
        destruct I as [I|[I|[]]]; [apply print_f6_chars in I; destruct I as [I|[I|I]]; discriminate I|discriminate I]. }
    assert (E : exists r, print_f6 y = "-"%char :: r) by (unfold print_f6; destruct (Qlt_le_dec y 0) as [_|L]; [eexists; reflexivity|exfalso; exact (Qlt_not_le _ _ Y L)]).
    destruct E as [r ->]. cbn [app]. destruct (@scan_f6 x ("-"%char :: r ++ ["j"%char])) as [x' [E _]]; [apply tail_end; repeat split; discriminate|].
    unfold scanf_double. rewrite E. reflexivity.
  - unfold to_number_complex. rewrite cstr_free by (intros I; apply print_f6_chars in I; destruct I as [I|[I|I]]; discriminate I).
    destruct (@scan_f6 x []) as [x' [E _]]; [now apply tail_end|]. rewrite app_nil_r in E. unfold scanf_double. rewrite E. reflexivity.
Qed.
Print Assumptions C84_other_texts_refuted.
(** complex<float> (any complex type other than complex<double>): sscanf stores a double into a float. *)
Theorem C84_float_refuted : forall z : Q * Q, to_number_complex false (format_complex z) = UB.
Proof.
  intros [x y]. unfold to_number_complex. rewrite cstr_free.
  2:{ intros I. apply format_complex_chars in I. destruct I as [I|I]; [discriminate I|]. cbn in I. repeat (destruct I as [I|I]; [discriminate I|]). destruct I. }
  unfold format_complex. cbn [fst snd app]. destruct (@scan_f6 x ("+"%char :: print_f6 y ++ ["j"%char])) as [x' [E _]]; [apply tail_end; repeat split; discriminate|].
  unfold scanf_double. rewrite E. reflexivity.
Qed.
Print Assumptions C84_float_refuted.
(** savetxt of one complex array uses the stream's own format, (re,im), which is read back as (nan, nan). *)
Theorem C84_stream_format_refuted : forall (is_double : bool) (r : text), to_number_complex is_double ("("%char :: r) = Ok None.
Proof. intros d r. reflexivity. Qed.
Print Assumptions C84_stream_format_refuted.
Example C84_nonvacuous :
  format_complex ((3 # 2)%Q, (-1 # 4)%Q) = T "1.500000+-0.250000j" /\ (exists n, ((3 # 2) == inject_Z n / inject_Z 1000000)%Q) /\
  (exists x y, to_number_complex true (T "1.500000+-0.250000j") = Ok (Some (x, y)) /\ (x == 3 # 2)%Q /\ (y == -1 # 4)%Q) /\
  to_number_complex true (T "1.5-0.25j") = UB /\ to_number_complex true (T "(1.5,-0.25)") = Ok None.
Proof.
  split; [reflexivity|]. split; [exists 1500000%Z; reflexivity|]. split; [eexists; eexists; split; [reflexivity|split; reflexivity]|]. split; reflexivity.
Qed.

(** ** C85 *)
(** A double printed by savetxt (six significant digits) is read back within a relative error of 5e-6, and exactly if it has at most six significant
    digits. *)
Definition near_rel (y x : Q) : Prop := (Qabs (y - x) <= (1 # 200000) * Qabs x)%Q /\ (forall n k, (Z.abs n < 10 ^ 6)%Z -> (x == inject_Z n * (10 # 1) ^ k)%Q -> (y == x)%Q).
Theorem C85_double_text : forall x : Q, exists y, to_number_double (print_double x) = Ok y /\ near_rel y x.
Proof. intros x. exists (atof (print_double x)). split; [reflexivity|]. apply atof_print_double. Qed.
Print Assumptions C85_double_text.
Lemma print_double_writes sep x : is_digit sep = false -> ~ In sep ["-"; "+"; "."; "e"]%char -> writes to_number_double print_double sep x (atof (print_double x)).
Proof.
  intros S0 S1. split; [apply print_double_nonempty|]. split; [intros I; apply print_double_chars in I; destruct I as [I|I]; [congruence|auto]|].
  split; [intros I; apply print_double_chars in I; destruct I as [I|I]; [discriminate I|cbn in I; repeat (destruct I as [I|I]; [discriminate I|]); destruct I]|].
  split; [intros I; apply print_double_chars in I; destruct I as [I|I]; [discriminate I|cbn in I; repeat (destruct I as [I|I]; [discriminate I|]); destruct I]|reflexivity].
Qed.
(** One array of doubles, and tuples of arrays of doubles. *)
Theorem C85_array : forall (X : list Q) (sep comment : ascii), is_digit sep = false -> ~ In sep ["-"; "+"; "."; "e"]%char -> sep <> nul ->
  is_digit comment = false -> ~ In comment ["-"; "+"; "."; "e"]%char -> X <> [] ->
  exists X', load_vector to_number_double (Loader sep 0 comment [] [] [] (-1)) (Some (savetxt print_double X newline)) = Ok (X', 1%Z) /\ Forall2 near_rel X' X.
Proof.
  intros X sep comment S0 S1 S2 C0 C1 NE. exists (map (fun x => atof (print_double x)) X). rewrite C83_array with (X' := map (fun x => atof (print_double x)) X); auto.
  - split; [destruct X; [congruence|reflexivity]|]. clear. induction X as [|x X IH]; constructor; [apply atof_print_double|exact IH].
  - clear - S0 S1. induction X as [|x X IH]; constructor; [now apply print_double_writes|exact IH].
  - intros x _ H. assert (I : In comment (print_double x)) by (pose proof (@print_double_nonempty x); destruct (print_double x); [congruence|cbn in H; now left]).
    apply print_double_chars in I. destruct I as [I|I]; [congruence|auto].
Qed.
Print Assumptions C85_array.
Theorem C85_columns : forall (X : list (list Q)) (n : nat) (sep comment : ascii), is_digit sep = false -> ~ In sep ["-"; "+"; "."; "e"]%char -> sep <> nul -> sep <> newline ->
  is_digit comment = false -> ~ In comment ["-"; "+"; "."; "e"]%char -> X <> [] -> (forall xs, In xs X -> length xs = n) ->
  exists content X', savetxt_tuple (map (fun _ => print_double) X) X sep newline = Ok content /\
    load_tuple (map (fun _ => to_number_double) X) (Loader sep 0 comment [] [] [] (-1)) (Some content) false = Ok X' /\ Forall2 (Forall2 near_rel) X' X.
Proof.
  intros X n sep comment S0 S1 S2 S3 C0 C1 NE LN. set (X' := map (map (fun x => atof (print_double x))) X).
  destruct (@C83_save_load _ (map (fun _ => to_number_double) X) (map (fun _ => print_double) X) X X' n sep comment) as [content [E1 E2]]; auto; unfold X'; try (rewrite !map_length; reflexivity).
  - intros xs [I|I]; [now apply LN|]. apply in_map_iff in I. destruct I as [ys [<- I]]. rewrite map_length. now apply LN.
  - intros j num put xs xs' i x x' J1 J2 J3 J4 J5 J6. rewrite nth_error_map in J1, J2, J4. rewrite J3 in *. cbn in J1, J2, J4. injection J1 as <-. injection J2 as <-. injection J4 as <-.
    rewrite nth_error_map, J5 in J6. cbn in J6. injection J6 as <-. now apply print_double_writes.
  - intros put xs x J1 J2 _ H. rewrite nth_error_map in J1. destruct (nth_error X 0); [|discriminate]. cbn in J1. injection J1 as <-.
    assert (I : In comment (print_double x)) by (pose proof (@print_double_nonempty x); destruct (print_double x); [congruence|cbn in H; now left]).
    apply print_double_chars in I. destruct I as [I|I]; [congruence|auto].
  - exists content, X'. split; [exact E1|]. split; [exact E2|]. unfold X'. clear. induction X as [|xs X IH]; constructor; [|exact IH]. induction xs as [|x xs IHx]; constructor; [apply atof_print_double|exact IHx].
Qed.
Print Assumptions C85_columns.
(** FINDING: other doubles do not survive savetxt / loadtxt: an integer-valued double with more than six significant digits is changed.  Every integer
    between 10^6 and 10^7 that is not a multiple of ten is. *)
Theorem C85_precision_refuted : forall n : Z, (10 ^ 6 <= n < 10 ^ 7)%Z -> (n mod 10 <> 0)%Z -> ~ (atof (print_double (inject_Z n)) == inject_Z n)%Q.
Proof.
  intros n H M E. assert (P : (0 < Qabs (inject_Z n))%Q) by (change (Qabs (inject_Z n)) with (inject_Z (Z.abs n)); change 0%Q with (inject_Z 0); rewrite <- Zlt_Qlt; lia).
  assert (NZ : ~ (inject_Z n == 0)%Q) by (intros X; change 0%Q with (inject_Z 0) in X; apply (proj1 (inject_Z_injective _ _)) in X; clear - H X; lia).
  destruct (six_digits (Qabs (inject_Z n))) as [m e] eqn:S. destruct (six_digits_spec P S) as [R [B _]].
  pose proof (atof_print_double_value NZ S) as V. rewrite V in E. unfold negb_of in E. destruct (Qlt_le_dec (inject_Z n) 0) as [L|_]; [change 0%Q with (inject_Z 0) in L; rewrite <- Zlt_Qlt in L; lia|].
  cbn [sgnQ] in E. rewrite Qmult_1_l in E.
  assert (G : (5 < e)%Z).
  { destruct (Z_lt_le_dec 5 e) as [G|G]; [exact G|]. exfalso. assert (U : (inject_Z m * pow10 (e - 5) <= inject_Z m * 1)%Q).
    { rewrite !(Qmult_comm (inject_Z m)). apply Qmult_le_compat_r; [apply (@pow10_le (e - 5) 0); lia|]. change 0%Q with (inject_Z 0). rewrite <- Zle_Qle. lia. }
    rewrite E, Qmult_1_r, <- Zle_Qle in U. lia. }
  rewrite pow10_nonneg, <- inject_Z_mult in E by lia. apply (proj1 (inject_Z_injective _ _)) in E. apply M. rewrite <- E. replace (e - 5)%Z with (Z.succ (e - 6)) by lia. rewrite Z.pow_succ_r by lia.
  rewrite (Z.mul_comm 10), Z.mul_assoc. apply Z_mod_mult.
Qed.
Print Assumptions C85_precision_refuted.
Example C85_nonvacuous :
  print_double (1234567 # 1) = T "1.23457e+06" /\ print_double (-1 # 3) = T "-0.333333" /\ print_double (1 # 80000) = T "1.25e-05" /\
  (exists n k, (Z.abs n < 10 ^ 6)%Z /\ ((1 # 80000) == inject_Z n * (10 # 1) ^ k)%Q) /\ (10 ^ 6 <= 1234567 < 10 ^ 7)%Z /\ (1234567 mod 10 <> 0)%Z.
Proof.
  split; [reflexivity|]. split; [reflexivity|]. split; [reflexivity|]. split; [exists 125%Z, (-7)%Z; split; [lia|reflexivity]|]. split; [lia|discriminate].
Qed.
