(** Specification: the decimal numbers that a text starts with (C 7.22.1), and the facts that the models of std::atoi, std::atof and std::sscanf read them. *)
From Coq Require Import ZArith QArith Ascii String.
From Verif Require Import Base Io IoSpec IoFacts IoNumber IoNumberFacts.
From Coq Require Import Lia.
Open Scope Z_scope.
Set Implicit Arguments.

(** ** Specification *)
(** blanks: space, tab, newline, vertical tab, form feed, carriage return *)
Definition blank (c : ascii) : Prop := In c [" "; "009"; "010"; "011"; "012"; "013"]%char.
Definition digit_value (c : ascii) (d : Z) : Prop := 0 <= d <= 9 /\ nth_error (list_ascii_of_string "0123456789") (Z.to_nat d) = Some c.
(** [digits t n]: t consists of decimal digits, n is the number they write *)
Inductive digits : text -> Z -> Prop :=
| digits_none : digits [] 0
| digits_snoc t n c d : digits t n -> digit_value c d -> digits (t ++ [c]) (10 * n + d).
Definition starts_digit (r : text) : Prop := exists c d r', r = c :: r' /\ digit_value c d.
Inductive sign : text -> Z -> Prop := sign_none : sign [] 1 | sign_plus : sign ["+"%char] 1 | sign_minus : sign ["-"%char] (-1).
(** [exponent t e]: t is an exponent part with the value e *)
Inductive exponent : text -> Z -> Prop :=
| exponent_intro m sg s t n : m = "e"%char \/ m = "E"%char -> sign sg s -> digits t n -> t <> [] -> exponent (m :: sg ++ t) (s * n).
Definition starts_exponent (r : text) : Prop := exists t e r', r = t ++ r' /\ exponent t e.
(** fraction and exponent, given what follows: the longest match *)
Inductive fraction : text -> text -> text -> Prop :=
| fraction_none rest : hd nul rest <> "."%char -> fraction [] [] rest
| fraction_some t n rest : digits t n -> ~ starts_digit rest -> fraction ("."%char :: t) t rest.
Inductive exponent_part : text -> Z -> text -> Prop :=
| no_exponent rest : ~ starts_exponent rest -> exponent_part [] 0 rest
| some_exponent t e rest : exponent t e -> ~ starts_digit rest -> exponent_part t e rest.
(** [decimal t v rest]: t is the number that the text t ++ rest starts with, and v its value *)
Inductive decimal : text -> Q -> text -> Prop :=
| decimal_intro sp sg s ip frac fp ex e n rest :
    Forall blank sp -> sign sg s -> digits (ip ++ fp) n -> ip ++ fp <> [] -> ~ starts_digit (frac ++ ex ++ rest) -> fraction frac fp (ex ++ rest) -> exponent_part ex e rest ->
    decimal (sp ++ sg ++ ip ++ frac ++ ex) (inject_Z (s * n) * (10 # 1) ^ (e - Z.of_nat (length fp)))%Q rest.
(** [integer t v rest]: the same for integers *)
Inductive integer : text -> Z -> text -> Prop :=
| integer_intro sp sg s t n rest : Forall blank sp -> sign sg s -> digits t n -> t <> [] -> ~ starts_digit rest -> integer (sp ++ sg ++ t) (s * n) rest.

(** ** Facts *)
Lemma blank_iff c : is_space c = true <-> blank c.
Proof.
  split.
  - destruct c as [[] [] [] [] [] [] [] []]; cbv; intros H; try discriminate H; auto 10.
  - unfold blank. cbn. intuition (subst; reflexivity).
Qed.
Lemma digit_char_iff c d : digit_value c d <-> digit_ok d /\ c = digit_char d.
Proof.
  unfold digit_value, digit_ok. split; intros [H E]; (split; [exact H|]); assert (C : d = 0 \/ d = 1 \/ d = 2 \/ d = 3 \/ d = 4 \/ d = 5 \/ d = 6 \/ d = 7 \/ d = 8 \/ d = 9) by lia;
    repeat (destruct C as [->|C]; [|]); subst; try reflexivity; try (cbn in E; injection E as <-; reflexivity).
Qed.
Lemma is_digit_iff c : is_digit c = true <-> exists d, digit_value c d.
Proof.
  split.
  - intros H. unfold is_digit in H. apply andb_true_iff in H. destruct H as [A B]. apply Z.leb_le in A, B. exists (code c - 48). apply digit_char_iff. split; [unfold digit_ok; lia|].
    unfold digit_char. replace (code c - 48 + 48) with (code c) by lia. unfold code. rewrite Nat2Z.id, ascii_nat_embedding. reflexivity.
  - intros (d & H). apply digit_char_iff in H. destruct H as [H ->]. now apply is_digit_char.
Qed.
Lemma starts_digit_iff r : ~ starts_digit r <-> no_digit_first r.
Proof.
  unfold starts_digit, no_digit_first. destruct r as [|c r]; split; intros H.
  - exact I.
  - intros (c & d & r' & E & _). discriminate E.
  - destruct (is_digit c) eqn:E; [|reflexivity]. exfalso. apply H. apply is_digit_iff in E. destruct E as (d & D). now exists c, d, r.
  - intros (c' & d & r' & E & D). injection E as <- <-. assert (is_digit c = true) by (apply is_digit_iff; now exists d). congruence.
Qed.
Lemma digits_iff t n : digits t n <-> exists ds, Forall digit_ok ds /\ t = map digit_char ds /\ n = digits_value ds.
Proof.
  split.
  - induction 1 as [|t n c d H (ds & F & -> & ->) D]; [exists []; now repeat split|]. apply digit_char_iff in D. destruct D as [D ->]. exists (ds ++ [d]).
    split; [apply Forall_app; split; [exact F|now constructor]|]. split; [now rewrite map_app|]. rewrite digits_value_app, digits_value_one. cbn [length]. change (10 ^ Z.of_nat 1) with 10. ring.
  - intros (ds & F & -> & ->). induction ds as [|d ds IH] using rev_ind; [constructor|]. apply Forall_app in F. destruct F as [F D]. inversion D; subst.
    rewrite map_app, digits_value_app, digits_value_one. cbn [length map]. change (10 ^ Z.of_nat 1) with 10. replace (digits_value ds * 10 + d) with (10 * digits_value ds + d) by ring.
    constructor; [now apply IH|]. now apply digit_char_iff.
Qed.
Lemma take_digits_inv s : forall ds r, take_digits s = (ds, r) -> Forall digit_ok ds /\ s = map digit_char ds ++ r /\ no_digit_first r.
Proof.
  induction s as [|c s IH]; intros ds r H; cbn [take_digits] in H; [injection H as <- <-; now repeat split|]. destruct (is_digit c) eqn:E.
  - destruct (take_digits s) as [ds' t] eqn:E'. injection H as <- <-. destruct (IH _ _ eq_refl) as (F & -> & N). apply is_digit_iff in E. destruct E as (d & D). apply digit_char_iff in D.
    destruct D as [D ->]. rewrite code_digit by exact D. replace (d + 48 - 48) with d by lia. split; [now constructor|]. split; [reflexivity|exact N].
  - injection H as <- <-. now repeat split.
Qed.
Lemma skip_space_inv s : exists sp, s = sp ++ skip_space s /\ Forall blank sp /\ match skip_space s with c :: _ => is_space c = false | [] => True end.
Proof.
  induction s as [|c s (sp & E & F & N)]; [exists []; now repeat split|]. cbn [skip_space]. destruct (is_space c) eqn:Ec.
  - exists (c :: sp). split; [cbn; now rewrite E at 1|]. split; [constructor; [now apply blank_iff|exact F]|exact N].
  - exists []. split; [reflexivity|]. split; [constructor|exact Ec].
Qed.
Lemma skip_space_blank sp r : Forall blank sp -> skip_space (sp ++ r) = skip_space r.
Proof. induction 1 as [|c sp B F IH]; [reflexivity|]. cbn [app skip_space]. apply blank_iff in B. now rewrite B. Qed.
Lemma take_sign_inv s neg r : take_sign s = (neg, r) -> exists sg k, sign sg k /\ s = sg ++ r /\ forall v, signed neg v = k * v.
Proof.
  destruct s as [|c s]; cbn [take_sign].
  - intros H. injection H as <- <-. exists [], 1. split; [constructor|]. split; [reflexivity|]. intros v. unfold signed. lia.
  - destruct (Ascii.eqb c "-") eqn:E1; [|destruct (Ascii.eqb c "+") eqn:E2]; intros H; injection H as <- <-.
    + apply Ascii.eqb_eq in E1. subst c. exists ["-"%char], (-1). split; [constructor|]. split; [reflexivity|]. intros v. unfold signed. lia.
    + apply Ascii.eqb_eq in E2. subst c. exists ["+"%char], 1. split; [constructor|]. split; [reflexivity|]. intros v. unfold signed. lia.
    + exists [], 1. split; [constructor|]. split; [reflexivity|]. intros v. unfold signed. lia.
Qed.
(** a text that starts with a digit or a point has no sign and no blank *)
Definition plain (r : text) : Prop := match r with c :: _ => is_space c = false /\ c <> "-"%char /\ c <> "+"%char | [] => False end.
Lemma take_sign_ok sg k r : sign sg k -> plain r -> exists neg, take_sign (sg ++ r) = (neg, r) /\ (forall v, signed neg v = k * v) /\ match sg ++ r with c :: _ => is_space c = false | [] => True end.
Proof.
  intros [] P.
  - exists false. destruct r as [|c r]; [destruct P|]. destruct P as (A & B & C). cbn [app take_sign]. rewrite !ascii_eqb_false by assumption. split; [reflexivity|]. split; [intros; unfold signed; lia|exact A].
  - exists false. split; [reflexivity|]. split; [intros; unfold signed; lia|reflexivity].
  - exists true. split; [reflexivity|]. split; [intros; unfold signed; lia|reflexivity].
Qed.
Lemma skip_plain s : match s with c :: _ => is_space c = false | [] => True end -> skip_space s = s.
Proof. destruct s as [|c s]; [reflexivity|]. cbn [skip_space]. now intros ->. Qed.
Lemma plain_digit d r : digit_ok d -> plain (digit_char d :: r).
Proof. intros H. split; [now apply digit_not_space|]. split; (apply digit_char_inj_neq; [exact H|reflexivity]). Qed.
(** the exponent part *)
Lemma exponent_iff t e : exponent t e -> exists m sg k ds, (m = "e" \/ m = "E")%char /\ sign sg k /\ Forall digit_ok ds /\ ds <> [] /\ t = m :: sg ++ map digit_char ds /\ e = k * digits_value ds.
Proof.
  intros [m sg s t' n M S D N]. apply digits_iff in D. destruct D as (ds & F & -> & ->). exists m, sg, s, ds. repeat (split; [assumption|]). split; [|split; reflexivity]. intros ->. now apply N.
Qed.
Lemma take_exp_some t e r : exponent t e -> no_digit_first r -> take_exp (t ++ r) = (e, r, true).
Proof.
  intros X Hr. apply exponent_iff in X. destruct X as (m & sg & k & ds & M & S & F & N & -> & ->).
  destruct ds as [|d ds]; [congruence|]. assert (Od : digit_ok d) by (now inversion F). destruct (@take_sign_ok sg k (map digit_char (d :: ds) ++ r) S (plain_digit _ Od)) as (neg & T & V & _).
  change ((m :: sg ++ map digit_char (d :: ds)) ++ r) with (m :: (sg ++ map digit_char (d :: ds)) ++ r). rewrite <- app_assoc. cbn [take_exp].
  replace (Ascii.eqb m "e" || Ascii.eqb m "E") with true by (destruct M as [->| ->]; reflexivity). rewrite T, take_digits_print by assumption. now rewrite V.
Qed.
Definition incomplete (r : text) : Prop := match r with c :: _ => c = "e"%char \/ c = "E"%char | [] => False end.
Lemma take_exp_none r : ~ starts_exponent r -> exists b, take_exp r = (0, r, b) /\ (b = false <-> incomplete r).
Proof.
  intros H. destruct r as [|c r]; [exists true; split; [reflexivity|split; [discriminate|intros []]]|]. cbn [take_exp incomplete].
  destruct (Ascii.eqb c "e" || Ascii.eqb c "E") eqn:E.
  - apply orb_true_iff in E. assert (M : (c = "e" \/ c = "E")%char) by (destruct E as [E|E]; apply Ascii.eqb_eq in E; auto). destruct (take_sign r) as [neg t] eqn:Et. destruct (take_digits t) as [ds u] eqn:Ed.
    apply take_sign_inv in Et. destruct Et as (sg & k & S & -> & _). apply take_digits_inv in Ed. destruct Ed as (F & -> & N). destruct ds as [|d ds]; [exists false; split; [reflexivity|tauto]|]. exfalso. apply H.
    exists (c :: sg ++ map digit_char (d :: ds)), (k * digits_value (d :: ds)), u. split; [cbn [app]; now rewrite <- app_assoc|]. constructor; [exact M|exact S| |discriminate].
    apply digits_iff. now exists (d :: ds).
  - exists true. split; [reflexivity|]. split; [discriminate|]. apply orb_false_iff in E. destruct E as [E1 E2]. intros [->| ->]; discriminate.
Qed.
Lemma take_exp_inv r : exists ex e rest b, take_exp r = (e, rest, b) /\ r = ex ++ rest /\ (no_digit_first r -> exponent_part ex e rest) /\ (b = false <-> ex = [] /\ incomplete rest).
Proof.
  destruct (take_exp r) as [[e rest] b] eqn:E. destruct r as [|c r]; cbn [take_exp] in E.
  - injection E as <- <- <-. exists [], 0, [], true. split; [reflexivity|]. split; [reflexivity|]. split; [intros _; constructor; intros (t & e & r' & X & Y); destruct Y; discriminate|]. split; [discriminate|intros [_ []]].
  - destruct (Ascii.eqb c "e" || Ascii.eqb c "E") eqn:M.
    + assert (M' : (c = "e" \/ c = "E")%char) by (apply orb_true_iff in M; destruct M as [M|M]; apply Ascii.eqb_eq in M; auto).
      destruct (take_sign r) as [neg t] eqn:Et. destruct (take_digits t) as [ds u] eqn:Ed. pose proof Et as Et'. apply take_sign_inv in Et. destruct Et as (sg & k & S & -> & V). pose proof Ed as Ed'. apply take_digits_inv in Ed.
      destruct Ed as (F & Eu & N). destruct ds as [|d ds].
      * injection E as <- <- <-. exists [], 0, (c :: sg ++ t), false. split; [reflexivity|]. split; [reflexivity|]. split; [|cbn [incomplete]; tauto]. intros _. constructor. intros (t' & e' & r' & X & Y).
        apply exponent_iff in Y. destruct Y as (m & sg' & k' & ds & _ & S' & F' & N' & -> & _). cbn [app] in X. injection X as _ X. rewrite <- app_assoc in X. destruct ds as [|d ds]; [congruence|].
        assert (Od : digit_ok d) by (now inversion F'). destruct (@take_sign_ok sg' k' (map digit_char (d :: ds) ++ r') S' (plain_digit _ Od)) as (neg' & T & _). rewrite <- X, Et' in T. injection T as _ ->.
        cbn [map app take_digits] in Ed'. rewrite is_digit_char in Ed' by exact Od. destruct (take_digits _) in Ed'. discriminate.
      * injection E as <- <- <-. exists (c :: sg ++ map digit_char (d :: ds)), (signed neg (digits_value (d :: ds))), u, true. split; [reflexivity|]. split; [cbn [app]; now rewrite <- app_assoc, Eu|].
        split; [|split; [discriminate|intros [X _]; discriminate]]. intros _. rewrite V. apply some_exponent; [|now apply starts_digit_iff]. constructor; [exact M'|exact S| |discriminate]. apply digits_iff. now exists (d :: ds).
    + injection E as <- <- <-. exists [], 0, (c :: r), true. split; [reflexivity|]. split; [reflexivity|]. apply orb_false_iff in M. destruct M as [M1 M2].
      assert (NE : ~ (c = "e" \/ c = "E")%char) by (intros [->| ->]; discriminate). split.
      * intros _. constructor. intros (t & e & r' & X & Y). apply exponent_iff in Y. destruct Y as (m & ? & ? & ? & M & _ & _ & _ & -> & _). cbn [app] in X. injection X as <- _. now apply NE.
      * split; [discriminate|]. intros [_ X]. now apply NE in X.
Qed.
Lemma exponent_no_digit ex e rest : exponent_part ex e rest -> ~ starts_digit rest -> ~ starts_digit (ex ++ rest).
Proof.
  intros [r H|t e' r X H] D; [exact D|]. apply exponent_iff in X. destruct X as (m & sg & k & ds & M & _ & _ & _ & -> & _). apply starts_digit_iff. cbn. destruct M as [->| ->]; reflexivity.
Qed.
Lemma decimal_scan t v rest : decimal t v rest -> exists w b, scan_decimal (t ++ rest) = Some (w, rest, b) /\ (w == v)%Q /\
  (b = false -> incomplete rest) /\ (incomplete rest -> ~ In "e"%char t -> ~ In "E"%char t -> b = false).
Proof.
  intros [sp sg s ip frac fp ex e n r B S D N ND Fr X].
  apply digits_iff in D. destruct D as (ds & F & Eds & ->). assert (exists di df, ds = di ++ df /\ ip = map digit_char di /\ fp = map digit_char df) as (di & df & -> & -> & ->).
  { exists (firstn (length ip) ds), (skipn (length ip) ds). split; [now rewrite firstn_skipn|].
    rewrite <- (firstn_skipn (length ip) ds), map_app in Eds. assert (L : length ip = length (map digit_char (firstn (length ip) ds))).
    { rewrite map_length, firstn_length. apply (f_equal (@length ascii)) in Eds. rewrite !app_length, !map_length, firstn_length, skipn_length in Eds. lia. }
    clear - Eds L. set (a := map digit_char (firstn (length ip) ds)) in *. set (b := map digit_char (skipn (length ip) ds)) in *. clearbody a b. revert a Eds L. induction ip as [|c ip IH]; intros [|x a] E L; try discriminate L; cbn in *; [auto|].
    injection E as -> E. injection L as L. destruct (IH a E L) as [-> ->]. auto. }
  apply Forall_app in F. destruct F as [Fi Ff]. apply starts_digit_iff in ND.
  assert (P : plain (map digit_char di ++ frac ++ ex ++ r)).
  { destruct di as [|d di]; [|inversion Fi; subst; now apply plain_digit]. destruct Fr; [now destruct N|]. cbn. split; [reflexivity|]. split; discriminate. }
  destruct (@take_sign_ok _ _ _ S P) as (neg & T & V & PS).
  assert (E1 : (sp ++ sg ++ map digit_char di ++ frac ++ ex) ++ r = sp ++ sg ++ map digit_char di ++ frac ++ ex ++ r) by (now rewrite <- !app_assoc). rewrite E1.
  unfold scan_decimal. rewrite skip_space_blank, skip_plain by assumption. rewrite T, take_digits_print by assumption.
  assert (E2 : take_frac (frac ++ ex ++ r) = (df, ex ++ r)).
  { inversion Fr as [? H1 H2 H3 H4|t0 n0 ? H1 H2 H3 H4 H5]; subst.
    - symmetry in H3. apply map_eq_nil in H3. subst df. cbn [app]. destruct (ex ++ r) as [|c u] eqn:Eu; [reflexivity|]. cbn [hd] in H1. cbn [take_frac]. now rewrite ascii_eqb_false.
    - cbn [app take_frac]. replace (Ascii.eqb "." ".") with true by reflexivity. apply take_digits_print; [exact Ff|]. now apply starts_digit_iff. }
  rewrite E2. assert (E3 : exists b, take_exp (ex ++ r) = (e, r, b) /\ (b = false -> incomplete r) /\ (incomplete r -> ~ In "e"%char ex -> ~ In "E"%char ex -> b = false)).
  { inversion X as [? H1|t1 e1 ? H1 H2]; subst.
    - destruct (take_exp_none H1) as (b & Eb & Ib). exists b. split; [exact Eb|]. tauto.
    - exists true. split; [apply take_exp_some; [exact H1|]; now apply starts_digit_iff|]. split; [discriminate|]. intros _ A1 A2. exfalso. destruct H1 as [m ? ? ? ? [->| ->] ? ? ?]; [apply A1|apply A2]; now left. }
  destruct E3 as (b & E3 & I1 & I2). rewrite E3. destruct (di ++ df) as [|d0 dd] eqn:Ed.
  { apply app_eq_nil in Ed. destruct Ed as [-> ->]. now destruct N. }
  eexists. exists b. split; [reflexivity|]. split; [rewrite <- Ed, V, map_length; reflexivity|]. split; [exact I1|]. intros A1 A2 A3. apply I2; [exact A1| |]; intros C; [apply A2|apply A3]; rewrite !in_app_iff; tauto.
Qed.
Lemma scan_decimal_inv s w rest b : scan_decimal s = Some (w, rest, b) -> exists t v, decimal t v rest /\ s = t ++ rest /\ (w == v)%Q.
Proof.
  unfold scan_decimal. destruct (skip_space_inv s) as (sp & Es & B & _). destruct (take_sign (skip_space s)) as [neg u] eqn:T. destruct (take_digits u) as [ip u'] eqn:Di. destruct (take_frac u') as [fp u''] eqn:Fp.
  intros H. assert (N : ip ++ fp <> []) by (intros X; rewrite X in H; discriminate). destruct (take_exp u'') as [[e r'] b'] eqn:Ee.
  destruct (ip ++ fp) as [|d0 dd] eqn:Ed; [congruence|]. injection H as <- <- <-. rewrite <- Ed in *. clear Ed d0 dd.
  apply take_sign_inv in T. destruct T as (sg & k & S & Eu & V). apply take_digits_inv in Di. destruct Di as (Fi & -> & Ni).
  assert (FR : exists frac, u' = frac ++ u'' /\ Forall digit_ok fp /\ (fraction frac (map digit_char fp) u'') /\ no_digit_first u'').
  { destruct u' as [|c u']; cbn [take_frac] in Fp; [injection Fp as <- <-; exists []; repeat split; [constructor|constructor; discriminate]|]. destruct (Ascii.eqb c ".") eqn:Ec.
    - apply Ascii.eqb_eq in Ec. subst c. apply take_digits_inv in Fp. destruct Fp as (Ff & -> & Nf). exists ("."%char :: map digit_char fp). split; [reflexivity|]. split; [exact Ff|]. split; [|exact Nf].
      econstructor; [apply digits_iff; now exists fp|now apply starts_digit_iff].
    - injection Fp as <- <-. exists []. split; [reflexivity|]. split; [constructor|]. split; [|exact Ni]. constructor. cbn. intros ->. discriminate. }
  destruct FR as (frac & -> & Ff & FR & Nf). destruct (take_exp_inv u'') as (ex & e' & rest' & b'' & Ee' & Ex & XP & _). rewrite Ee in Ee'. injection Ee' as <- <- <-. specialize (XP Nf). subst u''.
  exists (sp ++ sg ++ map digit_char ip ++ frac ++ ex), (inject_Z (k * digits_value (ip ++ fp)) * (10 # 1) ^ (e - Z.of_nat (length (map digit_char fp))))%Q. split; [|split].
  - constructor; [exact B|exact S| | |now apply starts_digit_iff|exact FR|exact XP].
    + apply digits_iff. exists (ip ++ fp). split; [now apply Forall_app|]. split; [now rewrite map_app|reflexivity].
    + rewrite <- map_app. intros X. now apply map_eq_nil in X.
  - rewrite Es at 1. rewrite Eu, <- !app_assoc. reflexivity.
  - rewrite V, map_length. reflexivity.
Qed.
Lemma scan_decimal_none s : scan_decimal s = None -> ~ exists t v rest, decimal t v rest /\ s = t ++ rest.
Proof. intros H (t & v & rest & D & ->). apply decimal_scan in D. destruct D as (w & b & E & _). congruence. Qed.

Lemma scanf_complete t v rest : decimal t v rest -> ~ incomplete rest -> exists w, scanf_double (t ++ rest) = Some (w, rest) /\ (w == v)%Q.
Proof.
  intros D H. destruct (decimal_scan D) as (w & b & E & W & B & _). exists w. split; [|exact W]. unfold scanf_double. rewrite E. destruct b; [reflexivity|]. exfalso. auto.
Qed.
Lemma scanf_incomplete t v rest : decimal t v rest -> incomplete rest -> ~ In "e"%char t -> ~ In "E"%char t -> scanf_double (t ++ rest) = None.
Proof. intros D H A1 A2. destruct (decimal_scan D) as (w & b & E & W & _ & B). unfold scanf_double. rewrite E, B by assumption. reflexivity. Qed.
Lemma integer_scan t v rest : integer t v rest -> exists neg u ds, take_sign (skip_space (t ++ rest)) = (neg, u) /\ take_digits u = (ds, rest) /\ signed neg (digits_value ds) = v.
Proof.
  intros [sp sg s t' n r B S D N ND]. apply digits_iff in D. destruct D as (ds & F & -> & ->). destruct ds as [|d ds]; [exfalso; apply N; reflexivity|]. assert (Od : digit_ok d) by (now inversion F).
  destruct (@take_sign_ok sg s (map digit_char (d :: ds) ++ r) S (plain_digit _ Od)) as (neg & T & V & PS). exists neg, (map digit_char (d :: ds) ++ r), (d :: ds).
  rewrite <- !app_assoc, skip_space_blank, skip_plain by assumption. split; [exact T|]. split; [apply take_digits_print; [exact F|now apply starts_digit_iff]|apply V].
Qed.
Lemma take_digits_inv_int s : forall neg u ds r, take_sign (skip_space s) = (neg, u) -> take_digits u = (ds, r) -> ds <> [] -> integer (firstn (length s - length r) s) (signed neg (digits_value ds)) r /\ s = firstn (length s - length r) s ++ r.
Proof.
  intros neg u ds r T D N. destruct (skip_space_inv s) as (sp & Es & B & _). apply take_sign_inv in T. destruct T as (sg & k & S & Eu & V). apply take_digits_inv in D. destruct D as (F & -> & ND).
  assert (E : s = (sp ++ sg ++ map digit_char ds) ++ r) by (rewrite Es at 1; rewrite Eu, <- !app_assoc; reflexivity).
  assert (Ef : firstn (length s - length r) s = sp ++ sg ++ map digit_char ds).
  { rewrite E at 2. replace (length s - length r)%nat with (length (sp ++ sg ++ map digit_char ds) + 0)%nat by (rewrite E, (app_length (sp ++ _) r); lia). rewrite firstn_app_2. cbn [firstn]. apply app_nil_r. }
  rewrite Ef. split; [|exact E]. rewrite V. constructor; [exact B|exact S|apply digits_iff; now exists ds|intros X; now apply map_eq_nil in X|now apply starts_digit_iff].
Qed.
