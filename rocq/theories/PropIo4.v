(** C61 (loading with the settings of a TxtLoader), C59 (the std::string overload), C125 (numbers in text). *)
From Coq Require Import ZArith QArith Ascii String.
From Verif Require Import Base Io IoSpec IoFacts IoFacts2 IoNumber IoNumberFacts IoFacts3 IoSyntax PropIo.
From Coq Require Import Lia.
Open Scope nat_scope.
Set Implicit Arguments.

(** ** C61: what TxtLoader::load reads after any sequence of setter calls *)
(** the value of every option after the calls [ss] on a new loader *)
Definition delimiter_after {V} (ss : list (@setter V)) := last_set (fun s => match s with SDelimiter c => Some c | _ => None end) " "%char ss.
Definition skiprows_after {V} (ss : list (@setter V)) := last_set (fun s => match s with SSkiprows k => Some k | _ => None end) 0%Z ss.
Definition comments_after {V} (ss : list (@setter V)) := last_set (fun s => match s with SComments c => Some c | _ => None end) "#"%char ss.
Definition usecols_after {V} (ss : list (@setter V)) := last_set (fun s => match s with SUsecols l => Some (sort l) | _ => None end) [] ss.
Definition converters_after {V} (ss : list (@setter V)) := last_set (fun s => match s with SConverters d => Some d | _ => None end) [] ss.
Definition filters_after {V} (ss : list (@setter V)) := last_set (fun s => match s with SFilters d => Some d | _ => None end) [] ss.
Definition max_rows_after {V} (ss : list (@setter V)) := last_set (fun s => match s with SMaxRows k => Some k | _ => None end) (-1)%Z ss.
(** the calls are allowed: vectors of columns, as many as types when there are several types *)
Definition calls_ok {V} (n : nat) (ss : list (@setter V)) : Prop := Forall (fun s => ~ variadic s) ss /\ Forall (usecols_valid n) ss.

Lemma set_all_after {V} n (ss : list (@setter V)) : 0 < n -> calls_ok n ss -> set_all n default_loader ss =
  Ok (Loader (delimiter_after ss) (skiprows_after ss) (comments_after ss) (usecols_after ss) (converters_after ss) (filters_after ss) (max_rows_after ss)).
Proof. intros Hn [H1 H2]. exact (C61_last_wins_partial default_loader Hn H1 H2). Qed.

(** One type: load gives the matrix, load_vector its elements and the number of columns, of the lines and columns chosen by the last settings. *)
Theorem C61_load_partial : forall (V : Type) (num : text -> outcome V) (f : text -> V) (ss : list setter) content ls rows m,
  calls_ok 1 ss -> converters_after ss = [] -> filters_after ss = [] -> usecols_ok (usecols_after ss) -> lines content ls ->
  Forall2 (cells_of (delimiter_after ss) (usecols_after ss)) (counted (comments_after ss) (skiprows_after ss) (max_rows_after ss) ls) rows -> rows <> [] -> m <> 0 ->
  Forall (fun cs => length cs = m /\ forall x, In x cs -> num (fst x) = Ok (f (fst x))) rows ->
  exists o, set_all 1 default_loader ss = Ok o /\ load num o (Some content) = Ok (map (map (fun x => f (fst x))) rows) /\
    load_vector num o (Some content) = Ok (concat (map (map (fun x => f (fst x))) rows), Z.of_nat m).
Proof.
  intros V num f ss content ls rows m C1 Cc Cf U L F Nr Nm A. eexists. split; [apply set_all_after; [lia|exact C1]|]. unfold load, load_vector.
  cbn [l_comments l_delimiter l_skiprows l_usecols l_converters l_filters l_max_rows]. rewrite Cc, Cf.
  exact (@C60_matrix_partial V num f content ls _ _ _ _ _ rows m U L F Nr Nm A).
Qed.
Print Assumptions C61_load_partial.

Lemma at_ub_ok {A} (l : list A) i x : nth_error l i = Some x -> at_ub l i = Ok x.
Proof. unfold at_ub. now intros ->. Qed.
Lemma map_outcome_ok {A B} (f : A -> outcome B) (g : A -> B) l : (forall x, In x l -> f x = Ok (g x)) -> map_outcome f l = Ok (map g l).
Proof. induction l as [|a l IH]; intros H; [reflexivity|]. cbn [map_outcome map]. rewrite (H a) by now left. cbn [bind]. rewrite IH by (intros; apply H; now right). reflexivity. Qed.
Lemma unpack_ok {V} n (a : list (list V)) : Forall (fun row => length row = n) a ->
  exists cols, unpack n a = Ok cols /\ length cols = n /\ forall i col, nth_error cols i = Some col -> length col = length a /\ forall j row, nth_error a j = Some row -> nth_error col j = nth_error row i.
Proof.
  intros H. unfold unpack. destruct n as [|n].
  - exists []. split; [reflexivity|]. split; [reflexivity|]. intros [|i] col E; discriminate.
  - destruct a as [|r0 a'] eqn:Ea.
    + exists (map (fun _ => []) (seq 0 (S n))). split; [apply map_outcome_ok; reflexivity|]. split; [now rewrite map_length, seq_length|]. intros i col E.
      assert (I : In col (map (fun _ => []) (seq 0 (S n)))) by (apply (nth_error_In _ _ E)). apply in_map_iff in I. destruct I as (k & <- & _). split; [reflexivity|]. intros [|j] row X; discriminate.
    + rewrite <- Ea in *. assert (exists v : V, True) as (v & _). { rewrite Forall_forall in H. specialize (H r0 ltac:(rewrite Ea; now left)). destruct r0; [discriminate|]. now exists v. }
      exists (map (fun i => map (fun t => nth i t v) a) (seq 0 (S n))). split; [|split].
      * apply map_outcome_ok. intros i Hi. apply in_seq in Hi. apply map_outcome_ok. intros t Ht. rewrite Forall_forall in H. apply at_ub_ok, nth_error_nth'. rewrite (H t Ht). lia.
      * now rewrite map_length, seq_length.
      * intros i col E. assert (Hi : i < S n). { assert (i < length (map (fun i => map (fun t => nth i t v) a) (seq 0 (S n)))) by (apply nth_error_Some; congruence). rewrite map_length, seq_length in H0. exact H0. }
        assert (Q : nth_error (map (fun i => map (fun t => nth i t v) a) (seq 0 (S n))) i = Some (map (fun t => nth i t v) a)).
        { apply (map_nth_error (fun i => map (fun t => nth i t v) a)). rewrite (nth_error_nth' _ 0) by (now rewrite seq_length). now rewrite seq_nth by exact Hi. }
        rewrite Q in E. assert (Ec : col = map (fun t => nth i t v) a) by congruence. subst col. split; [apply map_length|].
        intros j row Ej. rewrite (map_nth_error _ _ _ Ej). symmetry. apply nth_error_nth'. rewrite Forall_forall in H. rewrite (H row (nth_error_In _ _ Ej)). exact Hi.
Qed.
(** Several types: load<pack> gives the tuples of the rows that pass the filters, load<unpack> one array per type; component i of row j is element j of array i. *)
Theorem C61_load_tuple_partial : forall (V : Type) (types : list (text -> outcome V)) (ss : list setter) content ls rows vals,
  types <> [] -> calls_ok (length types) ss -> usecols_ok (usecols_after ss) -> lines content ls ->
  Forall2 (cells_of (delimiter_after ss) (usecols_after ss)) (counted (comments_after ss) (skiprows_after ss) (max_rows_after ss) ls) rows ->
  Forall2 (row_values (converters_after ss) types) rows vals ->
  exists o kept_rows cols, set_all (length types) default_loader ss = Ok o /\
    kept (fun x => Forall2 (fun cell v => match dict_find (filters_after ss) (snd cell) with Some accept => accept v = true | None => True end) (fst x) (snd x)) (combine rows vals) kept_rows /\
    load_tuple types o (Some content) true = Ok (map snd kept_rows) /\
    load_tuple types o (Some content) false = Ok cols /\ length cols = length types /\
    forall i col, nth_error cols i = Some col -> length col = length kept_rows /\ forall j row, nth_error (map snd kept_rows) j = Some row -> nth_error col j = nth_error row i.
Proof.
  intros V types ss content ls rows vals Nt C1 U L F R.
  destruct (@C60_tuples_partial V types (converters_after ss) (filters_after ss) content ls _ _ _ _ _ rows vals U L F R) as (kr & K & E).
  assert (LR : Forall (fun row => length row = length types) (map snd kr)).
  { rewrite Forall_forall. intros v Hv. apply in_map_iff in Hv. destruct Hv as ((cs & v') & <- & Hv). cbn [snd].
    assert (KI : forall P (l k : list (list (text * Z) * list V)), kept P l k -> forall x, In x k -> In x l).
    { clear. induction 1 as [|x l k H K IH|x l k H K IH]; intros y Hy; [exact Hy| |right; auto]. destruct Hy as [->|Hy]; [now left|right; auto]. }
    apply (KI _ _ _ K) in Hv. clear - R Hv. induction R as [|r v rows vals H R IH]; [destruct Hv|]. destruct Hv as [X|X]; [|auto]. injection X as -> ->.
    clear - H. induction H; [reflexivity|]. cbn [length]. now rewrite IHrow_values. }
  destruct (unpack_ok (n := length types) LR) as (cols & Eu & Lc & Cc). eexists. exists kr, cols. split; [apply set_all_after; [destruct types; [congruence|cbn; lia]|exact C1]|].
  split; [exact K|]. unfold load_tuple. cbn [l_comments l_delimiter l_skiprows l_usecols l_converters l_filters l_max_rows]. rewrite E. cbn [bind]. split; [reflexivity|]. split; [exact Eu|]. split; [exact Lc|].
  intros i col Ec. destruct (Cc i col Ec) as [A B]. rewrite map_length in A. split; [exact A|exact B].
Qed.
Print Assumptions C61_load_tuple_partial.

(** ** C59: the std::string overload splits like the const char* one and reads doubles *)
Theorem C59_string : forall (V : Type) (num : text -> outcome V) str s sep ps, before_nul str s -> fields sep s ps ->
  exists vs, fromstring_string num str sep [] = Ok vs /\ length vs = length ps /\ forall i p, nth_error ps i = Some p -> exists w, nth_error vs i = Some w /\ to_number_double p = Ok w.
Proof.
  intros V num str s sep ps B F. unfold fromstring_string. cbn [map].
  destruct (@C59_fromstring Q to_number_double [] str s sep ps (fun _ p => atof p) B F ltac:(reflexivity)) as (vs & E & L & C).
  exists vs. split; [exact E|]. split; [exact L|]. intros i p Hp. exists (atof p). split; [now apply C|reflexivity].
Qed.
Print Assumptions C59_string.

(** ** C125: numbers in text *)
(** Floating point: the number the text starts with, or 0 *)
Theorem C125_double : forall str s, before_nul str s ->
  (forall t v rest, decimal t v rest -> s = t ++ rest -> exists w, to_number_double str = Ok w /\ (w == v)%Q) /\
  ((~ exists t v rest, decimal t v rest /\ s = t ++ rest) -> to_number_double str = Ok 0%Q).
Proof.
  intros str s B. apply cstr_before in B. unfold to_number_double, atof. rewrite B. split.
  - intros t v rest D ->. destruct (decimal_scan D) as (w & b & -> & W & _). exists w. now split.
  - intros H. destruct (scan_decimal s) as [[[w rest] b]|] eqn:E; [|reflexivity]. exfalso. apply H. apply scan_decimal_inv in E. destruct E as (t & v & D & -> & _). now exists t, v, rest.
Qed.
Print Assumptions C125_double.
(** ... and the specification is unambiguous *)
Theorem C125_unambiguous : forall t v rest t' v' rest', decimal t v rest -> decimal t' v' rest' -> t ++ rest = t' ++ rest' -> rest = rest' /\ (v == v')%Q.
Proof.
  intros t v rest t' v' rest' D D' E. destruct (decimal_scan D) as (w & b & S & W & _). destruct (decimal_scan D') as (w' & b' & S' & W' & _). rewrite <- E, S in S'. injection S' as <- <- <-.
  split; [reflexivity|]. now rewrite <- W.
Qed.
Print Assumptions C125_unambiguous.
(** Integers: the int the text starts with, or 0; a fraction or exponent is not read.  Undefined when it is not an int; values that the type cannot hold wrap around. *)
Theorem C125_int : forall (signed_type : bool) bits str s, (1 <= bits)%Z -> before_nul str s ->
  let fits v := (if signed_type then - 2 ^ (bits - 1) <= v < 2 ^ (bits - 1) else 0 <= v < 2 ^ bits)%Z in
  (forall t v rest, integer t v rest -> s = t ++ rest -> (- 2 ^ 31 <= v < 2 ^ 31)%Z -> fits v -> to_number_int signed_type bits str = Ok v) /\
  (forall t v rest, integer t v rest -> s = t ++ rest -> (- 2 ^ 31 <= v < 2 ^ 31)%Z -> exists w, to_number_int signed_type bits str = Ok w /\ fits w /\ ((w - v) mod 2 ^ bits = 0)%Z) /\
  (forall t v rest, integer t v rest -> s = t ++ rest -> ~ (- 2 ^ 31 <= v < 2 ^ 31)%Z -> to_number_int signed_type bits str = UB) /\
  ((~ exists t v rest, integer t v rest /\ s = t ++ rest) -> to_number_int signed_type bits str = Ok 0%Z).
Proof.
  intros sg bits str s Hb B fits. apply cstr_before in B. unfold to_number_int, atoi. rewrite B.
  assert (P : (2 ^ bits = 2 * 2 ^ (bits - 1))%Z) by (rewrite <- Z.pow_succ_r by lia; f_equal; lia). assert (P0 : (0 < 2 ^ (bits - 1))%Z) by (apply Z.pow_pos_nonneg; lia).
  assert (In : forall t v rest, integer t v rest -> s = t ++ rest -> (let '(neg, t) := take_sign (skip_space s) in signed neg (digits_value (fst (take_digits t)))) = v).
  { intros t v rest H ->. destruct (integer_scan H) as (neg & u & ds & -> & -> & V). exact V. }
  assert (Rng : forall v, (- 2 ^ 31 <= v < 2 ^ 31)%Z -> ((- 2 ^ 31 <=? v) && (v <? 2 ^ 31))%Z = true) by (intros; apply andb_true_iff; split; [apply Z.leb_le|apply Z.ltb_lt]; lia).
  split; [|split; [|split]].
  - intros t v rest H E R Fv. specialize (In t v rest H E). destruct (take_sign (skip_space s)) as [neg u]. rewrite In, Rng by exact R. cbn [bind]. f_equal. now apply cast_int_id.
  - intros t v rest H E R. specialize (In t v rest H E). destruct (take_sign (skip_space s)) as [neg u]. rewrite In, Rng by exact R. cbn [bind]. eexists. split; [reflexivity|].
    unfold cast_int, fits. destruct sg.
    + pose proof (Z.mod_pos_bound (v + 2 ^ (bits - 1)) (2 ^ bits) ltac:(lia)). split; [lia|].
      replace ((v + 2 ^ (bits - 1)) mod 2 ^ bits - 2 ^ (bits - 1) - v)%Z with (- ((v + 2 ^ (bits - 1)) / 2 ^ bits) * 2 ^ bits)%Z; [apply Z.mod_mul; lia|].
      pose proof (Z.div_mod (v + 2 ^ (bits - 1)) (2 ^ bits) ltac:(lia)). lia.
    + pose proof (Z.mod_pos_bound v (2 ^ bits) ltac:(lia)). split; [lia|]. replace (v mod 2 ^ bits - v)%Z with (- (v / 2 ^ bits) * 2 ^ bits)%Z; [apply Z.mod_mul; lia|].
      pose proof (Z.div_mod v (2 ^ bits) ltac:(lia)). lia.
  - intros t v rest H E R. specialize (In t v rest H E). destruct (take_sign (skip_space s)) as [neg u]. rewrite In.
    replace ((- 2 ^ 31 <=? v) && (v <? 2 ^ 31))%Z with false; [reflexivity|]. symmetry. apply andb_false_iff. destruct (Z.leb_spec (- 2 ^ 31) v); [right; apply Z.ltb_ge; lia|now left].
  - intros H. destruct (take_sign (skip_space s)) as [neg u] eqn:T. destruct (take_digits u) as [ds r] eqn:D. destruct ds as [|d ds].
    + cbn [fst digits_value fold_left]. unfold signed. destruct neg; cbn; f_equal; apply cast_int_id; try lia; destruct sg; cbn; lia.
    + exfalso. apply H. destruct (@take_digits_inv_int s neg u (d :: ds) r T D ltac:(discriminate)) as [I E]. eauto.
Qed.
Print Assumptions C125_int.
(** complex<double>: "x+y" with anything behind (a "j"); (nan, nan) for a text without a number, or with an exponent mark without digits behind the first number;
    undefined when the first number is not followed by a plus sign and a second number *)
Theorem C125_complex : forall str s, before_nul str s ->
  (forall t x t' y rest, decimal t x ("+"%char :: t' ++ rest) -> decimal t' y rest -> hd nul rest <> "e"%char -> hd nul rest <> "E"%char -> s = t ++ "+"%char :: t' ++ rest ->
    exists x' y', to_number_complex true str = Ok (Some (x', y')) /\ (x' == x)%Q /\ (y' == y)%Q) /\
  ((~ exists t v rest, decimal t v rest /\ s = t ++ rest) -> to_number_complex true str = Ok None) /\
  (forall t x c rest, decimal t x (c :: rest) -> c = "e"%char \/ c = "E"%char -> ~ In "e"%char t -> ~ In "E"%char t -> s = t ++ c :: rest -> to_number_complex true str = Ok None) /\
  (forall t x rest, decimal t x rest -> hd nul rest <> "e"%char -> hd nul rest <> "E"%char -> hd nul rest <> "+"%char -> s = t ++ rest -> to_number_complex true str = UB).
Proof.
  intros str s B. apply cstr_before in B. unfold to_number_complex. rewrite B.
  assert (NI : forall r, hd nul r <> "e"%char -> hd nul r <> "E"%char -> ~ incomplete r) by (intros [|c r] H1 H2; [intros []|]; cbn in *; intros [X|X]; congruence).
  split; [|split; [|split]].
  - intros t x t' y rest D D' H1 H2 ->. destruct (scanf_complete D) as (x' & -> & X); [cbn; intros [C|C]; discriminate|]. replace (Ascii.eqb "+" "+") with true by reflexivity.
    destruct (scanf_complete D') as (y' & -> & Y); [now apply NI|]. now exists x', y'.
  - intros H. unfold scanf_double. destruct (scan_decimal s) as [[[w rest] b]|] eqn:E; [|reflexivity]. exfalso. apply H. apply scan_decimal_inv in E. destruct E as (t & v & D & -> & _). now exists t, v, rest.
  - intros t x c rest D C A1 A2 ->. now rewrite (scanf_incomplete D).
  - intros t x rest D H1 H2 H3 ->. destruct (scanf_complete D) as (x' & -> & X); [now apply NI|]. destruct rest as [|c rest]; [reflexivity|]. cbn [hd] in H3. now rewrite ascii_eqb_false.
Qed.
Print Assumptions C125_complex.
Example C125_nonvacuous : (exists v, decimal (T " -1.5e2") v (T "kg") /\ (v == -150 # 1)%Q) /\ (exists v, decimal (T ".5") v (T "e+") /\ (v == 1 # 2)%Q) /\
  integer (T " -1") (-1) (T ".5e2") /\ (~ exists t v rest, decimal t v rest /\ T "+.e5" = t ++ rest) /\
  (exists x y, decimal (T "1") x (T "+-2j") /\ decimal (T "-2") y (T "j") /\ (x == 1)%Q /\ (y == -2 # 1)%Q).
Proof.
  assert (D : forall c d, digit_ok d -> c = digit_char d -> digits [c] d) by (intros c d H ->; apply digits_iff; exists [d]; split; [now constructor|split; [reflexivity|now rewrite digits_value_one]]).
  assert (NS : forall r, no_digit_first r -> ~ starts_digit r) by (intros; now apply starts_digit_iff).
  assert (NE : forall r, take_exp r = (0%Z, r, true) \/ take_exp r = (0%Z, r, false) -> ~ starts_exponent r).
  { intros r H (t & e & r' & E & X). destruct (take_exp_inv r') as (_ & _ & _ & _ & _). pose proof X as X'. apply exponent_iff in X. destruct X as (m & sg & k & ds & M & S & F & N & -> & ->). subst r.
    destruct ds as [|d ds]; [congruence|]. assert (Od : digit_ok d) by (now inversion F). cbn [app] in H. rewrite <- app_assoc in H. cbn [take_exp] in H.
    destruct (@take_sign_ok sg k (map digit_char (d :: ds) ++ r') S (plain_digit _ Od)) as (neg & T' & _). rewrite T' in H. replace (Ascii.eqb m "e" || Ascii.eqb m "E") with true in H by (destruct M as [->| ->]; reflexivity).
    cbn [map app take_digits] in H. rewrite is_digit_char in H by exact Od. destruct (take_digits (map digit_char ds ++ r')) as [ds' u] eqn:Et. pose proof Et as Et'. apply take_digits_inv in Et. destruct Et as (_ & Eq & _).
    assert (L : length u < length (m :: sg ++ digit_char d :: map digit_char ds ++ r')) by (cbn [length]; rewrite app_length; cbn [length]; rewrite Eq, (app_length (map digit_char ds') u); lia).
    destruct H as [H|H]; injection H as _ H; rewrite <- H in L; cbn [length] in L; rewrite ?app_length in L; cbn [length] in L; lia. }
  assert (B : blank " ") by now left.
  split; [|split; [|split; [|split]]].
  - eexists. split; [apply (@decimal_intro [" "%char] ["-"%char] (-1) ["1"%char] (T ".5") ["5"%char] (T "e2") 2 15)|reflexivity].
    + now constructor.
    + constructor.
    + change 15%Z with (10 * 1 + 5)%Z. apply (@digits_snoc ["1"%char] 1 "5"%char 5); [apply D; [unfold digit_ok; lia|reflexivity]|]. apply digit_char_iff. split; [unfold digit_ok; lia|reflexivity].
    + discriminate.
    + now apply NS.
    + apply (@fraction_some ["5"%char] 5); [apply D; [unfold digit_ok; lia|reflexivity]|now apply NS].
    + apply some_exponent; [|now apply NS]. apply (@exponent_intro "e"%char [] 1 ["2"%char] 2); [now left|constructor|apply D; [unfold digit_ok; lia|reflexivity]|discriminate].
  - eexists. split; [apply (@decimal_intro [] [] 1 [] (T ".5") ["5"%char] [] 0 5)|reflexivity].
    + constructor.
    + constructor.
    + apply D; [unfold digit_ok; lia|reflexivity].
    + discriminate.
    + now apply NS.
    + apply (@fraction_some ["5"%char] 5); [apply D; [unfold digit_ok; lia|reflexivity]|now apply NS].
    + apply no_exponent. apply NE. now right.
  - apply (@integer_intro [" "%char] ["-"%char] (-1) ["1"%char] 1); [now constructor|constructor|apply D; [unfold digit_ok; lia|reflexivity]|discriminate|now apply NS].
  - apply scan_decimal_none. reflexivity.
  - eexists. eexists. split; [apply (@decimal_intro [] [] 1 ["1"%char] [] [] [] 0 1)|split; [apply (@decimal_intro [] ["-"%char] (-1) ["2"%char] [] [] [] 0 2)|split; reflexivity]];
      try (now constructor); try discriminate; try (apply D; [unfold digit_ok; lia|reflexivity]); try (now apply NS); try (constructor; discriminate); apply no_exponent, NE; now left.
Qed.
Definition demo_file : text := T ("1;2;3" ^^ nl ^^ "% comment" ^^ nl ^^ "4;5;6" ^^ nl).
Definition demo_calls : list (@setter Z) := [SDelimiter ";"; SComments "%"; SUsecols [0; 1]%Z; SUsecols [2; 0]%Z].
Definition demo_tuple_calls : list (@setter Z) := [SDelimiter ";"; SComments "%"; SUsecols [2; 0]%Z; SFilters [(2%Z, fun v => (v <? 5)%Z)]].
Example C61_load_nonvacuous :
  calls_ok 1 demo_calls /\ usecols_ok (usecols_after demo_calls) /\ delimiter_after demo_calls = ";"%char /\ usecols_after demo_calls = [0; 2]%Z /\
  (exists o, set_all 1 default_loader demo_calls = Ok o /\ load atoi o (Some demo_file) = Ok [[1; 3]; [4; 6]]%Z) /\
  calls_ok 2 demo_tuple_calls /\
  (exists o, set_all 2 default_loader demo_tuple_calls = Ok o /\ load_tuple [atoi; atoi] o (Some demo_file) true = Ok [[1; 3]]%Z /\ load_tuple [atoi; atoi] o (Some demo_file) false = Ok [[1]; [3]]%Z).
Proof.
  assert (C : forall n ss, Forall (fun s => ~ variadic s) ss -> Forall (@usecols_valid Z n) ss -> calls_ok n ss) by (intros; now split).
  split; [|split; [|split; [|split; [|split; [|split]]]]].
  - apply C; unfold demo_calls; repeat constructor; cbn; intros X; exact X.
  - split; [|cbn; intuition lia]. intros [|[|i]] [|[|j]] Hi Hj; cbn in *; lia.
  - reflexivity.
  - reflexivity.
  - eexists. split; reflexivity.
  - apply C; unfold demo_tuple_calls; repeat constructor; cbn; try (intros X; exact X); right; lia.
  - eexists. split; [reflexivity|]. split; reflexivity.
Qed.
