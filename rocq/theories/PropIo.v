(** Properties C59-C61 (scicpp/core/io.hpp). *)
From Coq Require Import ZArith QArith Ascii String.
From Verif Require Import Base Io IoSpec IoFacts IoFacts2 IoNumber IoNumberFacts IoFacts3.
From Coq Require Import Lia.
Open Scope nat_scope.
Set Implicit Arguments.
(** Texts of the examples *)
Definition T (s : string) : text := list_ascii_of_string s.
Definition nl : string := String "010"%char EmptyString.
Notation "a ^^ b" := (String.append a b) (at level 60, right associativity).

(** ** C59 *)
(** The specification determines the pieces of every text. *)
Theorem C59_pieces_unique : forall sep s, exists ps, fields sep s ps /\ forall qs, fields sep s qs -> qs = ps.
Proof. intros sep s. exists (pieces sep s []). split; [apply pieces_fields|intros qs; apply fields_pieces]. Qed.
Print Assumptions C59_pieces_unique.

(** fromstring: the i-th value is the i-th non-empty piece (of the text before the first NUL), converted by the converter registered for position i
    or by the parser of the element type. *)
Theorem C59_fromstring : forall (V : Type) (num : text -> outcome V) convs str s sep ps (f : nat -> text -> V),
  before_nul str s -> fields sep s ps ->
  (forall i p, nth_error ps i = Some p -> match dict_find convs (Z.of_nat i) with Some g => g p | None => num p end = Ok (f i p)) ->
  exists vs, fromstring num str sep convs = Ok vs /\ length vs = length ps /\ forall i p, nth_error ps i = Some p -> nth_error vs i = Some (f i p).
Proof.
  intros V num convs str s sep ps f B F H. apply cstr_before in B as E. unfold fromstring, push_string_to_vector. rewrite iterate_line_all. cbn [bind]. rewrite E.
  rewrite <- (fields_pieces F). destruct (@push_conv V num convs (columns ps) [] 0%Z) with (f := f) as [vs [P [L C]]].
  - intros p I. rewrite columns_fst in I. apply (@fields_no_nul _ _ _ _ F); [rewrite <- E; apply cstr_no_nul|exact I].
  - intros i p I. rewrite columns_fst in I. rewrite Z.add_0_l. apply H, I.
  - rewrite P. cbn [bind fst app]. exists vs. split; [reflexivity|]. rewrite columns_fst in C.
    split; [rewrite L; rewrite <- (columns_fst ps) at 2; now rewrite map_length|exact C].
Qed.
Print Assumptions C59_fromstring.

(** Reading back printed values: for any element type whose parser inverts its printer, and any separator that does not occur in printed values. *)
Theorem C59_roundtrip : forall (V : Type) (num : text -> outcome V) (put : V -> text) sep (xs : list V), sep <> nul ->
  (forall x, In x xs -> put x <> [] /\ ~ In sep (put x) /\ ~ In nul (put x) /\ num (put x) = Ok x) ->
  fromstring num (join sep (map put xs)) sep [] = Ok xs.
Proof.
  intros V num put sep xs S H.
  assert (F : fields sep (join sep (map put xs)) (map put xs)).
  { apply fields_join. rewrite Forall_forall. intros p I. apply in_map_iff in I. destruct I as [x [<- I]]. destruct (H x I) as [A [B _]]. now split. }
  unfold fromstring, push_string_to_vector. rewrite iterate_line_all. cbn [bind]. rewrite cstr_free.
  - rewrite <- (fields_pieces F). assert (G : forall (xs : list V) vec len, (forall x, In x xs -> num (put x) = Ok x) ->
      push_tokens num vec (number (map put xs) len) len [] [] = Ok (vec ++ xs, (len + Z.of_nat (length xs))%Z)).
    { clear. induction xs as [|x xs IH]; intros vec len H; cbn [map number push_tokens length].
      - rewrite app_nil_r. do 2 f_equal. lia.
      - unfold convert. cbn [is_nil negb]. rewrite H by now left. cbn [bind]. rewrite IH by (intros y I; apply H; now right). rewrite <- app_assoc. cbn [app]. do 2 f_equal. lia. }
    rewrite <- number_columns, G by (intros x I; apply H, I). reflexivity.
  - intros X. apply join_chars in X. destruct X as [X|[p [I X]]]; [auto|]. apply in_map_iff in I. destruct I as [x [<- I]]. apply (H x I). exact X.
Qed.
Print Assumptions C59_roundtrip.
(** Integers: every list of int values, with every separator that is not a digit, a minus sign or NUL (std::string and const char* texts of ints alike). *)
Theorem C59_int_roundtrip_partial : forall sep (xs : list Z), is_digit sep = false -> sep <> "-"%char -> sep <> nul ->
  Forall (fun x => (- 2 ^ 31 <= x < 2 ^ 31)%Z) xs ->
  fromstring (to_number_int true 32) (join sep (map print_int xs)) sep [] = Ok xs.
Proof.
  intros sep xs D M N F. apply C59_roundtrip; [exact N|]. intros x I. rewrite Forall_forall in F. specialize (F x I). split; [apply print_int_nonempty|].
  split; [intros X; apply print_int_chars in X; destruct X; congruence|]. split; [apply print_int_no_nul|].
  unfold to_number_int. rewrite <- (app_nil_r (print_int x)), atoi_print by (auto; cbn; auto). cbn [bind]. f_equal. apply cast_int_id; lia.
Qed.
Print Assumptions C59_int_roundtrip_partial.

(** FINDINGS. 64-bit integers that are not ints are parsed by std::atoi: undefined behaviour. *)
Theorem C59_int64_refuted : forall n sep, (n < - 2 ^ 31 \/ 2 ^ 31 <= n)%Z -> is_digit sep = false -> sep <> "-"%char ->
  fromstring (to_number_int true 64) (print_int n) sep [] = UB.
Proof.
  intros n sep H D M. unfold fromstring, push_string_to_vector. rewrite iterate_line_all. cbn [bind]. rewrite cstr_free by apply print_int_no_nul.
  rewrite pieces_free by (intros X; apply print_int_chars in X; destruct X; congruence). cbn [app]. rewrite emit_nonempty by apply print_int_nonempty.
  cbn. unfold to_number_int. rewrite atoi_overflow by exact H. reflexivity.
Qed.
Print Assumptions C59_int64_refuted.
(** The std::string overload of fromstring<DataType> drops DataType: fromstring<int>("7.5") is {7}, but fromstring<int>(std::string("7.5")) is the
    vector<double> {7.5}, and a converter that returns an int makes it throw. *)
Theorem C59_string_overload_refuted :
  fromstring (to_number_int true 32) (T "7.5") " " [] = Ok [7%Z] /\
  (exists q, fromstring_string (to_number_int true 32) (T "7.5") " " [] = Ok [q] /\ (q == 15 # 2)%Q) /\
  (forall n, fromstring (to_number_int true 32) (T "7.5") " " [(0%Z, fun _ => Ok n)] = Ok [n] /\
             fromstring_string (to_number_int true 32) (T "7.5") " " [(0%Z, fun _ => Ok n)] = Throw).
Proof.
  split; [reflexivity|]. split; [eexists; split; [reflexivity|reflexivity]|]. intros n. split; reflexivity.
Qed.
Print Assumptions C59_string_overload_refuted.
Example C59_nonvacuous :
  fields ","%char (T ",12,,-3,") [T "12"; T "-3"] /\ before_nul (T ",12,,-3,") (T ",12,,-3,") /\
  fromstring (to_number_int true 32) (T ",12,,-3,") "," [] = Ok [12; -3]%Z /\ join ","%char (map print_int [12; -3]%Z) = T "12,-3".
Proof.
  split; [apply fields_iff; reflexivity|]. split; [constructor; cbn; intuition discriminate|]. split; reflexivity.
Qed.

(** ** C60 *)
(** The rows that are read are the counted ones: after skiprows lines, without comment lines, at most max_rows. *)
Theorem C60_rows : forall content ls comments skiprows max_rows, lines content ls ->
  iterate_file (Some content) comments skiprows max_rows = Ok (counted comments skiprows max_rows ls).
Proof. intros. now apply iterate_file_spec. Qed.
Print Assumptions C60_rows.
Theorem C60_lines_unique : forall s, exists ls, lines s ls /\ forall ks, lines s ks -> ks = ls.
Proof. intros s. exists (flines s []). split; [apply flines_lines|intros ks; apply lines_flines]. Qed.
Print Assumptions C60_lines_unique.

(** [cells_of sep usecols line cs]: cs are the non-empty pieces of the line whose column number is listed in usecols, with their numbers. *)
Definition cells_of (sep : ascii) (usecols : list Z) (line : text) (cs : list (text * Z)) : Prop :=
  exists s ps, before_nul line s /\ fields sep s ps /\ cs = chosen usecols (columns ps).
Definition usecols_ok (usecols : list Z) : Prop := increasing usecols /\ forall c, In c usecols -> (0 <= c)%Z.

Lemma cells_line sep usecols line cs : usecols_ok usecols -> cells_of sep usecols line cs -> iterate_line line sep usecols = Ok cs /\
  forall p, In p (map fst cs) -> ~ In nul p.
Proof.
  intros [I P] [s [ps [B [F ->]]]]. apply cstr_before in B. rewrite iterate_line_chosen by assumption. rewrite B, <- (fields_pieces F). split; [reflexivity|].
  intros p Hp. apply in_map_iff in Hp. destruct Hp as [x [<- Hx]]. apply (@fields_no_nul _ _ _ _ F); [rewrite <- B; apply cstr_no_nul|].
  apply columns_in. now apply chosen_in in Hx.
Qed.

(** One element type, no converters or filters: the matrix of the chosen cells of the counted rows (at least one row and one column, all rows of
    the same length). *)
Theorem C60_matrix_partial : forall (V : Type) (num : text -> outcome V) (f : text -> V) content ls comments sep skiprows usecols max_rows rows m,
  usecols_ok usecols -> lines content ls ->
  Forall2 (cells_of sep usecols) (counted comments skiprows max_rows ls) rows -> rows <> [] -> m <> 0 ->
  Forall (fun cs => length cs = m /\ forall x, In x cs -> num (fst x) = Ok (f (fst x))) rows ->
  loadtxt num (Some content) comments sep skiprows usecols [] [] max_rows = Ok (map (map (fun x => f (fst x))) rows) /\
  loadtxt_to_vector num (Some content) comments sep skiprows usecols [] [] max_rows = Ok (concat (map (map (fun x => f (fst x))) rows), Z.of_nat m).
Proof.
  intros V num f content ls comments sep skiprows usecols max_rows rows m U L C NE M A.
  assert (E : loadtxt_to_vector num (Some content) comments sep skiprows usecols [] [] max_rows = Ok (concat (map (map (fun x => f (fst x))) rows), Z.of_nat m)).
  { unfold loadtxt_to_vector. rewrite (iterate_file_spec _ _ _ L). cbn [bind]. set (lns := counted _ _ _ _) in *.
    rewrite (@load_rows_ok V num f sep usecols m lns rows []); [| |now left].
    - cbn [app]. f_equal. f_equal; [f_equal; apply map_ext; intros cs; apply map_map|]. destruct lns; [inversion C; subst; congruence|reflexivity].
    - rewrite Forall_forall in A. assert (A' : forall cs, In cs rows -> length cs = m /\ forall x, In x cs -> num (fst x) = Ok (f (fst x))) by exact A.
      clear - U C A'. revert A'. induction C as [|l cs lns rows H C IH]; intros A; [constructor|]. constructor; [|apply IH; intros x Hx; apply A; now right].
      destruct (cells_line U H) as [E _]. destruct (A cs (or_introl eq_refl)) as [A1 A2]. split; [exact E|]. split; [exact A1|].
      intros p Hp. apply in_map_iff in Hp. destruct Hp as [x [<- Hx]]. now apply A2. }
  split; [|exact E]. unfold loadtxt. rewrite E. cbn [bind]. apply matrix_rows; [|exact M]. rewrite Forall_forall. intros r Hr. apply in_map_iff in Hr. destruct Hr as [cs [<- Hc]].
  rewrite map_length. rewrite Forall_forall in A. apply A, Hc.
Qed.
Print Assumptions C60_matrix_partial.

(** Several element types: one tuple per counted row, each cell converted by the converter of its column or the parser of its type; the rows with a cell
    rejected by its column's filter are dropped. *)
Theorem C60_tuples_partial : forall (V : Type) (types : list (text -> outcome V)) convs filters content ls comments sep skiprows usecols max_rows rows vals,
  usecols_ok usecols -> lines content ls ->
  Forall2 (cells_of sep usecols) (counted comments skiprows max_rows ls) rows ->
  Forall2 (row_values convs types) rows vals ->
  exists kept_rows,
    kept (fun x => Forall2 (fun cell v => match dict_find filters (snd cell) with Some accept => accept v = true | None => True end) (fst x) (snd x)) (combine rows vals) kept_rows /\
    loadtxt_tuple types (Some content) comments sep skiprows usecols convs filters max_rows = Ok (map snd kept_rows).
Proof.
  intros V types convs filters content ls comments sep skiprows usecols max_rows rows vals U L C R. unfold loadtxt_tuple.
  rewrite (iterate_file_spec _ _ _ L). cbn [bind]. apply load_lines_ok; [|exact R].
  clear - U C. induction C as [|l cs lns rows H C IH]; constructor; [|exact IH]. now apply cells_line.
Qed.
Print Assumptions C60_tuples_partial.
(** A row with another number of cells than types aborts. *)
Theorem C60_tuple_columns : forall (V : Type) (types : list (text -> outcome V)) convs filters content ls comments sep skiprows usecols max_rows cs rest,
  usecols_ok usecols -> lines content ls -> (exists line, counted comments skiprows max_rows ls = line :: rest /\ cells_of sep usecols line cs) ->
  length cs <> length types ->
  loadtxt_tuple types (Some content) comments sep skiprows usecols convs filters max_rows = RequireFail.
Proof.
  intros V types convs filters content ls comments sep skiprows usecols max_rows cs rest U L [line [E C]] N. unfold loadtxt_tuple.
  rewrite (iterate_file_spec _ _ _ L), E. cbn [bind map_outcome]. unfold load_line_to_tuple, tokenize. rewrite (proj1 (cells_line U C)). cbn [bind].
  rewrite tokenize_bad by lia. reflexivity.
Qed.
Print Assumptions C60_tuple_columns.

(** FINDINGS.  A matrix load from a file that cannot be opened, or of a file without a counted row, divides by zero, whatever the options. *)
Theorem C60_no_rows_refuted : forall (V : Type) (num : text -> outcome V) file comments sep skiprows usecols convs filters max_rows,
  (file = None \/ exists content ls, file = Some content /\ lines content ls /\ counted comments skiprows max_rows ls = []) ->
  loadtxt num file comments sep skiprows usecols convs filters max_rows = UB.
Proof.
  intros V num file comments sep skiprows usecols convs filters max_rows [->|[content [ls [-> [L E]]]]]; [reflexivity|].
  unfold loadtxt, loadtxt_to_vector. rewrite (iterate_file_spec _ _ _ L), E. reflexivity.
Qed.
Print Assumptions C60_no_rows_refuted.
(** Rows of different lengths abort; in particular any blank line among non-blank ones, e.g. at the end of the file. *)
Theorem C60_ragged_refuted : forall (V : Type) (num : text -> outcome V) (f : text -> V) content ls comments sep skiprows usecols max_rows cs rows,
  usecols_ok usecols -> lines content ls ->
  Forall2 (cells_of sep usecols) (counted comments skiprows max_rows ls) (cs :: rows) ->
  (forall r, In r (cs :: rows) -> forall x, In x r -> num (fst x) = Ok (f (fst x))) ->
  (exists r, In r rows /\ length r <> length cs) ->
  loadtxt num (Some content) comments sep skiprows usecols [] [] max_rows = RequireFail.
Proof.
  intros V num f content ls comments sep skiprows usecols max_rows cs rows U L C A B.
  unfold loadtxt, loadtxt_to_vector. rewrite (iterate_file_spec _ _ _ L). cbn [bind]. inversion C as [|l ? lns ? HC C' E1]; subst. clear C E1. cbn [load_rows].
  unfold push_string_to_vector. rewrite (proj1 (cells_line U HC)). cbn [bind]. rewrite (@push_plain V num f).
  2:{ intros p Hp. apply in_map_iff in Hp. destruct Hp as [x [<- Hx]]. apply (A cs); [now left|exact Hx]. }
  cbn [bind]. rewrite Z.add_0_l. rewrite (@load_rows_ragged V num f sep usecols lns rows); [reflexivity| |exact B].
  assert (A' : forall r, In r rows -> forall x, In x r -> num (fst x) = Ok (f (fst x))) by (intros r Hr; apply A; now right).
  clear - U C' A'. revert A'. induction C' as [|l cs lns rows H C IH]; intros A; [constructor|]. constructor; [|apply IH; intros x Hx; apply A; now right].
  split; [exact (proj1 (cells_line U H))|]. intros p Hp. apply in_map_iff in Hp. destruct Hp as [x [<- Hx]]. apply (A cs); [now left|exact Hx].
Qed.
Print Assumptions C60_ragged_refuted.
(** usecols that are not increasing lose columns: after column a, a column b <= a is never found, nor anything listed after it; a negative
    first entry reads nothing. *)
Theorem C60_usecols_refuted : forall sep line s ps a b rest, before_nul line s -> fields sep s ps ->
  ((b <= a)%Z -> (0 <= a)%Z -> iterate_line line sep (a :: b :: rest) = Ok (chosen [a] (columns ps))) /\
  ((a < 0)%Z -> iterate_line line sep (a :: rest) = Ok []).
Proof.
  intros sep line s ps a b rest B F. apply cstr_before in B. split.
  - intros H P. rewrite iterate_line_cols by discriminate. rewrite B, <- (fields_pieces F), <- number_columns, select_stuck by assumption.
    f_equal. unfold chosen. apply filter_ext. intros x. cbn. now rewrite orb_false_r.
  - intros H. rewrite iterate_line_cols by discriminate. rewrite <- number_columns, select_negative by (cbn; lia). reflexivity.
Qed.
Print Assumptions C60_usecols_refuted.
(** With one element type converters are looked up by the position among the used columns, not by the column number: with usecols = {c}, c > 0, a
    converter for column c is ignored (and one for column 0 is applied to column c).  With several types they are looked up by column number. *)
Theorem C60_converters_refuted : forall (V : Type) (num g : text -> outcome V) vec line sep c, (0 < c)%Z ->
  push_string_to_vector num vec line sep [(c, g)] [] [c] = push_string_to_vector num vec line sep [] [] [c] /\
  push_string_to_vector num vec line sep [(0%Z, g)] [] [c] = push_string_to_vector g vec line sep [] [] [c].
Proof.
  intros V num g vec line sep c H. unfold push_string_to_vector. rewrite iterate_line_cols by discriminate. cbn [bind]. 
  assert (S : forall cols, exists r, select [c] 0 cols = r /\ (r = [] \/ exists p, r = [(p, c)] /\ In (p, c) cols)).
  { induction cols as [|[p k] cols IH]; [exists []; split; [reflexivity|now left]|]. cbn [select nth length Nat.eqb]. destruct (Z.eqb c k) eqn:E.
    - apply Z.eqb_eq in E. subst k. eexists. split; [reflexivity|]. right. exists p. split; [reflexivity|now left].
    - destruct IH as [r [E1 [->|[q [-> I]]]]]; (eexists; split; [exact E1|]); [now left|]. right. exists q. split; [reflexivity|now right]. }
  destruct (S (columns (pieces sep (cstr line) []))) as [r [-> [->|[p [-> I]]]]]; [split; reflexivity|].
  assert (Z0 : cstr p = p).
  { apply cstr_free. apply (@fields_no_nul sep (cstr line) (pieces sep (cstr line) [])); [apply pieces_fields|apply cstr_no_nul|]. now apply columns_in in I. }
  cbn [push_tokens]. unfold convert. cbn [is_nil negb dict_find]. replace (Z.eqb c 0) with false by (symmetry; apply Z.eqb_neq; lia).
  rewrite Z0. split; reflexivity.
Qed.
Print Assumptions C60_converters_refuted.
(** With one element type a filter drops cells, not rows, and the matrix is misaligned. *)
Theorem C60_filters_refuted :
  loadtxt (to_number_int true 32) (Some (T ("1 2" ^^ nl ^^ "3 4" ^^ nl ^^ "5 6" ^^ nl))) "#" " " 0 [] [] [(0%Z, fun v => negb (Z.eqb v 3))] (-1)
  = Ok [[1; 2]; [4; 5]]%Z.
Proof. reflexivity. Qed.
Print Assumptions C60_filters_refuted.

Example C60_nonvacuous :
  let content := T ("head" ^^ nl ^^ "# c" ^^ nl ^^ "1 2 3" ^^ nl ^^ "4 5 6" ^^ nl ^^ "7 8 9") in
  counted "#" 1 2 (flines content []) = [T "1 2 3"; T "4 5 6"] /\ usecols_ok [0; 2]%Z /\
  cells_of " " [0; 2]%Z (T "1 2 3") [(T "1", 0%Z); (T "3", 2%Z)] /\
  loadtxt (to_number_int true 32) (Some content) "#" " " 1 [0; 2]%Z [] [] 2 = Ok [[1; 3]; [4; 6]]%Z /\
  loadtxt_tuple [to_number_int true 32; to_number_int true 32] (Some content) "#" " " 1 [0; 2]%Z [] [(2%Z, fun v => Z.eqb v 6)] 2 = Ok [[4; 6]]%Z /\
  loadtxt (to_number_int true 32) (Some (T ("1 2" ^^ nl ^^ nl))) "#" " " 0 [] [] [] (-1) = RequireFail.
Proof.
  split; [reflexivity|]. split; [|split; [|split; [reflexivity|split; reflexivity]]].
  - split; [|intros c [<-|[<-|[]]]; lia]. intros i j Hi Hj. cbn in Hj. destruct j as [|[|j]]; [lia| |lia]. destruct i; [cbn; lia|lia].
  - exists (T "1 2 3"), [T "1"; T "2"; T "3"]. split; [constructor; cbn; intuition discriminate|]. split; [apply fields_iff; reflexivity|reflexivity].
Qed.

(** ** C61 *)
(** What one option looks like after a sequence of setter calls: the argument of the last call that sets it, or the initial value. *)
Fixpoint last_set {V A : Type} (get : @setter V -> option A) (init : A) (ss : list setter) : A :=
  match ss with [] => init | s :: r => last_set get (match get s with Some a => a | None => init end) r end.
Definition variadic {V} (s : @setter V) : Prop := match s with SUsecolsVariadic _ => True | _ => False end.
Definition usecols_valid {V} (n : nat) (s : @setter V) : Prop := match s with SUsecols l => n = 1 \/ (1 < n /\ length l = n) | _ => True end.

(** The vector overloads of usecols: every option has the value of the last call that sets it, in any order of calls; the columns are sorted. *)
Theorem C61_last_wins_partial : forall (V : Type) (n : nat) (o : @loader V) (ss : list setter), 0 < n ->
  Forall (fun s => ~ variadic s) ss -> Forall (usecols_valid n) ss ->
  set_all n o ss = Ok (Loader
    (last_set (fun s => match s with SDelimiter c => Some c | _ => None end) (l_delimiter o) ss)
    (last_set (fun s => match s with SSkiprows k => Some k | _ => None end) (l_skiprows o) ss)
    (last_set (fun s => match s with SComments c => Some c | _ => None end) (l_comments o) ss)
    (last_set (fun s => match s with SUsecols l => Some (sort l) | _ => None end) (l_usecols o) ss)
    (last_set (fun s => match s with SConverters d => Some d | _ => None end) (l_converters o) ss)
    (last_set (fun s => match s with SFilters d => Some d | _ => None end) (l_filters o) ss)
    (last_set (fun s => match s with SMaxRows k => Some k | _ => None end) (l_max_rows o) ss)).
Proof.
  intros V n o ss P NV UV. revert o. induction ss as [|s ss IH]; intros o; [destruct o; reflexivity|].
  inversion NV; subst. inversion UV; subst. cbn [set_all]. destruct s; cbn [set bind]; try (rewrite IH by assumption; reflexivity).
  - replace ((1 <? n) && (length l =? n) || (n =? 1)) with true.
    + cbn [require bind]. rewrite IH by assumption. reflexivity.
    + symmetry. apply orb_true_iff. cbn in H3. destruct H3 as [->|[A B]]; [right; reflexivity|]. left. apply andb_true_iff. split; [now apply Nat.ltb_lt|now apply Nat.eqb_eq].
  - exfalso. apply H1. exact I.
Qed.
Print Assumptions C61_last_wins_partial.

(** The sorted list has the same columns, in increasing order. *)
Theorem C61_sort : forall l, (forall c, count_occ Z.eq_dec (sort l) c = count_occ Z.eq_dec l c) /\
  forall i j, i < j -> j < length (sort l) -> (nth i (sort l) 0 <= nth j (sort l) 0)%Z.
Proof.
  assert (IC : forall x l c, count_occ Z.eq_dec (insert x l) c = count_occ Z.eq_dec (x :: l) c).
  { intros x l c. induction l as [|y l IH]; [reflexivity|]. cbn [insert]. destruct (Z.leb x y); [reflexivity|]. cbn [count_occ] in *.
    destruct (Z.eq_dec y c), (Z.eq_dec x c); rewrite IH; reflexivity. }
  assert (II : forall x l y, In y (insert x l) -> y = x \/ In y l).
  { intros x l y. induction l as [|z l IH]; cbn; [intuition|]. destruct (Z.leb x z); cbn; intuition. }
  assert (SI : forall x l, (forall i j, i < j -> j < length l -> (nth i l 0 <= nth j l 0)%Z) ->
    forall i j, i < j -> j < length (insert x l) -> (nth i (insert x l) 0 <= nth j (insert x l) 0)%Z).
  { intros x l. induction l as [|y l IH]; intros SO i j H L.
    - cbn in L. lia.
    - cbn [insert] in *. destruct (Z.leb x y) eqn:E.
      + apply Z.leb_le in E. destruct i as [|i], j as [|j]; try lia.
        * cbn [nth length] in *. destruct j as [|j]; [exact E|]. pose proof (SO 0 (S j)) as X. cbn [nth length] in X. specialize (X ltac:(lia) ltac:(lia)). cbn [nth]. lia.
        * cbn [nth]. apply SO; cbn [length] in *; lia.
      + apply Z.leb_gt in E. destruct i as [|i], j as [|j]; try lia; cbn [nth].
        * assert (IN : In (nth j (insert x l) 0%Z) (insert x l)) by (apply nth_In; cbn [length] in L; lia). apply II in IN. destruct IN as [->|IN]; [lia|].
          apply (In_nth _ _ 0%Z) in IN. destruct IN as [k [Hk <-]]. apply (SO 0 (S k)); cbn [length]; lia.
        * apply IH; [|lia|cbn [length] in L; lia]. intros a b Hab Hb. apply (SO (S a) (S b)); cbn [length]; lia. }
  induction l as [|x l [IH1 IH2]]; [split; [reflexivity|cbn; lia]|]. cbn [sort]. split.
  - intros c. rewrite IC. cbn [count_occ]. now rewrite IH1.
  - apply SI, IH2.
Qed.
Print Assumptions C61_sort.

(** FINDING: the variadic usecols(columns...) appends to the columns already set, so the last call does not win. *)
Theorem C61_usecols_variadic_refuted : forall (V : Type) (o : @loader V) (l l' : list Z),
  set_all 1 o [SUsecols l; SUsecolsVariadic l'] =
  Ok (Loader (l_delimiter o) (l_skiprows o) (l_comments o) (sort (sort l ++ l')) (l_converters o) (l_filters o) (l_max_rows o)) /\
  set_all 1 (@default_loader V) [SUsecolsVariadic [3]; SUsecolsVariadic [1]]%Z =
  Ok (Loader " " 0 "#" [1; 3]%Z [] [] (-1)).
Proof. intros V o l l'. split; reflexivity. Qed.
Print Assumptions C61_usecols_variadic_refuted.
(** With several element types, a second call leaves more columns than types. *)
Example C61_nonvacuous :
  (exists o, set_all 2 (@default_loader Z) [SDelimiter ","; SSkiprows 1; SUsecols [2; 0]%Z; SDelimiter ";"; SUsecols [3; 1]%Z] = Ok o /\
    l_delimiter o = ";"%char /\ l_skiprows o = 1%Z /\ l_usecols o = [1; 3]%Z /\ l_comments o = "#"%char) /\
  (exists o, set_all 2 (@default_loader Z) [SUsecolsVariadic [0; 1]; SUsecolsVariadic [2; 3]]%Z = Ok o /\ l_usecols o = [0; 1; 2; 3]%Z) /\
  set_all 2 (@default_loader Z) [SUsecols [1]%Z] = RequireFail.
Proof. split; [eexists; repeat split|]. split; [eexists; repeat split|]. reflexivity. Qed.
