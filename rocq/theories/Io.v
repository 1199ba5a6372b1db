(** Model of scicpp/core/io.hpp (and unpack of scicpp/core/tuple.hpp).

    A text is a list of characters, a file the text it contains or [None] when it cannot be opened (no I/O errors while reading or writing).
    Element types and their parsers are parameters (IoNumber.v models std::atoi, std::atof and std::sscanf).  A std::any_cast to the wrong type is
    [Throw].  C++ integers are unbounded here (column and row counters). *)
From Coq Require Import ZArith Ascii.
From Verif Require Import Base.
Open Scope nat_scope.
Set Implicit Arguments.

Definition text := list ascii.
Definition nul : ascii := "000"%char.
Definition newline : ascii := "010"%char.
Definition is_nil {A} (l : list A) : bool := match l with [] => true | _ => false end.

(** A const char* argument is the text up to the terminating NUL: what std::stringstream(str) and T{str} see of str.data(). *)
Fixpoint cstr (s : text) : text := match s with [] => [] | c :: r => if Ascii.eqb c nul then [] else c :: cstr r end.

(** map with an operation that may abort: the first failing element decides *)
Fixpoint map_outcome {A B} (f : A -> outcome B) (a : list A) : outcome (list B) :=
  match a with [] => Ok [] | x :: r => do y <- f x; do ys <- map_outcome f r; Ok (y :: ys) end.

(** ** std::getline([istream.extractors] / [string.io]) *)
(** What a stream still holds, and whether good() (no eofbit, failbit). *)
Record stream := Stream { st_rest : text; st_good : bool }.
Fixpoint extract (delim : ascii) (rest : text) : text * text * bool :=
  match rest with
  | [] => ([], [], true)
  | c :: r => if Ascii.eqb c delim then ([], r, false) else let '(t, r', eof) := extract delim r in (c :: t, r', eof)
  end.
(** The result is (conversion of the stream to bool, the string, the stream).  The sentry fails on a stream that is not good and leaves the string;
    the delimiter is extracted and dropped; reaching the end sets eofbit; failbit is set when no character was extracted. *)
Definition getline (delim : ascii) (st : stream) (str : text) : bool * text * stream :=
  if st_good st then
    let '(t, r, eof) := extract delim (st_rest st) in (negb eof || negb (is_nil t), t, Stream r (negb eof))
  else (false, str, st).

(** ** io.hpp:122-145  iterate_line: the calls op(tok, col_idx), in order.  The recursion is on [fuel] = 1 + the length of the text: every
    iteration but the last extracts a character (running out of fuel is reported as UB, and shown not to happen). *)
Fixpoint iterate_line_loop (fuel : nat) (sep : ascii) (usecols : list Z) (st : stream) (tok : text) (col_idx : Z) (usecol_idx : nat)
  : outcome (list (text * Z)) :=
  match fuel with
  | O => UB
  | S fuel' =>
    let '(ok, tok, st) := getline sep st tok in
    if ok then
      if negb (is_nil tok) then
        do hit <- (if is_nil usecols then Ok true else do u <- at_ub usecols usecol_idx; Ok (Z.eqb u col_idx));
        if hit : bool then
          let usecol_idx := S usecol_idx in
          if usecol_idx =? length usecols then Ok [(tok, col_idx)]
          else do r <- iterate_line_loop fuel' sep usecols st tok (col_idx + 1) usecol_idx; Ok ((tok, col_idx) :: r)
        else iterate_line_loop fuel' sep usecols st tok (col_idx + 1) usecol_idx
      else iterate_line_loop fuel' sep usecols st tok col_idx usecol_idx
    else Ok []
  end.
Definition iterate_line (str : text) (sep : ascii) (usecols : list Z) : outcome (list (text * Z)) :=
  iterate_line_loop (S (length (cstr str))) sep usecols (Stream (cstr str) true) [] 0 0.

(** std::map::find *)
Fixpoint dict_find {F} (d : list (Z * F)) (k : Z) : option F :=
  match d with [] => None | (k', f) :: r => if Z.eqb k' k then Some f else dict_find r k end.

Section Loader.
Context {V : Type}.
(** ConvertersDict, FiltersDict (io.hpp:36-42); a converter is modelled together with the any_cast of its result. *)
Definition converters_dict := list (Z * (text -> outcome V)).
Definition filters_dict := list (Z * (V -> bool)).

(** io.hpp:89-119  convert<DataType>({col_id, token}, converters, filters); [to_number] is to_number<DataType> *)
Definition convert (to_number : text -> outcome V) (tok : Z * text) (converters : converters_dict) (filters : filters_dict) : outcome (option V) :=
  let '(col_id, token) := tok in
  do res <- (if negb (is_nil converters) then
               match dict_find converters col_id with Some f => f (cstr token) | None => to_number token end
             else to_number token);
  if is_nil filters then Ok (Some res)
  else match dict_find filters col_id with Some f => Ok (if f res then Some res else None) | None => Ok (Some res) end.

(** io.hpp:147-170  push_string_to_vector: the vector after the pushes, and len.  The lambda converts {len, token}. *)
Fixpoint push_tokens (to_number : text -> outcome V) (vec : list V) (calls : list (text * Z)) (len : Z) (converters : converters_dict)
  (filters : filters_dict) : outcome (list V * Z) :=
  match calls with
  | [] => Ok (vec, len)
  | (token, _) :: r =>
    do res <- convert to_number (len, token) converters filters;
    push_tokens to_number (match res with Some v => vec ++ [v] | None => vec end) r (len + 1) converters filters
  end.
Definition push_string_to_vector (to_number : text -> outcome V) (vec : list V) (str : text) (sep : ascii) (converters : converters_dict)
  (filters : filters_dict) (usecols : list Z) : outcome (list V * Z) :=
  do calls <- iterate_line str sep usecols; push_tokens to_number vec calls 0 converters filters.

(** io.hpp:172-189  tokenize into an array of N tokens *)
Fixpoint tokenize_calls (N tok_idx : nat) (calls : list (text * Z)) : outcome (list (Z * text)) :=
  match calls with
  | [] => require (tok_idx =? N) (Ok [])
  | (token, idx) :: r => require (tok_idx <? N) (do ts <- tokenize_calls N (S tok_idx) r; Ok ((idx, token) :: ts))
  end.
Definition tokenize (N : nat) (str : text) (sep : ascii) (usecols : list Z) : outcome (list (Z * text)) :=
  do calls <- iterate_line str sep usecols; tokenize_calls N 0 calls.

(** io.hpp:191-215  tokens_to_tuple, load_line_to_tuple<DataTypes...>: [types] lists to_number<DataType> of each type.  (The order in which
    make_tuple's arguments are evaluated is unspecified in C++; left to right here.) *)
Fixpoint tokens_to_tuple (types : list (text -> outcome V)) (tokens : list (Z * text)) (converters : converters_dict) (filters : filters_dict)
  : outcome (list (option V)) :=
  match types, tokens with
  | ty :: types, tok :: tokens =>
    do x <- convert ty tok converters filters; do r <- tokens_to_tuple types tokens converters filters; Ok (x :: r)
  | _, _ => Ok []
  end.
Definition load_line_to_tuple (types : list (text -> outcome V)) (str : text) (sep : ascii) (converters : converters_dict)
  (filters : filters_dict) (usecols : list Z) : outcome (list (option V)) :=
  do tokens <- tokenize (length types) str sep usecols; tokens_to_tuple types tokens converters filters.

(** io.hpp:217-242  iterate_file: the lines on which op is called, in order.  line[0] of an empty line is NUL. *)
Fixpoint skip_lines (skip : nat) (st : stream) (line : text) : stream * text :=
  match skip with O => (st, line) | S k => let '(_, line, st) := getline newline st line in skip_lines k st line end.
Fixpoint read_lines (fuel : nat) (comments : ascii) (max_rows : Z) (st : stream) (line : text) : outcome (list text) :=
  match fuel with
  | O => UB
  | S fuel' =>
    let '(ok, line, st) := getline newline st line in
    if ok && negb (Z.eqb max_rows 0) then
      if negb (Ascii.eqb (hd nul line) comments) then
        do r <- read_lines fuel' comments (max_rows - 1) st line; Ok (line :: r)
      else read_lines fuel' comments max_rows st line
    else Ok []
  end.
Definition iterate_file (file : option text) (comments : ascii) (skiprows max_rows : Z) : outcome (list text) :=
  match file with
  | None => Ok []
  | Some content =>
    let '(st, line) := skip_lines (Z.to_nat skiprows) (Stream content true) [] in
    read_lines (S (length (st_rest st))) comments max_rows st line
  end.

(** io.hpp:245-274  loadtxt_to_vector: (res, num_cols) *)
Fixpoint load_rows (to_number : text -> outcome V) (delimiter : ascii) (usecols : list Z) (converters : converters_dict) (filters : filters_dict)
  (lines : list text) (res : list V) (is_first_row : bool) (num_cols : Z) : outcome (list V * Z) :=
  match lines with
  | [] => Ok (res, num_cols)
  | line :: r =>
    do rl <- push_string_to_vector to_number res line delimiter converters filters usecols;
    let '(res, line_cols) := rl in
    if is_first_row then load_rows to_number delimiter usecols converters filters r res false line_cols
    else require (Z.eqb line_cols num_cols) (load_rows to_number delimiter usecols converters filters r res false num_cols)
  end.
Definition loadtxt_to_vector (to_number : text -> outcome V) (file : option text) (comments delimiter : ascii) (skiprows : Z) (usecols : list Z)
  (converters : converters_dict) (filters : filters_dict) (max_rows : Z) : outcome (list V * Z) :=
  do lines <- iterate_file file comments skiprows max_rows;
  load_rows to_number delimiter usecols converters filters lines [] true 0.

(** io.hpp:302-349  loadtxt to a dynamic Eigen matrix, given as its rows: a row-major view of data with data.size() / num_cols rows (integer
    division by zero is undefined behaviour).  Fixed-size matrix types are not modelled. *)
Definition loadtxt (to_number : text -> outcome V) (file : option text) (comments delimiter : ascii) (skiprows : Z) (usecols : list Z)
  (converters : converters_dict) (filters : filters_dict) (max_rows : Z) : outcome (list (list V)) :=
  do dn <- loadtxt_to_vector to_number file comments delimiter skiprows usecols converters filters max_rows;
  let '(data, num_cols) := dn in
  if Z.eqb num_cols 0 then UB
  else let rows := Z.to_nat (Z.quot (Z.of_nat (length data)) num_cols) in let cols := Z.to_nat num_cols in
    map_outcome (fun i => map_outcome (fun j => at_ub data (i * cols + j)) (seq 0 cols)) (seq 0 rows).

(** io.hpp:354-387  loadtxt<DataTypes...>: a vector of tuples; rows rejected by a filter are dropped *)
Definition all_some (row : list (option V)) : option (list V) :=
  fold_right (fun x acc => match x, acc with Some v, Some r => Some (v :: r) | _, _ => None end) (Some []) row.
Definition loadtxt_tuple (types : list (text -> outcome V)) (file : option text) (comments delimiter : ascii) (skiprows : Z) (usecols : list Z)
  (converters : converters_dict) (filters : filters_dict) (max_rows : Z) : outcome (list (list V)) :=
  do lines <- iterate_file file comments skiprows max_rows;
  do rows <- map_outcome (fun line => load_line_to_tuple types line delimiter converters filters usecols) lines;
  Ok (flat_map (fun row => match all_some row with Some r => [r] | None => [] end) rows).

(** tuple.hpp:75-99  unpack: the i-th array holds the i-th component of every tuple ([ncols] = std::tuple_size) *)
Definition unpack (ncols : nat) (a : list (list V)) : outcome (list (list V)) :=
  map_outcome (fun i => map_outcome (fun t => at_ub t i) a) (seq 0 ncols).

(** io.hpp:280-296  fromstring(const char*, sep, converters) and fromstring(const std::string&, sep, converters); the latter calls
    fromstring(str.data(), ...) without its template argument, so with DataType = double. *)
Definition fromstring (to_number : text -> outcome V) (str : text) (sep : ascii) (converters : converters_dict) : outcome (list V) :=
  do r <- push_string_to_vector to_number [] str sep converters [] []; Ok (fst r).

(** ** io.hpp:411-524  TxtLoader *)
Record loader := Loader { l_delimiter : ascii; l_skiprows : Z; l_comments : ascii; l_usecols : list Z; l_converters : converters_dict;
  l_filters : filters_dict; l_max_rows : Z }.
(** io.hpp:515-521 *)
Definition default_loader : loader := Loader " "%char 0 "#"%char [] [] [] (-1).
(** std::sort of signed integers *)
Fixpoint insert (x : Z) (l : list Z) : list Z := match l with [] => [x] | y :: r => if Z.leb x y then x :: l else y :: insert x r end.
Fixpoint sort (l : list Z) : list Z := match l with [] => [] | x :: r => insert x (sort r) end.
Inductive setter :=
| SDelimiter (c : ascii) | SSkiprows (n : Z) | SComments (c : ascii) | SUsecols (l : list Z) | SUsecolsVariadic (l : list Z)
| SConverters (d : converters_dict) | SMaxRows (n : Z) | SFilters (d : filters_dict).
(** io.hpp:420-486  a setter changes the object and returns a copy of it; here the common state.  [Ntypes] = sizeof...(DataTypes); the static_assert
    of the variadic usecols is modelled like the requirement of the others. *)
Definition set (Ntypes : nat) (o : loader) (s : setter) : outcome loader :=
  let ok (l : list Z) := ((1 <? Ntypes) && (length l =? Ntypes) || (Ntypes =? 1)) in
  match s with
  | SDelimiter c => Ok (Loader c (l_skiprows o) (l_comments o) (l_usecols o) (l_converters o) (l_filters o) (l_max_rows o))
  | SSkiprows n => Ok (Loader (l_delimiter o) n (l_comments o) (l_usecols o) (l_converters o) (l_filters o) (l_max_rows o))
  | SComments c => Ok (Loader (l_delimiter o) (l_skiprows o) c (l_usecols o) (l_converters o) (l_filters o) (l_max_rows o))
  | SUsecols l => require (ok l) (Ok (Loader (l_delimiter o) (l_skiprows o) (l_comments o) (sort l) (l_converters o) (l_filters o) (l_max_rows o)))
  | SUsecolsVariadic l =>
    require (ok l) (Ok (Loader (l_delimiter o) (l_skiprows o) (l_comments o) (sort (l_usecols o ++ l)) (l_converters o) (l_filters o) (l_max_rows o)))
  | SConverters d => Ok (Loader (l_delimiter o) (l_skiprows o) (l_comments o) (l_usecols o) d (l_filters o) (l_max_rows o))
  | SMaxRows n => Ok (Loader (l_delimiter o) (l_skiprows o) (l_comments o) (l_usecols o) (l_converters o) (l_filters o) n)
  | SFilters d => Ok (Loader (l_delimiter o) (l_skiprows o) (l_comments o) (l_usecols o) (l_converters o) d (l_max_rows o))
  end.
Fixpoint set_all (Ntypes : nat) (o : loader) (ss : list setter) : outcome loader :=
  match ss with [] => Ok o | s :: r => do o' <- set Ntypes o s; set_all Ntypes o' r end.
(** io.hpp:488-512  load<pack> for one type (an Eigen matrix), load<pack> for several (the packed rows, or unpacked columns), load_vector *)
Definition load (to_number : text -> outcome V) (o : loader) (file : option text) : outcome (list (list V)) :=
  loadtxt to_number file (l_comments o) (l_delimiter o) (l_skiprows o) (l_usecols o) (l_converters o) (l_filters o) (l_max_rows o).
Definition load_tuple (types : list (text -> outcome V)) (o : loader) (file : option text) (pack : bool) : outcome (list (list V)) :=
  do data <- loadtxt_tuple types file (l_comments o) (l_delimiter o) (l_skiprows o) (l_usecols o) (l_converters o) (l_filters o) (l_max_rows o);
  if pack then Ok data else unpack (length types) data.
Definition load_vector (to_number : text -> outcome V) (o : loader) (file : option text) : outcome (list V * Z) :=
  loadtxt_to_vector to_number file (l_comments o) (l_delimiter o) (l_skiprows o) (l_usecols o) (l_converters o) (l_filters o) (l_max_rows o).

(** ** io.hpp:531-541  savetxt of one array: the text written; [put] is operator<< of the element type *)
Definition savetxt (put : V -> text) (X : list V) (newline : ascii) : text := flat_map (fun x => put x ++ [newline]) X.
(** io.hpp:543-585  savetxt of a tuple of arrays ([puts]: detail::format and operator<< of each array's element type) *)
Fixpoint save_row (puts : list (V -> text)) (X : list (list V)) (i : nat) (delimiter newline : ascii) : outcome text :=
  match puts, X with
  | put :: puts, xs :: X =>
    do x <- at_ub xs i; do r <- save_row puts X i delimiter newline; Ok (put x ++ [if is_nil X then newline else delimiter] ++ r)
  | _, _ => Ok []
  end.
Definition savetxt_tuple (puts : list (V -> text)) (X : list (list V)) (delimiter newline : ascii) : outcome text :=
  let n := match X with [] => 0 | x0 :: _ => length x0 end in
  require (forallb (fun xs => length xs =? n) X)
    (do rows <- map_outcome (fun i => save_row puts X i delimiter newline) (seq 0 n); Ok (concat rows)).
End Loader.
