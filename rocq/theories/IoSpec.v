(** Specification vocabulary for text input (C59-C61, C83-C85). *)
From Coq Require Import ZArith Ascii.
From Verif Require Import Base.
Open Scope nat_scope.
Set Implicit Arguments.

(** [fields sep s ps]: the non-empty pieces of [s] between separators, in order, are [ps]. *)
Inductive fields (sep : ascii) : list ascii -> list (list ascii) -> Prop :=
| fields_end : fields sep [] []
| fields_sep : forall s ps, fields sep s ps -> fields sep (sep :: s) ps
| fields_last : forall p, p <> [] -> ~ In sep p -> fields sep p [p]
| fields_more : forall p s ps, p <> [] -> ~ In sep p -> fields sep s ps -> fields sep (p ++ sep :: s) (p :: ps).

(** [lines s ls]: the lines of a file with content [s] (newline is character 10; a last line without newline counts if it is not empty). *)
Inductive lines : list ascii -> list (list ascii) -> Prop :=
| lines_end : lines [] []
| lines_last : forall p, p <> [] -> ~ In "010"%char p -> lines p [p]
| lines_more : forall p s ls, ~ In "010"%char p -> lines s ls -> lines (p ++ "010"%char :: s) (p :: ls).

(** The part of a text before the first NUL character. *)
Inductive before_nul : list ascii -> list ascii -> Prop :=
| bn_all : forall s, ~ In "000"%char s -> before_nul s s
| bn_cut : forall p s, ~ In "000"%char p -> before_nul (p ++ "000"%char :: s) p.

(** The pieces of a line with their column numbers 0, 1, 2, ... *)
Definition columns (ps : list (list ascii)) : list (list ascii * Z) := combine ps (map Z.of_nat (seq 0 (length ps))).
(** The columns whose number is listed (all of them for an empty list). *)
Definition chosen (usecols : list Z) (cols : list (list ascii * Z)) : list (list ascii * Z) :=
  filter (fun x => match usecols with [] => true | _ => existsb (Z.eqb (snd x)) usecols end) cols.

(** The rows that count: skip [skip] lines, drop the lines whose first character is [comment] (the first character of an empty line is NUL), keep at
    most [max] (all of them if [max] < 0). *)
Definition counted (comment : ascii) (skip max : Z) (ls : list (list ascii)) : list (list ascii) :=
  let rows := filter (fun l => negb (Ascii.eqb (hd "000"%char l) comment)) (skipn (Z.to_nat skip) ls) in
  if (max <? 0)%Z then rows else firstn (Z.to_nat max) rows.

Definition increasing (l : list Z) : Prop := forall i j, i < j -> j < length l -> (nth i l 0 < nth j l 0)%Z.

(** Pieces joined by a separator. *)
Fixpoint join (sep : ascii) (ps : list (list ascii)) : list ascii :=
  match ps with [] => [] | [p] => p | p :: r => p ++ sep :: join sep r end.

(** Sub-list of the rows accepted by a test. *)
Inductive kept {A : Type} (P : A -> Prop) : list A -> list A -> Prop :=
| kept_nil : kept P [] []
| kept_yes : forall x l k, P x -> kept P l k -> kept P (x :: l) (x :: k)
| kept_no : forall x l k, ~ P x -> kept P l k -> kept P (x :: l) k.
