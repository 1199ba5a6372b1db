(** Vocabulary for the properties of array2string, independent of its model: the words and the lines of a text, and what a word shows. *)
From Coq Require Import ZArith QArith Qabs Ascii.
From Verif Require Import Base BaseFl Io IoNumber.
Open Scope Z_scope.
Set Implicit Arguments.

(** maximal runs of characters that are not white space *)
Fixpoint words (s : text) : list text :=
  match s with
  | [] => []
  | c :: r =>
    if is_space c then words r
    else match r with
         | [] => [[c]]
         | d :: _ => if is_space d then [c] :: words r else match words r with w :: ws => (c :: w) :: ws | [] => [[c]] end
         end
  end.
(** the lines of a text, separated by newline characters *)
Fixpoint lines (s : text) : list text :=
  match s with
  | [] => [[]]
  | c :: r => if Ascii.eqb c newline then [] :: lines r else match lines r with l :: ls => (c :: l) :: ls | [] => [[c]] end
  end.
(** the whole text [w] is a decimal number of value [v] *)
Definition number_text (w : text) (v : Q) : Prop := scan_decimal w = Some (v, [], true).
(** [v] is [x] to within half a unit of the p-th decimal (fixed), or of the p-th decimal of the mantissa (scientific) *)
Definition close (fixed : bool) (p : nat) (v x : Q) : Prop :=
  (Qabs (v - x) <= (1 # 2) * / inject_Z (10 ^ Z.of_nat p) * (if fixed then 1 else Qabs x))%Q.
(** what the word [w] shows: a number close to the value, or the texts chosen for NaN and infinity *)
Definition shows (fixed : bool) (p : nat) (nanstr infstr w : text) (v : fl) : Prop :=
  match v with
  | NaN => w = nanstr
  | PInf => w = infstr
  | NInf => w = "-"%char :: infstr
  | Fin q => exists r, number_text w r /\ close fixed p r (this q)
  end.
(** a complex number: real part, sign and size of the imaginary part, j *)
Definition shows_complex (fixed : bool) (p : nat) (nanstr infstr w : text) (z : fl * fl) : Prop :=
  exists a b, shows fixed p nanstr infstr a (fst z) /\
    (flt (snd z) f0 = true /\ w = a ++ "-"%char :: b ++ ["j"%char] /\ shows fixed p nanstr infstr b (fneg (snd z)) \/
     flt (snd z) f0 = false /\ w = a ++ "+"%char :: b ++ ["j"%char] /\ shows fixed p nanstr infstr b (snd z)).
(** a non-empty text without white space *)
Definition word (w : text) : Prop := w <> [] /\ Forall (fun c => is_space c = false) w.
(** a separator made of white space *)
Definition blank (s : text) : Prop := s <> [] /\ Forall (fun c => is_space c = true) s.
(** a word that does not end in the digit 0 *)
Definition plain (w : text) : Prop := word w /\ last w " "%char <> "0"%char.
Definition magnitude (x : Qc) : Qc := if qltb x 0%Qc then (- x)%Qc else x.
(** the double nearest to 1e-4 *)
Definition tenth_milli : Qc := Q2Qc (7378697629483821 # (2 ^ 66)).
(** a non-zero finite element is below 1e-4 in magnitude, or more than 1000 times smaller than another element *)
Definition wide_range (a : list fl) : Prop :=
  exists x, In (Fin x) a /\ x <> 0%Qc /\
    ((magnitude x < tenth_milli)%Qc \/ exists y, In (Fin y) a /\ y <> 0%Qc /\ (qz 1000 * magnitude x < magnitude y)%Qc).
(** a NaN comes before every non-zero finite element *)
Definition nan_first (a : list fl) : Prop :=
  exists pre post, a = pre ++ NaN :: post /\ forall v, In v pre -> v = f0 \/ v = PInf \/ v = NInf.
