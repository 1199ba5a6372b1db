(** Model of scicpp/core/histogram.hpp. *)
From Coq Require Import ZArith.
From Verif Require Import Base Functional Numeric BaseFl Equal RangeManips Stats.
Open Scope nat_scope.

(** Conversion of a count to int: static_cast<int> is modular (two's complement, 32 bits). *)
Definition int32 (n : nat) : Z := ((Z.of_nat n + 2 ^ 31) mod 2 ^ 32 - 2 ^ 31)%Z.

Section Histogram.
Context {T : Type}.
(** [aeq] is scicpp::almost_equal with the default tolerance, [trunc] the conversion std::size_t(pos) of a
    non-negative number, [ofnat] raw_t(n). *)
Variables (zero : T) (add sub mul div : T -> T -> T) (ltb leb : T -> T -> bool) (aeq : T -> T -> bool)
          (ofnat : nat -> T) (ofint : Z -> T) (trunc : T -> nat).

(** std::is_sorted: no element smaller than its predecessor. *)
Fixpoint is_sorted (b : list T) : bool :=
  match b with
  | x :: ((y :: _) as r) => negb (ltb y x) && is_sorted r
  | _ => true
  end.

(** std::upper_bound as implemented by halving (libstdc++ std::__upper_bound): [first, first+len) is searched,
    [fuel] bounds the number of halvings. *)
Fixpoint upper_bound_loop (fuel : nat) (b : list T) (first len : nat) (v : T) : outcome nat :=
  match fuel with
  | O => Ok first
  | S k =>
      if len =? 0 then Ok first
      else let half := len / 2 in
           do m <- at_ub b (first + half);
           if ltb v m then upper_bound_loop k b first half v
           else upper_bound_loop k b (first + half + 1) (len - half - 1) v
  end.
Definition upper_bound (b : list T) (v : T) : outcome nat := upper_bound_loop (length b) b 0 (length b) v.

(** ++hist[i] *)
Definition incr (h : list nat) (i : nat) : outcome (list nat) := do c <- at_ub h i; set_ub h i (S c).
(** ++hist.back() *)
Definition incr_back (h : list nat) : outcome (list nat) :=
  match h with [] => UB | _ => incr h (length h - 1) end.
(** bins.back() *)
Definition back_ub (b : list T) : outcome T := match b with [] => UB | _ => at_ub b (length b - 1) end.

(** histogram.hpp:187-207: one iteration of the general loop (any bins). [it] = bins.cend() is index length bins;
    pos = it - 1 is signed. *)
Definition step_general (b : list T) (h : list nat) (x : T) : outcome (list nat) :=
  do it <- upper_bound b x;
  if it =? length b then
    do last <- back_ub b;
    if aeq x last then incr_back h else Ok h
  else let pos := (Z.of_nat it - 1)%Z in
       if (0 <=? pos)%Z then incr h (Z.to_nat pos) else Ok h.

(** histogram.hpp:168-183: one iteration of the uniform-bin loop. *)
Definition step_uniform (b : list T) (step : T) (h : list nat) (x : T) : outcome (list nat) :=
  do first <- at_ub b 0;
  let pos := div (sub x first) step in
  if leb (ofnat (length h)) pos then
    do last <- back_ub b;
    if aeq x last then incr_back h else Ok h
  else if leb zero pos then incr h (trunc pos) else Ok h.

Fixpoint loop (f : list nat -> T -> outcome (list nat)) (xs : list T) (h : list nat) : outcome (list nat) :=
  match xs with [] => Ok h | x :: r => do h' <- f h x; loop f r h' end.

(** histogram.hpp:139-220 with density = false, and 222-231. *)
Definition histogram (uniform : bool) (xs b : list T) : outcome (list nat) :=
  if length b <=? 1 then Ok []
  else require (is_sorted b)
    (let h0 := repeat 0 (length b - 1) in
     if uniform then
       do b0 <- at_ub b 0;
       do b1 <- at_ub b 1;
       let step := sub b1 b0 in
       require (ltb zero step) (loop (step_uniform b step) xs h0)
     else loop (step_general b) xs h0).

(** histogram.hpp:215-216, density = true: hist / (int(sum(hist)) * diff(bins)) *)
Definition histogram_density (uniform : bool) (xs b : list T) : outcome (list T) :=
  if length b <=? 1 then Ok []
  else do h <- histogram uniform xs b;
       do d <- diff sub b 1;
       map2 (fun c w => div (ofnat c) w) h
            (transform1 (fun w => mul (ofint (int32 (sum 0 Nat.add true h))) w) d).

(** histogram.hpp:81-98 *)
Variables (nan half one : T).
Definition outer_edges (x : list T) : T * T :=
  match x with
  | [] => (zero, one)
  | _ => let first_edge := amin nan ltb x in
         let last_edge := amax nan ltb x in
         if aeq first_edge last_edge then (sub first_edge half, add last_edge half) else (first_edge, last_edge)
  end.
(** histogram.hpp:122-127, default nbins = 10 *)
Definition histogram_bin_edges (x : list T) (nbins : nat) : list T :=
  let '(e0, e1) := outer_edges x in linspace add sub mul div ofnat e0 e1 (nbins + 1).
(** histogram.hpp:239-243 *)
Definition histogram_n (x : list T) (nbins : nat) : outcome (list nat) :=
  histogram true x (histogram_bin_edges x nbins).
End Histogram.

(** The double instance (idealised: exact rationals and IEEE special values). *)
Definition fofnat (n : nat) : fl := Fin (qn n).
Definition fofint (z : Z) : fl := Fin (qz z).
Definition ftrunc (x : fl) : nat := match x with Fin q => qtrunc q | _ => 0 end.
Definition fhist := histogram f0 fsub fdiv flt fle (almost_equal 1) fofnat ftrunc.
Definition fdens := histogram_density f0 fsub fmul fdiv flt fle (almost_equal 1) fofnat fofint ftrunc.
Definition fhist_n := histogram_n f0 fadd fsub fmul fdiv flt fle (almost_equal 1) fofnat ftrunc NaN (Fin (Q2Qc (1 # 2))) f1.
