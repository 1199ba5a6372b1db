(** Model of scicpp/core/stats.hpp. *)
From Coq Require Import ZArith.
From Verif Require Import Base Functional Numeric BaseFl Equal RangeManips Maths.
Open Scope nat_scope.

Section Order.
Context {T : Type}.
Variables (nan : T) (ltb : T -> T -> bool) (add sub div : T -> T -> T) (two : T).

(** std::max_element / std::min_element on a non-empty range (value of the returned iterator): first extremal element. *)
Fixpoint max_element (cur : T) (a : list T) : T :=
  match a with [] => cur | x :: r => max_element (if ltb cur x then x else cur) r end.
Fixpoint min_element (cur : T) (a : list T) : T :=
  match a with [] => cur | x :: r => min_element (if ltb x cur then x else cur) r end.
(** std::minmax_element: first smallest and last largest. *)
Fixpoint minmax_element (mn mx : T) (a : list T) : T * T :=
  match a with
  | [] => (mn, mx)
  | x :: r => minmax_element (if ltb x mn then x else mn) (if ltb x mx then mx else x) r
  end.

(** stats.hpp:40-46, 53-59, 66-73 *)
Definition amax (f : list T) : T := match f with [] => nan | x :: r => max_element x r end.
Definition amin (f : list T) : T := match f with [] => nan | x :: r => min_element x r end.
Definition ptp (f : list T) : T :=
  match f with [] => nan | x :: r => let '(mn, mx) := minmax_element x x r in sub mx mn end.

(** std::nth_element is an arbitrary function; the theorems assume its standard contract only. *)
Variable nth_element : nat -> list T -> list T.

(** stats.hpp:97-116 *)
Definition median_inplace (v : list T) : outcome T :=
  let size := length v in
  if size =? 0 then Ok nan
  else
    let half := size / 2 in
    let v' := nth_element half v in
    do target <- at_ub v' half;
    if negb (size mod 2 =? 0) then Ok target
    else match firstn half v' with
         | [] => UB
         | x :: r => Ok (div (add (max_element x r) target) two)
         end.

(** stats.hpp:120-124, 126-129: copy, filter, then in place; 131-139: copy (lvalue) or in place (rvalue). *)
Definition median_filter (a : list T) (p : T -> bool) : outcome T := median_inplace (filter_scicpp a p).
Definition median (a : list T) : outcome T := median_inplace a.
End Order.

(** stats.hpp:150 *)
Inductive QuantileInterp := LOWER | HIGHER | NEAREST | MIDPOINT | LINEAR.

Definition qceil (x : Qc) : Z := (- qfloor (- x))%Z.
(** std::nearbyint in the default rounding mode: to nearest, ties to even *)
Definition nearbyint (x : Qc) : Z :=
  let f := qfloor x in
  match (x - qz f ?= Q2Qc (1 # 2))%Qc with
  | Lt => f
  | Gt => (f + 1)%Z
  | Eq => if Z.even f then f else (f + 1)%Z
  end.

(** stats.hpp:155-168 *)
Definition quantile_interp_index (m : QuantileInterp) (h : Qc) : Qc :=
  match m with
  | LOWER => qz (qfloor h)
  | HIGHER => qz (qceil h)
  | NEAREST => qz (nearbyint h)
  | MIDPOINT => (Q2Qc (1 # 2) * (qz (qfloor h) + qz (qceil h)))%Qc
  | LINEAR => h
  end.

(** signed_size_t(h) for h >= 0 *)
Definition qtrunc (h : Qc) : nat := Z.to_nat (qfloor h).
Definition flerp := lerp f0 f1 fadd fsub fmul fle flt feq.

(** stats.hpp:171-203, q and the index computed exactly (no rounding), element type double. *)
Definition quantile_inplace (nth_element : nat -> list fl -> list fl) (m : QuantileInterp) (v : list fl) (q : Qc)
  : outcome fl :=
  require (qleb 0 q && qleb q 1)
    (let size := length v in
     if size =? 0 then Ok NaN
     else if size =? 1 then at_ub v 0
     else
       let h0 := quantile_interp_index m (q * qn (size - 1))%Qc in
       if almost_equal 1 (Fin (qz (nearbyint h0))) (Fin h0)
       then let n0 := Nat.min (qtrunc h0) size in
            at_ub (nth_element n0 v) n0
       else let h_low := qtrunc h0 in
            let n_high := Nat.min (h_low + 1) size in
            let v' := nth_element n_high v in
            match firstn n_high v' with
            | [] => UB
            | x :: r =>
                let x_low := max_element flt x r in
                do x_high <- at_ub v' n_high;
                Ok (flerp x_low x_high (Fin (h0 - qn h_low)))
            end).

(** stats.hpp:207-242: filter overloads copy and filter first *)
Definition quantile nth_element m (a : list fl) (q : Qc) := quantile_inplace nth_element m a q.
Definition nanquantile nth_element m (a : list fl) (q : Qc) := quantile_inplace nth_element m (filter_scicpp a not_nan) q.
(** stats.hpp:244-275 *)
Definition percentile nth_element m (a : list fl) (p : Qc) := quantile nth_element m a (p / qz 100)%Qc.
(** stats.hpp:277-289: on an rvalue the second percentile sees the array permuted by the first one;
    [after m v q] is the state nth_element leaves. *)
Definition quantile_after (nth_element : nat -> list fl -> list fl) (m : QuantileInterp) (v : list fl) (q : Qc) : list fl :=
  let size := length v in
  if size <=? 1 then v
  else let h0 := quantile_interp_index m (q * qn (size - 1))%Qc in
       if almost_equal 1 (Fin (qz (nearbyint h0))) (Fin h0) then nth_element (Nat.min (qtrunc h0) size) v
       else nth_element (Nat.min (qtrunc h0 + 1) size) v.
Definition iqr_const nth_element m (a : list fl) (rng0 rng1 : Qc) : outcome fl :=
  do p0 <- percentile nth_element m a rng0;
  do p1 <- percentile nth_element m a rng1;
  Ok (fsub p1 p0).
Definition iqr_rvalue nth_element m (a : list fl) (rng0 rng1 : Qc) : outcome fl :=
  do p0 <- percentile nth_element m a rng0;
  do p1 <- percentile nth_element m (quantile_after nth_element m a (rng0 / qz 100)%Qc) rng1;
  Ok (fsub p1 p0).

Section Moments.
Context {T : Type}.
Variables (zero one nan inf : T) (add sub mul div : T -> T -> T) (conj : T -> T).
(** raw_t(static_cast<int>(n)): exact conversion of a count (simplification: counts above 2^31 are not truncated). *)
Variable ofnat : nat -> T.
Variable ofint : Z -> T.
Variable integral : bool.

(** stats.hpp:80-87 *)
Definition average (f w : list T) : outcome T :=
  if (length f =? 0) || negb (length f =? length w) then Ok nan
  else do i <- inner zero add mul f w; Ok (div i (sum zero add integral w)).

(** stats.hpp:308-318, 320-331 *)
Definition mean_filter (f : list T) (p : T -> bool) : T :=
  if length f =? 0 then nan
  else let '(res, cnt) := sum_filter zero add integral f p in div res (ofnat cnt).
Definition mean (f : list T) : T := mean_filter f f_all.

(** The block accumulator, stats.hpp:402-422 *)
Definition cov_block (p : T -> bool) (blk : list (T * T)) : T * T * T * nat :=
  let m1 := mean_filter (map fst blk) p in
  let m2 := mean_filter (map snd blk) p in
  let '(res, cnt) :=
    fold_left (fun st xy =>
      if p (fst xy) && p (snd xy)
      then (add (fst st) (mul (sub (fst xy) m1) (conj (sub (snd xy) m2))), S (snd st))
      else st) blk (zero, 0) in
  (m1, m2, res, cnt).
(** The combination, stats.hpp:423-444 *)
Definition cov_combine (r1 r2 : T * T * T * nat) : T * T * T * nat :=
  let '(m11, m12, covar1, n1) := r1 in
  let '(m21, m22, covar2, n2) := r2 in
  let n_c := n1 + n2 in
  let m1_c := mul (div one (ofnat n_c)) (add (mul (ofnat n1) m11) (mul (ofnat n2) m21)) in
  let m2_c := mul (div one (ofnat n_c)) (add (mul (ofnat n1) m12) (mul (ofnat n2) m22)) in
  let covar_c := add (add covar1 covar2)
                     (mul (mul (div (mul (ofnat n1) (ofnat n2)) (ofnat n_c)) (conj (sub m12 m22))) (sub m11 m21)) in
  (m1_c, m2_c, covar_c, n_c).
(** stats.hpp:376-452 *)
Definition covariance_filter (ddof : Z) (a b : list T) (p : T -> bool) : outcome (T * nat) :=
  require (length a =? length b)
    (if length a =? 0 then Ok (nan, 0)
     else do (m1, m2, cov_, c_) <- pairwise_accumulate2 64 (cov_block p) cov_combine a b;
          if (Z.of_nat c_ - ddof <=? 0)%Z then Ok (inf, c_)
          else Ok (div cov_ (ofint (Z.of_nat c_ - ddof)), c_)).
(** stats.hpp:454-468 *)
Definition covariance (ddof : Z) (a b : list T) : outcome T := omap fst (covariance_filter ddof a b f_all).
(** stats.hpp:474-503; [real_part] is std::real for complex data, the identity otherwise *)
Definition var_filter (real_part : T -> T) (ddof : Z) (a : list T) (p : T -> bool) : outcome (T * nat) :=
  do (v, n) <- covariance_filter ddof a a p; Ok (real_part v, n).
Definition var (real_part : T -> T) (ddof : Z) (a : list T) : outcome T := omap fst (var_filter real_part ddof a f_all).
(** stats.hpp:572-590 *)
Definition moment (real_part : T -> T) (n : nat) (f : list T) (p : T -> bool) : outcome T :=
  match n with
  | 0 => Ok one
  | 1 => Ok zero
  | 2 => omap fst (var_filter real_part 0 f p)
  | _ => let m := mean_filter f p in
         Ok (mean_filter (transform1 (upow one mul (Z.of_nat n)) (transform1 (fun v => sub v m) f)) p)
  end.
(** stats.hpp:608-633, 640-655: kurtosis, and the square of skew's denominator *)
Definition kurtosis (three : T) (fisher : bool) (f : list T) (p : T -> bool) : outcome T :=
  do m2 <- moment (fun x => x) 2 f p;
  do m4 <- moment (fun x => x) 4 f p;
  let k := div m4 (mul m2 m2) in
  Ok (if fisher then sub k three else k).

(** stats.hpp:661-678 *)
Definition cov (real_part : T -> T) (ddof : Z) (a b : list T) (p : T -> bool) : outcome (T * T * T * T) :=
  do (c, _) <- covariance_filter ddof a b p;
  do (v1, _) <- var_filter real_part ddof a p;
  do (v2, _) <- var_filter real_part ddof b p;
  Ok (v1, c, conj c, v2).
End Moments.
