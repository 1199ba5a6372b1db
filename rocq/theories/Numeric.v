(** Model of scicpp/core/numeric.hpp. *)
From Coq Require Import ZArith.
From Verif Require Import Base Functional.
Set Implicit Arguments.

Section Generic.
Context {T : Type}.
Variables (zero one : T) (add sub mul : T -> T -> T).

(** numeric.hpp:29-49.  [integral] is std::is_integral_v<T>; [zero] is utils::set_zero<T>(). The version with a
    predicate returns (value, count). *)
Definition sum_filter (integral : bool) (a : list T) (p : T -> bool) : T * nat :=
  filter_reduce_associative integral a add p zero.
Definition sum (integral : bool) (a : list T) : T := fst (sum_filter integral a f_all).

(** numeric.hpp:58-78, identity element T{1}. *)
Definition prod_filter (integral : bool) (a : list T) (p : T -> bool) : T * nat :=
  filter_reduce_associative integral a mul p one.
Definition prod (integral : bool) (a : list T) : T := fst (prod_filter integral a f_all).

(** numeric.hpp:50-53, 80-83: nansum / nanprod use filters::not_nan and return (value, count). *)
Definition nansum (notnan : T -> bool) (a : list T) : T * nat := sum_filter false a notnan.
Definition nanprod (notnan : T -> bool) (a : list T) : T * nat := prod_filter false a notnan.

(** numeric.hpp:89-99, 108-118: std::partial_sum in place then move; a non-const lvalue binds to [Array&&].
    Result: (returned array, argument after the call). *)
Definition cum_inplace (op : T -> T -> T) (c : container) (vc : valcat) (a : list T) : list T * list T :=
  match vc with
  | ConstLvalue => (partial_sum op a, a)
  | Lvalue | Rvalue => let r := partial_sum op a in (r, moved_from c r)
  end.
Definition cumsum (a : list T) : list T := partial_sum add a.
Definition cumprod (a : list T) : list T := partial_sum mul a.
(** numeric.hpp:101-104, 120-123 *)
Definition nancumsum (notnan : T -> bool) (a : list T) : list T := cumacc a add notnan.
Definition nancumprod (notnan : T -> bool) (a : list T) : list T := cumacc a mul notnan.

(** sum over the iterator range [first+i, first+j): a reversed range never meets its end and is UB. *)
Definition sum_range (integral : bool) (a : list T) (i j : nat) : outcome T :=
  if j <? i then UB else Ok (sum integral (firstn (j - i) (skipn i a))).

(** numeric.hpp:129-143: 0.5 * dx * ( *first + 2 * sum(first+1, last-1) + *(last-1)). *)
Definition trapz (integral : bool) (half two : T) (f : list T) (dx : T) : outcome T :=
  if length f =? 0 then Ok zero
  else
    do a0 <- at_ub f 0;
    do mid <- sum_range integral f 1 (length f - 1);
    do an <- at_ub f (length f - 1);
    Ok (mul (mul half dx) (add (add a0 (mul two mid)) an)).

(** std::adjacent_difference *)
Fixpoint adjacent_difference_from (prev : T) (a : list T) : list T :=
  match a with [] => [] | x :: r => sub x prev :: adjacent_difference_from x r end.
Definition adjacent_difference (a : list T) : list T :=
  match a with [] => [] | x :: r => x :: adjacent_difference_from x r end.

(** numeric.hpp:169-174: vector version (in place, then erase the first element). *)
Definition diff_once (a : list T) : outcome (list T) :=
  require (negb (length a =? 0)) (Ok (tl (adjacent_difference a))).
(** numeric.hpp:192-207: while (n-- && !a.empty()) diff_once(a), after require(n >= 0). *)
Fixpoint diff_loop (n : nat) (a : list T) : outcome (list T) :=
  match n with
  | O => Ok a
  | S m => if length a =? 0 then Ok a else do b <- diff_once a; diff_loop m b
  end.
Definition diff (a : list T) (n : Z) : outcome (list T) :=
  require (0 <=? n)%Z (diff_loop (Z.to_nat n) a).

(** numeric.hpp:156-167: array version. adjacent_difference(a+1, end) then res[0] = a[1]-a[0]. *)
Definition diff_once_array (a : list T) : list T :=
  match a with
  | [] | [_] => []
  | x0 :: x1 :: r => upd (adjacent_difference (x1 :: r)) 0 (sub x1 x0)
  end.
(** numeric.hpp:178-190 *)
Fixpoint diff_array (n : nat) (a : list T) : list T :=
  match n with O => a | S m => diff_array m (diff_once_array a) end.

(** numeric.hpp:213-252: pairwise inner product with a product operation; blocks start at T{0}. *)
Definition inner_op {A B} (op : A -> B -> T) (a : list A) (b : list B) : outcome T :=
  pairwise_accumulate2 PW_BLOCKSIZE
    (fun blk => fold_left (fun res xy => add res (op (fst xy) (snd xy))) blk zero) add a b.
Definition inner (a b : list T) : outcome T := inner_op mul a b.
Definition dot (a b : list T) : outcome T := inner a b.
(** numeric.hpp:260-275: conjugates the elements of the first array. *)
Definition vdot (conj : T -> T) (a b : list T) : outcome T := inner_op (fun x y => mul (conj x) y) a b.
End Generic.

(** Element-wise comparison, numeric.hpp:318-414 (scalar) and 605-658 (arrays); [eqb], [ltb] are == and < of T. *)
Section Compare.
Context {T : Type}.
Variables (eqb ltb : T -> T -> bool).
Definition logical_not (a : list bool) : list bool := transform1 negb a.
(** a == s (318-332), a != s (334-348) *)
Definition arr_eq_s (a : list T) (s : T) : list bool := transform1 (fun v => eqb v s) a.
Definition arr_ne_s (a : list T) (s : T) : list bool := logical_not (arr_eq_s a s).
(** a < s (350-356), s < a (366-372) *)
Definition arr_lt_s (a : list T) (s : T) : list bool := transform1 (fun v => ltb v s) a.
Definition s_lt_arr (s : T) (a : list T) : list bool := transform1 (fun v => ltb s v) a.
(** a >= s (358-364) = !(a < s); s >= a (374-380) = !(s < a) *)
Definition arr_ge_s (a : list T) (s : T) : list bool := logical_not (arr_lt_s a s).
Definition s_ge_arr (s : T) (a : list T) : list bool := logical_not (s_lt_arr s a).
(** a <= s (382-388) = !(s < a); s <= a (390-396) = !(a < s) *)
Definition arr_le_s (a : list T) (s : T) : list bool := logical_not (s_lt_arr s a).
Definition s_le_arr (s : T) (a : list T) : list bool := logical_not (arr_lt_s a s).
(** a > s (398-404) = !(a <= s); s > a (406-412) = !(s <= a) *)
Definition arr_gt_s (a : list T) (s : T) : list bool := logical_not (arr_le_s a s).
Definition s_gt_arr (s : T) (a : list T) : list bool := logical_not (s_le_arr s a).
(** arrays: 605-658 *)
Definition equal (a b : list T) : outcome (list bool) := map2 eqb a b.
Definition not_equal (a b : list T) : outcome (list bool) := omap logical_not (equal a b).
Definition less (a b : list T) : outcome (list bool) := map2 ltb a b.
Definition less_equal (a b : list T) : outcome (list bool) := omap logical_not (less b a).
Definition greater_equal (a b : list T) : outcome (list bool) := omap logical_not (less a b).
Definition greater (a b : list T) : outcome (list bool) := less b a.
End Compare.

Section Mask.
Context {T : Type}.
(** numeric.hpp:664-679: copying loop. *)
Fixpoint mask_copy_loop (a : list T) (m : list bool) (i n : nat) (res : list T) : outcome (list T) :=
  match n with
  | O => Ok res
  | S n' => do b <- at_ub m i;
            if b then do x <- at_ub a i; mask_copy_loop a m (S i) n' (res ++ [x])
            else mask_copy_loop a m (S i) n' res
  end.
Definition mask_copy (a : list T) (m : list bool) : outcome (list T) :=
  require (length a =? length m) (mask_copy_loop a m 0 (length a) []).
(** numeric.hpp:681-697: in-place compaction then resize(idx). *)
Fixpoint mask_move_loop (a : list T) (m : list bool) (i n idx : nat) : outcome (list T) :=
  match n with
  | O => Ok (firstn idx a)
  | S n' => do b <- at_ub m i;
            if b then do x <- at_ub a i; do a' <- set_ub a idx x; mask_move_loop a' m (S i) n' (S idx)
            else mask_move_loop a m (S i) n' idx
  end.
Definition mask_move (a : list T) (m : list bool) : outcome (list T) :=
  require (length a =? length m) (mask_move_loop a m 0 (length a) 0).
End Mask.

Section Arg.
Context {T : Type}.
(** numeric.hpp:725-730: while (!filter( *it)) { require(it != last); ++it; } — the dereference comes before the
    check, so a range without valid element reads *last: UB. Returns the position of [it] and the rest. *)
Fixpoint skip_invalid (p : T -> bool) (a : list T) (pos : nat) : outcome (nat * T * list T) :=
  match a with
  | [] => UB
  | x :: r => if p x then Ok (pos, x, r) else skip_invalid p r (S pos)
  end.
(** numeric.hpp:740-745 *)
Fixpoint argcmp_loop (p : T -> bool) (cmp : T -> T -> bool) (a : list T) (pos : nat) (mx : T) (idx : nat) : nat :=
  match a with
  | [] => idx
  | x :: r => if p x && cmp x mx then argcmp_loop p cmp r (S pos) x pos
              else argcmp_loop p cmp r (S pos) mx idx
  end.
(** numeric.hpp:713-748.  Note [IdxTp idx = 0] (not the position of the first valid element). *)
Definition argcmp (a : list T) (p : T -> bool) (cmp : T -> T -> bool) : outcome nat :=
  require (0 <? length a)
    (do (pos, x, r) <- skip_invalid p a 0;
     if length r =? 0 then Ok pos
     else Ok (argcmp_loop p cmp r (S pos) x 0)).
(** numeric.hpp:754-796 *)
Definition argmax (ltb : T -> T -> bool) (a : list T) : outcome nat := argcmp a f_all (fun u v => ltb v u).
Definition argmin (ltb : T -> T -> bool) (a : list T) : outcome nat := argcmp a f_all ltb.
Definition nanargmax (ltb : T -> T -> bool) (notnan : T -> bool) (a : list T) : outcome nat :=
  argcmp a notnan (fun u v => ltb v u).
Definition nanargmin (ltb : T -> T -> bool) (notnan : T -> bool) (a : list T) : outcome nat :=
  argcmp a notnan ltb.

(** numeric.hpp:802-829 *)
Fixpoint argwhere_loop (p : T -> bool) (a : list T) (pos : nat) (res : list nat) : list nat :=
  match a with
  | [] => res
  | x :: r => argwhere_loop p r (S pos) (if p x then res ++ [pos] else res)
  end.
Definition argwhere (a : list T) (p : T -> bool) : list nat := argwhere_loop p a 0 [].
(** nonzero: filters::not_zero, fpclassify(v) != FP_ZERO *)
Definition nonzero (eqb : T -> T -> bool) (zero : T) (a : list T) : list nat :=
  argwhere a (fun v => negb (eqb v zero)).
End Arg.
