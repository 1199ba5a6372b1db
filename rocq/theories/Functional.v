(** Model of scicpp/core/functional.hpp. *)
From Verif Require Import Base.
Set Implicit Arguments.

(** std::transform, unary (standard library): left to right. *)
Fixpoint transform1 {A B} (op : A -> B) (a : list A) : list B :=
  match a with [] => [] | x :: r => op x :: transform1 op r end.

(** std::transform, binary: runs over the first range; reading past the end of the second is UB. *)
Fixpoint transform2 {A B C} (op : A -> B -> C) (a : list A) (b : list B) : outcome (list C) :=
  match a, b with
  | [], _ => Ok []
  | _ :: _, [] => UB
  | x :: r, y :: s => do t <- transform2 op r s; Ok (op x y :: t)
  end.

(** functional.hpp:31-45, [map(op, Array&&)], operation returning the element type.  [Array&&] is a
    forwarding reference without an [enable_if], so for a non-const lvalue this overload is a better match
    than [const Array&]: [std::transform] overwrites the argument, which is then moved from.
    functional.hpp:47-57: the [const Array&] overload.  Result: (returned array, argument after the call). *)
Definition map1_same {T} (c : container) (vc : valcat) (op : T -> T) (a : list T) : list T * list T :=
  match vc with
  | ConstLvalue => (transform1 op a, a)
  | Lvalue | Rvalue => let a' := transform1 op a in (a', moved_from c a')
  end.

(** functional.hpp:36-44 (else branch) and 47-57: operation with another return type, argument untouched. *)
Definition map1_diff {A B} (op : A -> B) (a : list A) : list B * list A :=
  (transform1 op a, a).

(** functional.hpp:66-84: rvalue first argument, [ReturnType] = first element type. *)
Definition map2_reuse1 {A B} (op : A -> B -> A) (a1 : list A) (a2 : list B) : outcome (list A) :=
  require (length a1 =? length a2) (transform2 op a1 a2).
(** functional.hpp:86-105: rvalue second argument, [ReturnType] = second element type. *)
Definition map2_reuse2 {A B} (op : A -> B -> B) (a1 : list A) (a2 : list B) : outcome (list B) :=
  require (length a1 =? length a2) (transform2 op a1 a2).
(** functional.hpp:79-83, 100-104: fresh result buffer. *)
Definition map2_fresh {A B C} (op : A -> B -> C) (a1 : list A) (a2 : list B) : outcome (list C) :=
  require (length a1 =? length a2) (transform2 op a1 a2).
(** functional.hpp:107-122: both rvalues; [ReturnType] = second element type chooses overload 2, else 1.
    functional.hpp:124-127: both const lvalues copy the first and use overload 1. *)
Definition map2_both {A B} (same2 : bool) (op : A -> B -> B) (a1 : list A) (a2 : list B) : outcome (list B) :=
  if same2 then map2_reuse2 op a1 a2 else map2_fresh op a1 a2.
(** binary map as seen by callers *)
Definition map2 {A B C} (op : A -> B -> C) (a1 : list A) (a2 : list B) : outcome (list C) :=
  map2_fresh op a1 a2.

(** functional.hpp:173-179 *)
Definition f_all {T} (_ : T) : bool := true.
Definition f_none {T} (_ : T) : bool := false.

(** functional.hpp:186-203: [Trim] with the comparisons of the element type. *)
Definition f_trim {T} (leb ltb : T -> T -> bool) (lo hi : T) (incl_lo incl_hi : bool) (x : T) : bool :=
  (if incl_lo then leb lo x else ltb lo x) && (if incl_hi then leb x hi else ltb x hi).

(** std::remove_if + erase (standard contract: stable removal of the elements satisfying the predicate). *)
Fixpoint remove_erase {T} (rm : T -> bool) (a : list T) : list T :=
  match a with [] => [] | x :: r => if rm x then remove_erase rm r else x :: remove_erase rm r end.

(** functional.hpp:208-216 (vector rvalue) and 218-221 (copying overload). *)
Definition filter_scicpp {T} (a : list T) (p : T -> bool) : list T :=
  remove_erase (fun v => negb (p v)) a.

(** functional.hpp:227-246: loop carrying (init, cnt). *)
Fixpoint filter_reduce_loop {T U} (op : U -> T -> U) (p : T -> bool) (a : list T) (init : U) (cnt : nat) : U * nat :=
  match a with
  | [] => (init, cnt)
  | x :: r => if p x then filter_reduce_loop op p r (op init x) (S cnt)
              else filter_reduce_loop op p r init cnt
  end.
Definition filter_reduce {T U} (a : list T) (op : U -> T -> U) (init : U) (p : T -> bool) : U * nat :=
  filter_reduce_loop op p a init 0.

(** functional.hpp:258-262 *)
Definition reduce {T U} (a : list T) (op : U -> T -> U) (init : U) : U * nat :=
  filter_reduce a op init f_all.

(** functional.hpp:284-303.  The C++ recursion is on the size; [fuel] only makes the definition structural, and
    [FunctionalProofs.pairwise_unfold] shows that the code's equation holds for every list when B >= 1. *)
Fixpoint pairwise_fuel {T V} (fuel B : nat) (acc : list T -> V) (comb : V -> V -> V) (a : list T) : V :=
  match fuel with
  | O => acc a
  | S f =>
    let size := length a in
    if size <=? B then acc a
    else comb (pairwise_fuel f B acc comb (firstn (size / 2) a))
              (pairwise_fuel f B acc comb (skipn (size / 2) a))
  end.
Definition pairwise_accumulate {T V} (B : nat) (acc : list T -> V) (comb : V -> V -> V) (a : list T) : V :=
  pairwise_fuel (length a) B acc comb a.

(** functional.hpp:305-334, two ranges, with the size requirement. *)
Definition pairwise_accumulate2 {A B V} (K : nat) (acc : list (A * B) -> V) (comb : V -> V -> V)
    (a : list A) (b : list B) : outcome V :=
  require (length a =? length b) (Ok (pairwise_accumulate K acc comb (combine a b))).

Definition PW_BLOCKSIZE : nat := 64.

(** functional.hpp:345-377. [integral] is [std::is_integral_v<T>]. *)
Definition filter_reduce_associative {T} (integral : bool) (a : list T) (op : T -> T -> T) (p : T -> bool) (id_elt : T)
  : T * nat :=
  if integral then filter_reduce a op id_elt p
  else pairwise_accumulate PW_BLOCKSIZE
         (fun blk => filter_reduce blk op id_elt p)
         (fun r1 r2 => let '(x1, n1) := r1 in let '(x2, n2) := r2 in (op x1 x2, n1 + n2))
         a.

(** std::partial_sum (standard library). *)
Fixpoint partial_sum_from {T} (op : T -> T -> T) (acc : T) (a : list T) : list T :=
  match a with [] => [] | x :: r => let acc' := op acc x in acc' :: partial_sum_from op acc' r end.
Definition partial_sum {T} (op : T -> T -> T) (a : list T) : list T :=
  match a with [] => [] | x :: r => x :: partial_sum_from op x r end.

(** functional.hpp:386-396 *)
Definition cumacc {T} (a : list T) (op : T -> T -> T) (p : T -> bool) : list T :=
  partial_sum op (filter_scicpp a p).
