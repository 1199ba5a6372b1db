(** Models of scicpp/core/range.hpp, scicpp/core/manips.hpp and utils::subvector. *)
From Coq Require Import ZArith Qround.
From Verif Require Import Base Functional BaseQc.
Open Scope nat_scope.
Set Implicit Arguments.

(** range.hpp:35-46: full (std::array::fill / std::vector(N, v)); 52-71 zeros; 77-93 ones. *)
Definition full {T} (n : nat) (v : T) : list T := repeat v n.
Definition zeros {T} (zero : T) (n : nat) : list T := full n zero.
Definition ones {T} (one : T) (n : nat) : list T := full n one.

Section Lin.
Context {T : Type}.
(** arithmetic of T; [ofnat] is the conversion raw_t(a.size() - 1) and also the values written by std::iota
    (simplification: repeated ++ from T{0} yields exactly i). *)
Variables (add sub mul div : T -> T -> T) (ofnat : nat -> T).

Definition iota (n : nat) : list T := map ofnat (seq 0 n).

(** range.hpp:101-120. [start + std::move(a) * step]: operator* gives step * v (numeric.hpp:421-426), operator+ gives
    start + v (numeric.hpp:450-456). *)
Definition linspace (start stop : T) (num : nat) : list T :=
  match num with
  | O => []
  | 1 => [start]
  | _ => let step := div (sub stop start) (ofnat (num - 1)) in
         transform1 (fun v => add start v) (transform1 (fun v => mul step v) (iota num))
  end.

(** range.hpp:138-160 with fma modelled as x * step + start. *)
Definition logspace (pow : T -> T -> T) (start stop : T) (num : nat) (base : T) : list T :=
  match num with
  | O => []
  | 1 => [pow base start]
  | _ => let step := div (sub stop start) (ofnat (num - 1)) in
         transform1 (fun x => pow base (add (mul x step) start)) (iota num)
  end.
End Lin.

Definition qfloor (x : Qc) : Z := Qfloor (this x).
Definition qabs (x : Qc) : Qc := if qltb x 0 then (- x)%Qc else x.

(** range.hpp:194-209 over exact rationals. The conversion of (stop-start)/step to std::size_t truncates; a zero step
    divides by zero and converts inf/NaN to an integer: UB. *)
Definition arange (start stop step : Qc) : outcome (list Qc) :=
  if (qltb start stop && qltb step 0) || (qltb stop start && qltb 0 step) then Ok []
  else if qeqb step 0 then UB
  else let num := Z.to_nat (qfloor (qabs ((stop - start) / step)%Qc)) in
       Ok (map (fun i => (qn i * step + start)%Qc) (seq 0 num)).

(** range.hpp:194-209 for T = int: (stop - start) / step is C++ integer division (truncated). *)
Definition arange_int (start stop step : Z) : outcome (list Z) :=
  if ((start <? stop)%Z && (step <? 0)%Z) || ((stop <? start)%Z && (0 <? step)%Z) then Ok []
  else if (step =? 0)%Z then UB
  else let num := Z.to_nat (Z.abs (Z.quot (stop - start) step)) in
       Ok (map (fun i => (Z.of_nat i * step + start)%Z) (seq 0 num)).
Open Scope nat_scope.

Section Concat.
Context {T U : Type}.
(** manips.hpp:27-48, 50-74: both arguments by const reference, elements of the second converted. *)
Definition concatenate_cc (conv : U -> T) (a1 : list T) (a2 : list U) : list T :=
  (* resize then copy/transform into the tail *)
  a1 ++ transform1 conv a2.
(** manips.hpp:76-100: first argument an rvalue vector. After the resize the new tail holds T{}; it is overwritten only if
    the element types are the same, or are quantities, or if std::is_convertible_v<T, Tarray> (T to Tarray!). *)
Definition concatenate_rv1 (same quantity convertible_T_to_U : bool) (zero : T) (conv : U -> T)
    (a1 : list T) (a2 : list U) : list T :=
  if quantity || same || convertible_T_to_U then a1 ++ transform1 conv a2
  else a1 ++ repeat zero (length a2).
(** manips.hpp:102-126: second argument an rvalue vector; a1 inserted at its front under the same conditions. *)
Definition concatenate_rv2 (same quantity convertible_T_to_U : bool) (conv : U -> T)
    (a1 : list U) (a2 : list T) : list T :=
  if quantity || same || convertible_T_to_U then transform1 conv a1 ++ a2
  else a2.
End Concat.

(** manips.hpp:140-145: (a | ...) unary right fold over one or more arrays of the same element type; each | is a two-argument
    concatenate whose right operand is the rvalue vector built so far. *)
Fixpoint concatenate_fold {T} (a : list T) (rest : list (list T)) : list T :=
  match rest with
  | [] => a
  | b :: r => concatenate_rv2 true false true (fun x => x) a (concatenate_fold b r)
  end.

(** std::reverse by swapping ends, std::reverse_copy. *)
Fixpoint reverse_copy {T} (a acc : list T) : list T :=
  match a with [] => acc | x :: r => reverse_copy r (x :: acc) end.
(** manips.hpp:151-167: (returned array, argument after the call).  [Array&&] binds to non-const lvalues: reversed in place. *)
Definition flip {T} (vc : valcat) (a : list T) : list T * list T :=
  match vc with
  | ConstLvalue => (reverse_copy a [], a)
  | Lvalue => let r := reverse_copy a [] in (r, r)      (* flip_inplace(a); return copy of the lvalue *)
  | Rvalue => let r := reverse_copy a [] in (r, [])     (* moved out *)
  end.

(** utils.hpp:41-55 with signed arithmetic: iterators outside [begin, end] or a reversed range are UB. *)
Definition subvector {T} (v : list T) (len offset : Z) : outcome (list T) :=
  let length_ := Z.min len (Z.of_nat (length v)) in
  if (offset <? 0)%Z || (length_ <? 0)%Z || (Z.of_nat (length v) <? offset + length_)%Z then UB
  else Ok (firstn (Z.to_nat length_) (skipn (Z.to_nat offset) v)).
