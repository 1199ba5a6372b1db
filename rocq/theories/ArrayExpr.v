(** Model of expressions built from named arrays with the element-wise operators of numeric.hpp:306-317, 416-487, 489-587 (namespace
    scicpp::operators), on top of the overloads of map (functional.hpp:31-127). One element type T (bool for !, && and ||), so the
    result type of every operator is the element type and the in-place branches are taken. *)
From Coq Require Import List Arith.
From Verif Require Import Base Functional.
Import ListNotations.
Open Scope nat_scope.
Set Implicit Arguments.

Section Expr.
Variable T : Type.

(** [Var i]: a named array; [Move i]: std::move of it; [S...] has the scalar on the left, [...S] on the right. *)
Inductive expr :=
| Var (i : nat) | Move (i : nat)
| Neg (e : expr) | Not (e : expr)
| MulS (e : expr) (s : T) | SMul (s : T) (e : expr) | AddS (e : expr) (s : T) | SAdd (s : T) (e : expr)
| SubS (e : expr) (s : T) | SSub (s : T) (e : expr) | DivS (e : expr) (s : T) | SDiv (s : T) (e : expr)
| ModS (e : expr) (s : T) | SMod (s : T) (e : expr)
| Mul (a b : expr) | And (a b : expr) | Or (a b : expr) | Add (a b : expr) | Sub (a b : expr) | Div (a b : expr) | Mod (a b : expr).

(** A named array: declared const or not, std::array or std::vector, current elements. *)
Record named := Named { is_const : bool; kind : container; data : list T }.
Definition store := list named.
(** A glvalue naming an array (as an lvalue, or as an xvalue after std::move), or a temporary. *)
Inductive value := Ref (xvalue : bool) (i : nat) | Tmp (l : list T).

Variables (zero : T) (opp lnot : T -> T) (add sub mul div modulus land lor : T -> T -> T).

Definition lookup (st : store) (i : nat) : list T := match nth_error st i with Some v => data v | None => [] end.
Definition const_at (st : store) (i : nat) : bool := match nth_error st i with Some v => is_const v | None => true end.
Definition read (st : store) (v : value) : list T := match v with Ref _ i => lookup st i | Tmp l => l end.
(** the elements were overwritten by [l] and the array was then moved from *)
Definition clobber (st : store) (i : nat) (l : list T) : store :=
  match nth_error st i with
  | Some v => upd st i (Named (is_const v) (kind v) (moved_from (kind v) l))
  | None => st
  end.

(** functional.hpp:31-57. For an lvalue of a const array the [const Array &] overload is chosen; for a non-const lvalue or an rvalue
    [Array &&]: transform in place, return std::move(a). *)
Definition map1 (f : T -> T) (st : store) (v : value) : outcome (value * store) :=
  let r := transform1 f (read st v) in
  match v with
  | Tmp _ => Ok (Tmp r, st)
  | Ref false i => if const_at st i then Ok (Tmp r, st) else Ok (Tmp r, clobber st i r)
  | Ref true i => Ok (Tmp r, clobber st i r)
  end.
(** functional.hpp:66-127. The overload is chosen by the value categories: (rvalue, lvalue) overwrites and moves the first, (lvalue, rvalue)
    and (rvalue, rvalue) the second, (lvalue, lvalue) works on a copy of the first. *)
Definition bin2 (g : T -> T -> T) (st : store) (v1 v2 : value) : outcome (value * store) :=
  let l1 := read st v1 in
  let l2 := read st v2 in
  require (length l1 =? length l2)
    (do r <- transform2 g l1 l2;
     Ok (Tmp r, match v1, v2 with
                | _, Ref true i => clobber st i r
                | _, Tmp _ => st
                | Ref true i, Ref false _ => clobber st i r
                | _, Ref false _ => st
                end)).

(** [ord]: the order in which the operands of the operator at a position (path from the root) are evaluated; C++ leaves it open. *)
Section Eval.
Variable ord : list bool -> bool.
Fixpoint eval (path : list bool) (st : store) (e : expr) : outcome (value * store) :=
  let un f e := do r <- eval (true :: path) st e; map1 f (snd r) (fst r) in
  let bin g a b :=
    if ord path then
      do ra <- eval (true :: path) st a; do rb <- eval (false :: path) (snd ra) b; bin2 g (snd rb) (fst ra) (fst rb)
    else
      do rb <- eval (false :: path) st b; do ra <- eval (true :: path) (snd rb) a; bin2 g (snd ra) (fst ra) (fst rb) in
  match e with
  | Var i => Ok (Ref false i, st)
  | Move i => Ok (Ref true i, st)
  | Neg e => un opp e                                  (* numeric.hpp:306-311 *)
  | Not e => un lnot e                                 (* numeric.hpp:313-318 *)
  | MulS e s => un (fun v => mul s v) e                (* numeric.hpp:418-424 *)
  | SMul s e => un (fun v => mul s v) e                (* numeric.hpp:426-432 *)
  | AddS e s => un (fun v => add s v) e                (* numeric.hpp:436-442 *)
  | SAdd s e => un (fun v => add s v) e                (* numeric.hpp:444-450 *)
  | SubS e s => un (fun v => sub v s) e                (* numeric.hpp:454-460 *)
  | SSub s e => un (fun v => sub s v) e                (* numeric.hpp:462-468 *)
  | DivS e s => un (fun v => div v s) e                (* numeric.hpp:472-478 *)
  | SDiv s e => un (fun v => div s v) e                (* numeric.hpp:480-486 *)
  | ModS e s => un (fun v => modulus v s) e            (* numeric.hpp:505-512 *)
  | SMod s e => un (fun v => modulus s v) e            (* numeric.hpp:514-521 *)
  | Mul a b => bin mul a b                             (* numeric.hpp:523-531 *)
  | And a b => bin land a b                            (* numeric.hpp:533-541 *)
  | Or a b => bin lor a b                              (* numeric.hpp:543-551 *)
  | Add a b => bin add a b                             (* numeric.hpp:559-566 *)
  | Sub a b => bin sub a b                             (* numeric.hpp:568-575 *)
  | Div a b => bin div a b                             (* numeric.hpp:577-584 *)
  | Mod a b => bin modulus a b                         (* numeric.hpp:586-594 *)
  end.
(** auto x = e; : the array the new variable holds (a name is copied, an xvalue moved) and the store afterwards *)
Definition eval_to (st : store) (e : expr) : outcome (list T * store) :=
  do r <- eval [] st e;
  let l := read (snd r) (fst r) in
  Ok (l, match fst r with Ref true i => clobber (snd r) i l | _ => snd r end).
End Eval.
End Expr.
Arguments Var {T}. Arguments Move {T}.
