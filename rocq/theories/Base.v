(** Outcomes and elementary container operations shared by every model file. *)
From Coq Require Export List Arith Lia Bool.
Export ListNotations.
Set Implicit Arguments.

(** The result of running a piece of C++.
    [RequireFail]: a [scicpp_require] condition is false; scicpp/core/macros.hpp:19-26 makes it an
    [assert] in debug builds and [__builtin_unreachable()] (undefined behaviour) with NDEBUG.
    [UB]: C++ undefined behaviour not guarded by any check (out-of-range access, integer division by 0,
    invalid iterator range).  [Throw]: a C++ exception leaves the call. *)
Inductive outcome (A : Type) : Type :=
| Ok (a : A)
| RequireFail
| UB
| Throw.
Arguments Ok {A} a.
Arguments RequireFail {A}.
Arguments UB {A}.
Arguments Throw {A}.

Definition bind {A B} (o : outcome A) (f : A -> outcome B) : outcome B :=
  match o with Ok a => f a | RequireFail => RequireFail | UB => UB | Throw => Throw end.

Definition require {A} (b : bool) (k : outcome A) : outcome A :=
  if b then k else RequireFail.

Definition omap {A B} (f : A -> B) (o : outcome A) : outcome B :=
  bind o (fun a => Ok (f a)).

Notation "'do' x <- o ; k" := (bind o (fun x => k)) (at level 200, x pattern, o at level 100, k at level 200).

(** v[i] with i out of range is undefined behaviour. *)
Definition at_ub {A} (v : list A) (i : nat) : outcome A :=
  match nth_error v i with Some x => Ok x | None => UB end.

(** v[i] = x on an in-range index; out of range is undefined behaviour. *)
Fixpoint upd {A} (v : list A) (i : nat) (x : A) : list A :=
  match v, i with
  | [], _ => []
  | _ :: r, O => x :: r
  | y :: r, S j => y :: upd r j x
  end.
Definition set_ub {A} (v : list A) (i : nat) (x : A) : outcome (list A) :=
  if i <? length v then Ok (upd v i x) else UB.

(** Value category of the argument expression of a call (which overload is chosen, and whether the
    callee may steal the argument). *)
Inductive valcat := ConstLvalue | Lvalue | Rvalue.

(** std::vector or std::array: only matters for what a moved-from container looks like. *)
Inductive container := Vector | Array.

(** State in which [std::move]-returning a container leaves its source: a moved-from std::vector is empty,
    moving a std::array of scalars copies it. *)
Definition moved_from {A} (c : container) (v : list A) : list A :=
  match c with Vector => [] | Array => v end.
