(** Model of vectorize (scicpp/core/functional.hpp 152-167) and of how the vectorized maths functions are defined
    (scicpp/core/maths.hpp 57-139: [const auto sin = vectorize([](auto x) { ... });]).
    The closure returned by vectorize captures its parameter by reference, so it holds the address of the callable: objects live in a
    store, a destroyed object has no content and calling it is undefined behaviour ([basic.life]). *)
From Verif Require Import Base Functional.
Open Scope nat_scope.
Set Implicit Arguments.

Section Vectorize.
Variable F : Type. (* callable objects *)
Definition addr := nat.
Definition store := addr -> option F.
Definition put (s : store) (a : addr) (f : F) : store := fun b => if b =? a then Some f else s b.
Definition destroy (s : store) (a : addr) : store := fun b => if b =? a then None else s b.
(** the object at an address, undefined behaviour if its lifetime has ended *)
Definition load (s : store) (a : addr) : outcome F := match s a with Some f => Ok f | None => UB end.

(** functional.hpp:152-154: the closure is the captured reference *)
Inductive closure := Closure (target : addr).
Definition vectorize (f : addr) : closure := Closure f.
(** [const auto g = vectorize(f)] for a named f; *)
Definition define_named (s : store) (f : addr) : closure * store := (vectorize f, s).
(** [const auto g = vectorize([](auto x) { ... })]: the lambda is a temporary at a fresh address, destroyed at the end of the definition *)
Definition define_temporary (s : store) (fresh : addr) (f : F) : closure * store :=
  (vectorize fresh, destroy (put s fresh f) fresh).
End Vectorize.

(** functional.hpp:163-164: arguments that are not all arrays: the callable itself *)
Definition call_scalar {A B} (s : store (A -> B)) (g : closure) (x : A) : outcome B :=
  let '(Closure t) := g in do f <- load s t; Ok (f x).
Definition call_scalar2 {A B C} (s : store (A -> B -> C)) (g : closure) (x : A) (y : B) : outcome C :=
  let '(Closure t) := g in do f <- load s t; Ok (f x y).

(** std::transform with an operation that may be undefined *)
Fixpoint transform_call {A B} (op : A -> outcome B) (a : list A) : outcome (list B) :=
  match a with [] => Ok [] | x :: r => do y <- op x; do t <- transform_call op r; Ok (y :: t) end.
Fixpoint transform_call2 {A B C} (op : A -> B -> outcome C) (a : list A) (b : list B) : outcome (list C) :=
  match a, b with
  | [], _ => Ok []
  | _ :: _, [] => UB
  | x :: r, y :: t => do z <- op x y; do u <- transform_call2 op r t; Ok (z :: u)
  end.

(** functional.hpp:155-162 with one array; map is functional.hpp:31-57.  Result: (returned array, argument after the call).
    When the element type is unchanged, a named non-const array or a temporary is overwritten and moved from. *)
Definition call_array_same {T} (c : container) (vc : valcat) (s : store (T -> T)) (g : closure) (a : list T) : outcome (list T * list T) :=
  do r <- transform_call (call_scalar s g) a;
  Ok (match vc with ConstLvalue => (r, a) | Lvalue | Rvalue => (r, moved_from c r) end).
Definition call_array_diff {A B} (s : store (A -> B)) (g : closure) (a : list A) : outcome (list B * list A) :=
  do r <- transform_call (call_scalar s g) a; Ok (r, a).
(** functional.hpp:155-162 with two arrays; map is functional.hpp:66-127 (all overloads require equal sizes) *)
Definition call_array2 {A B C} (s : store (A -> B -> C)) (g : closure) (a : list A) (b : list B) : outcome (list C) :=
  require (length a =? length b) (transform_call2 (call_scalar2 s g) a b).
