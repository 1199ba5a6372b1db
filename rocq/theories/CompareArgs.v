(** Model of the array comparison functions with their argument types, numeric.hpp:605-658: what compiles, which operand is reused as the
    result buffer, what the arguments hold afterwards. The values are those of Numeric.v. *)
From Coq Require Import List Arith Bool.
From Verif Require Import Base Functional.
Import ListNotations.
Open Scope nat_scope.
Set Implicit Arguments.

Section Compare.
Variable T : Type.
(** how bool is stored in an element: [Some id] if T is bool (then ReturnType is InputType and map works in place), None otherwise *)
Variable as_element : option (bool -> T).

(** An argument expression: the container type (std::vector<T>, std::array<T, 3>, ...: any numbering), const or not, rvalue or not. Rvalues are
    taken non-const. *)
Record arg := Arg { type : nat; cst : bool; rvalue : bool; buffer : container }.
(** std::forward<P>(x) for the parameter type deduced from [p] and the parameter named after [x]: the same container type is needed and
    const may not be dropped (no viable std::forward otherwise); the result has the value category of [p]. *)
Definition forward (p x : arg) : option arg :=
  if (type p =? type x) && (cst p || negb (cst x)) then Some (Arg (type p) (cst p) (rvalue p) (buffer x)) else None.

(** functional.hpp:66-127 on the values [a], [b]: result, then the contents of both arguments. Both sizes are checked. *)
Definition map2 (g : T -> T -> bool) (x y : arg) (a b : list T) : outcome (list bool * list T * list T) :=
  require (length a =? length b)
    (do r <- transform2 g a b;
     match as_element with
     | None => Ok (r, a, b)                                               (* set_array: a fresh array *)
     | Some w =>
       if rvalue y then Ok (r, a, moved_from (buffer y) (map w r))        (* functional.hpp:87-105, 107-122 *)
       else if rvalue x then Ok (r, moved_from (buffer x) (map w r), b)   (* functional.hpp:66-85 *)
       else Ok (r, a, b)                                                  (* functional.hpp:124-127: a copy *)
     end).
(** [None]: does not compile. *)
Definition calls (x y : option arg) (k : arg -> arg -> outcome (list bool * list T * list T)) :=
  match x, y with Some x, Some y => Some (k x y) | _, _ => None end.
Definition swap_args (o : outcome (list bool * list T * list T)) : outcome (list bool * list T * list T) :=
  do r <- o; let '(v, b, a) := r in Ok (v, a, b).
(** operator! on the temporary, numeric.hpp:313-318 *)
Definition negated (o : outcome (list bool * list T * list T)) : outcome (list bool * list T * list T) :=
  do r <- o; let '(v, a, b) := r in Ok (transform1 negb v, a, b).

Variables (eqb ltb : T -> T -> bool).
(** numeric.hpp:605-613 *)
Definition equal_call (x y : arg) (a b : list T) := calls (forward x x) (forward y y) (fun x y => map2 eqb x y a b).
(** numeric.hpp:615-622 *)
Definition not_equal_call (x y : arg) (a b : list T) := calls (forward x x) (forward y y) (fun x y => negated (map2 eqb x y a b)).
(** numeric.hpp:624-632 *)
Definition less_call (x y : arg) (a b : list T) := calls (forward x x) (forward y y) (fun x y => map2 ltb x y a b).
(** numeric.hpp:634-641: std::forward<ArrayLhs>(b), std::forward<ArrayRhs>(a) *)
Definition less_equal_call (x y : arg) (a b : list T) := calls (forward x y) (forward y x) (fun u v => swap_args (negated (map2 ltb u v b a))).
(** numeric.hpp:643-650 *)
Definition greater_equal_call (x y : arg) (a b : list T) := calls (forward x x) (forward y y) (fun x y => negated (map2 ltb x y a b)).
(** numeric.hpp:652-658 *)
Definition greater_call (x y : arg) (a b : list T) := calls (forward x y) (forward y x) (fun u v => swap_args (map2 ltb u v b a)).
End Compare.
