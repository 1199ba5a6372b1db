(** Models of scicpp/core/random.hpp, scicpp/core/tuple.hpp and of the operator % of scicpp/core/numeric.hpp. *)
From Coq Require Import ZArith Reals List.
From Verif Require Import Base Functional PolyFit.
Open Scope nat_scope.
Set Implicit Arguments.

(** ** random.hpp *)
Section Random.
(** [T] numbers; [E] states of std::mt19937; [D] states of a distribution object (std::normal_distribution keeps a spare value) *)
Variables T E D : Type.
Variable seed_engine : N -> E.
Variable draw : D -> E -> T * (D * E).
(** random.hpp:22-31: map over the array, each element replaced by distribution(rng); the engine is a new one seeded with [seed], the
    distribution a copy of the one given.  std::transform applies the function from first to last. *)
Fixpoint filler_loop (a : list T) (s : D * E) : list T :=
  match a with
  | [] => []
  | _ :: r => let '(v, s') := draw (fst s) (snd s) in v :: filler_loop r s'
  end.
Definition random_number_filler (seed : N) (a : list T) (distribution : D) : list T := filler_loop a (distribution, seed_engine seed).
(** random.hpp:46-52, 71-77: std::array<T, N> res{} ([zero]) *)
Definition rand_array (zero : T) (dist : D) (seed : N) (n : nat) : list T := random_number_filler seed (repeat zero n) dist.
(** random.hpp:59-63, 84-88: std::vector<T> res(N) *)
Definition rand_vector (zero : T) (dist : D) (seed : N) (n : nat) : list T := random_number_filler seed (repeat zero n) dist.
(** std::mt19937::default_seed *)
Definition default_seed : N := 5489.
(** random.hpp:54-57, 79-82 *)
Definition rand_scalar (zero : T) (dist : D) : T := hd zero (rand_array zero dist default_seed 1).
(** random.hpp:96-110: mu + sigma * randn(N): map over the array of the products *)
Definition normal (zero : T) (add mul : T -> T -> T) (dist : D) (mu sigma : T) (n : nat) : list T :=
  map (fun v => add mu v) (map (fun v => mul sigma v) (rand_vector zero dist default_seed n)).
End Random.

(** ** tuple.hpp *)
Section Tuple.
(** [ty]: C++ types, with decidable equality; [sem t] the values of type t *)
Variable ty : Type.
Variable ty_dec : forall a b : ty, {a = b} + {a <> b}.
Variable sem : ty -> Type.
Variable void : ty.
(** std::tuple<ts...> (and std::pair, a tuple of two) *)
Fixpoint tuple (ts : list ty) : Type := match ts with [] => unit | t :: r => (sem t * tuple r)%type end.
(** a tuple of arrays *)
Fixpoint arrays (ts : list ty) : Type := match ts with [] => unit | t :: r => (list (sem t) * arrays r)%type end.
(** std::get<I>: None does not compile *)
Fixpoint get (ts : list ty) (i : nat) : tuple ts -> option (sem (nth i ts void)) :=
  match ts, i with
  | [], _ => fun _ => None
  | t :: r, O => fun x => Some (fst x)
  | t :: r, S j => fun x => @get r j (snd x)
  end.
Definition cast (a b : ty) (e : a = b) (x : sem a) : sem b := match e in _ = c return sem c with eq_refl => x end.
(** std::get<T>: T must occur exactly once in the tuple *)
Fixpoint get_type (t : ty) (ts : list ty) : tuple ts -> option (sem t) :=
  match ts with
  | [] => fun _ => None
  | u :: r => fun x =>
      match ty_dec u t with
      | left e => if existsb (fun v => if ty_dec v t then true else false) r then None else Some (cast e (fst x))
      | right _ => @get_type t r (snd x)
      end
  end.
(** the elements when all of them are there *)
Fixpoint all_some (A : Type) (l : list (option A)) : option (list A) :=
  match l with [] => Some [] | None :: _ => None | Some x :: r => match all_some r with Some s => Some (x :: s) | None => None end end.
(** tuple.hpp:26-49: std::transform of the elements into an array of the same size; None: I is not an index of the tuple *)
Definition get_field (ts : list ty) (i : nat) (a : list (tuple ts)) : option (list (sem (nth i ts void))) :=
  if i <? length ts then all_some (map (@get ts i) a) else None.
(** tuple.hpp:53-73; None: the type is not there, or several times *)
Definition get_field_type (t : ty) (ts : list ty) (a : list (tuple ts)) : option (list (sem t)) :=
  if length (List.filter (fun v => if ty_dec v t then true else false) ts) =? 1 then all_some (map (@get_type t ts) a) else None.
(** tuple.hpp:83-100: make_tuple(get_field<I>(a)...) for I = 0 .. tuple_size - 1 *)
Fixpoint make_arrays (ts : list ty) : (forall i, option (list (sem (nth i ts void)))) -> option (arrays ts) :=
  match ts with
  | [] => fun _ => Some tt
  | t :: r => fun f => match f 0, @make_arrays r (fun i => f (S i)) with Some x, Some y => Some (x, y) | _, _ => None end
  end.
Definition unpack (ts : list ty) (a : list (tuple ts)) : option (arrays ts) := @make_arrays ts (fun i => @get_field ts i a).
End Tuple.
Arguments get {ty sem} void ts i _.
Arguments get_type {ty} ty_dec {sem} t ts _.
Arguments get_field {ty sem} void {ts} i a.
Arguments get_field_type {ty} ty_dec {sem} t {ts} a.
Arguments make_arrays {ty sem void ts} _.
Arguments unpack {ty sem} void {ts} a.

(** ** operator %, numeric.hpp:489-522 *)
(** numeric.hpp:492-501, integers: the remainder of the truncated division; undefined for a zero divisor and, for int and wider types whose
    smallest value is [mn], for mn % -1 (None: a type promoted to int) *)
Definition modulus_int (mn : option Z) (x y : Z) : outcome Z :=
  if (y =? 0)%Z then UB
  else if match mn with Some m => (x =? m)%Z && (y =? -1)%Z | None => false end then UB
  else Ok (Z.rem x y).
(** numeric.hpp:492-501, floating point: fmod of finite numbers, None for NaN (zero divisor) *)
Definition fmod (x y : R) : option R := if Req_EM_T y 0 then None else Some (x - y * IZR (rtrunc (x / y)))%R.
(** numeric.hpp:505-512 and 514-522 *)
Fixpoint map_outcome (A B : Type) (f : A -> outcome B) (a : list A) : outcome (list B) :=
  match a with [] => Ok [] | x :: r => do y <- f x; do s <- map_outcome f r; Ok (y :: s) end.
Definition mod_scalar_int (mn : option Z) (a : list Z) (s : Z) : outcome (list Z) := map_outcome (fun v => modulus_int mn v s) a.
Definition scalar_mod_int (mn : option Z) (s : Z) (a : list Z) : outcome (list Z) := map_outcome (fun v => modulus_int mn s v) a.
Definition mod_scalar (a : list R) (s : R) : list (option R) := map (fun v => fmod v s) a.
Definition scalar_mod (s : R) (a : list R) : list (option R) := map (fun v => fmod s v) a.
