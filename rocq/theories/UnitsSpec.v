(** Specification vocabulary for the units (C66-C69): exponent vectors and physical values. *)
From Verif Require Import Base Arith Quantity.
From Coq Require Import ZArith QArith List Reals.
Open Scope nat_scope.
Set Implicit Arguments.

(** The admissible template arguments: positive ratios in lowest terms, a positive root, and an offset
    with a positive denominator. *)
Definition unit_ok (u : uty) : Prop := rr_wf (u_dim u) /\ rr_wf (u_scale u) /\ (0 < r_den (u_off u))%Z.

(** The number of base units that [v] units [u] stand for: scale * v + offset. *)
Definition physical (u : uty) (v : R) : R :=
  (Rpower (IZR (rr_num (u_scale u)) / IZR (rr_den (u_scale u))) (/ IZR (rr_root (u_scale u))) * v
   + IZR (r_num (u_off u)) / IZR (r_den (u_off u)))%R.

(** An exponent vector: entry i is the exponent of the i-th base dimension (1 length, 2 time, 3 mass,
    4 electric current, 5 temperature, 6 amount of substance, 7 luminous intensity, 8 planar angle, 9 solid angle,
    10 data; 0 is "dimensionless" and carries no information). *)
Definition expo := nat -> Q.
Definition unit_vec (I : nat) : expo := fun i => if Nat.eqb i I then 1%Q else 0%Q.
Definition same_expo (e f : expo) : Prop := forall i, 1 <= i <= 10 -> (e i == f i)%Q.

(** [dim_of fuel roots u e]: the quantity type [u] was obtained from base quantities by the operators of the
    library, and ordinary dimensional analysis gives it the exponents [e].  [roots] says whether sqrt, cbrt or
    root may have been used. *)
Inductive dim_of (fuel : nat) (roots : bool) : uty -> expo -> Prop :=
| do_base : forall I s o u, I <= 10 -> rr_wf s -> (0 < r_den o)%Z ->
    base_quantity fuel 11 I s o = Some u -> dim_of fuel roots u (unit_vec I)
| do_mul : forall a b c e f, dim_of fuel roots a e -> dim_of fuel roots b f ->
    ty_mul fuel a b = Some c -> dim_of fuel roots c (fun i => e i + f i)%Q
| do_div : forall a b c e f, dim_of fuel roots a e -> dim_of fuel roots b f ->
    ty_div fuel a b = Some c -> dim_of fuel roots c (fun i => e i - f i)%Q
| do_inv : forall a c e, dim_of fuel roots a e -> ty_inv fuel a = Some c -> dim_of fuel roots c (fun i => - e i)%Q
| do_pow : forall n a c e, dim_of fuel roots a e ->
    ty_pow fuel n a = Some c -> dim_of fuel roots c (fun i => inject_Z (Z.of_nat n) * e i)%Q
| do_root : forall k a c e, roots = true -> (1 <= k)%Z -> dim_of fuel roots a e ->
    ty_root fuel k a = Some c -> dim_of fuel roots c (fun i => e i / inject_Z k)%Q
| do_common : forall a b c e f, dim_of fuel roots a e -> dim_of fuel roots b f ->
    ty_common fuel a b = Some c -> dim_of fuel roots c e.

(** An exponent vector given as a list (missing entries are 0), and "the dimension of [u] is that vector". *)
Definition listed (l : list Q) : expo := fun i => nth (i - 1) l 0%Q.
Definition has_dimension (u : uty) (l : list Q) : Prop := exists fuel e, dim_of fuel true u e /\ same_expo e (listed l).
