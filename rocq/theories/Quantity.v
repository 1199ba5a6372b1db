(** Model of scicpp/core/units/quantity.hpp and of the power functions of scicpp/core/units/maths.hpp.

    A quantity type quantity<T, Dim, Scale, Offset> is a representation type T together with the record
    [uty] below; a quantity is its m_value.  Operations on types happen at compile time: [None] stands for "the
    program does not compile" (a failed static_assert, or a compile-time factorisation that does not end:
    the fuel of Arith.v).  Operations on values are parameterised by the arithmetic of the representation. *)
From Verif Require Import Base Arith.
From Coq Require Import ZArith.
Open Scope nat_scope.
Set Implicit Arguments.

(** std::ratio<num, den>, in lowest terms with a positive denominator. *)
Record ratio := Ratio { r_num : Z; r_den : Z }.

(** std::ratio<a, b> (the standard requires b <> 0). *)
Definition mk_ratio (a b : Z) : ratio :=
  let g := Z.gcd a b in Ratio (Z.sgn b * Z.quot a g) (Z.abs b / g).

(** std::ratio_subtract *)
Definition ratio_subtract (x y : ratio) : ratio :=
  mk_ratio (r_num x * r_den y - r_num y * r_den x) (r_den x * r_den y).

(** The last three template arguments of quantity<T, Dim, Scale, Offset> (quantity.hpp:80-81, 156-160). *)
Record uty := U { u_dim : rr; u_scale : rr; u_off : ratio }.

Definition ratio_eqb (x y : ratio) : bool := ((r_num x =? r_num y) && (r_den x =? r_den y))%Z.
(** std::is_same_v on two root_ratio types *)
Definition rr_eqb (x y : rr) : bool :=
  ((rr_num x =? rr_num y) && (rr_den x =? rr_den y) && (rr_root x =? rr_root y))%Z.

Definition zero_ratio : ratio := Ratio 0 1.
(** dimension<std::ratio<1>> and scale<std::ratio<1>> (quantity.hpp:37-38, 56-57) *)
Definition one_rr : rr := RR 1 1 1.

Section Types.
  Variable fuel : nat.

  (** quantity.hpp:322-327, 475-477  the type of a * b.  [rhs] is quantity<T, RhsDim, RhsScale>, whose Offset is the
      default std::ratio<0>; the offset of the left operand is not constrained. *)
  Definition ty_mul (a b : uty) : option uty :=
    if ratio_eqb (u_off b) zero_ratio then
      match rr_multiply fuel (u_dim a) (u_dim b), rr_multiply fuel (u_scale a) (u_scale b) with
      | Some d, Some s => Some (U d s zero_ratio)
      | _, _ => None
      end
    else None.

  (** quantity.hpp:329-334, 479-481  the type of a / b *)
  Definition ty_div (a b : uty) : option uty :=
    if ratio_eqb (u_off b) zero_ratio then
      match rr_divide fuel (u_dim a) (u_dim b), rr_divide fuel (u_scale a) (u_scale b) with
      | Some d, Some s => Some (U d s zero_ratio)
      | _, _ => None
      end
    else None.

  (** quantity.hpp:336-340, 483-484  the type of a.inv() *)
  Definition ty_inv (a : uty) : option uty :=
    match rr_divide fuel one_rr (u_dim a), rr_divide fuel one_rr (u_scale a) with
    | Some d, Some s => Some (U d s zero_ratio)
    | _, _ => None
    end.

  (** quantity.hpp:414-427, 486-487 root<Root>; units/maths.hpp:101-123 sqrt (Root = 2), cbrt (Root = 3): the type *)
  Definition ty_root (Root : Z) (a : uty) : option uty :=
    match rr_root_impl fuel (u_dim a) Root, rr_root_impl fuel (u_scale a) Root with
    | Some d, Some s => Some (U d s zero_ratio)
    | _, _ => None
    end.

  (** units/maths.hpp:125-131 pow<n>: the type.  A negative n does not compile (see [rr_power]). *)
  Definition ty_pow (n : nat) (a : uty) : option uty :=
    match rr_power fuel (u_dim a) n, rr_power fuel (u_scale a) n with
    | Some d, Some s => Some (U d s zero_ratio)
    | _, _ => None
    end.

  (** quantity.hpp:106-128  common_quantity_t.  The operators that use it take both operands with the same Dim. *)
  Definition ty_common (a b : uty) : option uty :=
    if rr_eqb (u_dim a) (u_dim b) && ratio_eqb (u_off a) (u_off b) then
      match rr_common fuel (u_scale a) (u_scale b) with
      | Some s => Some (U (u_dim a) s (u_off a))
      | None => None
      end
    else None.
End Types.

(** quantity.hpp:162-164  is_harmonic<Scale2> of a quantity with scale Scale: std::ratio_divide reads only ::num and
    ::den (the root is ignored). *)
Definition is_harmonic (to_scale from_scale : rr) : bool :=
  (r_den (mk_ratio (rr_num from_scale * rr_den to_scale) (rr_den from_scale * rr_num to_scale)) =? 1)%Z.

(** quantity.hpp:166-169  is_implicitly_convertible<T2, Scale2>: [fto], [ffrom] say whether the two representations
    are floating point. *)
Definition is_implicitly_convertible (fto ffrom : bool) (to from : uty) : bool :=
  fto || (negb ffrom && is_harmonic (u_scale to) (u_scale from)).

Section Cast.
  (** [T] represents the source, [T2] the destination and [C] is their std::common_type. *)
  Variables (T T2 C : Type).
  Variables (cadd cmul cdiv : C -> C -> C) (ofZ : Z -> C).
  Variable ev : rr -> option C.     (* arithmetic::eval<rep_t> *)
  Variables (toC : T -> C) (ofC : C -> T2).

  (** quantity.hpp:132-154  quantity_cast<ToQty>(qty) *)
  Definition quantity_cast (fuel : nat) (from to : uty) (v : T) : option T2 :=
    if rr_eqb (u_dim from) (u_dim to) then
      match rr_divide fuel (u_scale from) (u_scale to) with
      | Some qs =>
          match ev qs with
          | Some qty_scale =>
              let od := ratio_subtract (u_off from) (u_off to) in
              let offset_diff := cdiv (ofZ (r_num od)) (ofZ (r_den od)) in
              Some (ofC (cadd (cmul qty_scale (toC v)) offset_diff))
          | None => None
          end
      | None => None
      end
    else None.
End Cast.

Section Values.
  Variable T : Type.
  Variables (tadd tsub tmul tdiv : T -> T -> T) (topp : T -> T) (ofZ : Z -> T) (teq tlt : T -> T -> bool).
  Variable ev : rr -> option T.     (* arithmetic::eval<T> *)
  Variable fuel : nat.

  (** quantity.hpp:211-225  operator== *)
  Definition q_eq (a b : uty) (x y : T) : bool :=
    let s := u_scale a in let rs := u_scale b in let o := u_off a in let ro := u_off b in
    let lhs_factor := ofZ (rr_num s * rr_den rs * r_den o * r_den ro)%Z in
    let lhs_offset := ofZ (r_num o * rr_den rs * rr_den s * r_den ro)%Z in
    let rhs_factor := ofZ (rr_num rs * rr_den s * r_den ro * r_den o)%Z in
    let rhs_offset := ofZ (r_num ro * rr_den s * rr_den rs * r_den o)%Z in
    teq (tadd (tmul lhs_factor x) lhs_offset) (tadd (tmul rhs_factor y) rhs_offset).

  (** quantity.hpp:227-231  operator!= *)
  Definition q_ne a b x y := negb (q_eq a b x y).

  (** quantity.hpp:233-247  operator< *)
  Definition q_lt (a b : uty) (x y : T) : bool :=
    let s := u_scale a in let rs := u_scale b in let o := u_off a in let ro := u_off b in
    let lhs_factor := ofZ (rr_num s * rr_den rs * r_den o * r_den ro)%Z in
    let lhs_offset := ofZ (r_num o * rr_den rs * rr_den s * r_den ro)%Z in
    let rhs_factor := ofZ (rr_num rs * rr_den s * r_den ro * r_den o)%Z in
    let rhs_offset := ofZ (r_num ro * rr_den s * rr_den rs * r_den o)%Z in
    tlt (tadd (tmul lhs_factor x) lhs_offset) (tadd (tmul rhs_factor y) rhs_offset).

  (** quantity.hpp:249-253  operator<= *)
  Definition q_le a b x y := negb (q_lt b a y x).
  (** quantity.hpp:255-259  operator> *)
  Definition q_gt a b x y := q_lt b a y x.
  (** quantity.hpp:261-265  operator>= *)
  Definition q_ge a b x y := negb (q_lt a b x y).

  (** The converting constructor with a floating-point T, or with integers when harmonic: m_value(quantity_cast(..))
      (quantity.hpp:198-203).  [fto] says whether T is floating point; source and destination both use T. *)
  Definition convert (fto : bool) (from to : uty) (v : T) : option T :=
    if is_implicitly_convertible fto fto to from
    then quantity_cast tadd tmul tdiv ofZ ev (fun x => x) (fun x => x) fuel from to v
    else None.

  (** quantity.hpp:269-272, 274-277  operator+=, operator-= (the right operand is converted to the left type first) *)
  Definition q_iadd (fto : bool) (a b : uty) (x y : T) : option T :=
    match convert fto b a y with Some y' => Some (tadd x y') | None => None end.
  Definition q_isub (fto : bool) (a b : uty) (x y : T) : option T :=
    match convert fto b a y with Some y' => Some (tsub x y') | None => None end.

  (** quantity.hpp:306-312  operator+: cq(cq( *this).value() + cq(rhs).value()).  A quantity converted to its
      own type is copied, not cast; here it is cast, which multiplies by 1 and adds 0. *)
  Definition q_plus (op : T -> T -> T) (fto : bool) (a b : uty) (x y : T) : option (uty * T) :=
    match ty_common fuel a b with
    | Some c =>
        match convert fto a c x, convert fto b c y with
        | Some x', Some y' => Some (c, op x' y')
        | _, _ => None
        end
    | None => None
    end.
  Definition q_add := q_plus tadd.
  (** quantity.hpp:314-320  operator- *)
  Definition q_sub := q_plus tsub.

  (** quantity.hpp:290  unary operator- *)
  Definition q_neg (x : T) : T := topp x.

  (** quantity.hpp:322-327  operator* *)
  Definition q_mul (a b : uty) (x y : T) : option (uty * T) :=
    match ty_mul fuel a b with Some c => Some (c, tmul x y) | None => None end.
  (** quantity.hpp:329-334  operator/ *)
  Definition q_div (a b : uty) (x y : T) : option (uty * T) :=
    match ty_div fuel a b with Some c => Some (c, tdiv x y) | None => None end.
  (** quantity.hpp:336-340  inv *)
  Definition q_inv (a : uty) (x : T) : option (uty * T) :=
    match ty_inv fuel a with Some c => Some (c, tdiv (ofZ 1) x) | None => None end.

  (** quantity.hpp:344-349  eval() *)
  Definition q_eval (a : uty) (x : T) : option T :=
    match ev (u_scale a) with
    | Some factor => Some (tadd (tmul factor x) (tdiv (ofZ (r_num (u_off a))) (ofZ (r_den (u_off a)))))
    | None => None
    end.

  (** units/maths.hpp:125-140  pow<n> of a plain number: binary powering *)
  Definition pow_n (n : nat) (x : T) : T := ct_power (ofZ 1) tmul x (Z.of_nat n).
  (** units/maths.hpp:125-131  pow<n> of a quantity *)
  Definition q_pow (n : nat) (a : uty) (x : T) : option (uty * T) :=
    match ty_pow fuel n a with Some c => Some (c, pow_n n x) | None => None end.

  (** units/maths.hpp:101-123, quantity.hpp:414-427  sqrt, cbrt and root<Root>, [rootT] being the root of a number *)
  Definition q_root (rootT : T -> T) (Root : Z) (a : uty) (x : T) : option (uty * T) :=
    match ty_root fuel Root a with Some c => Some (c, rootT x) | None => None end.

  (** units/maths.hpp:87-97  fma(x, y, z): the result has the type of x * y; z only needs the same dimension.
      [tfma] is std::fma. *)
  Definition q_fma (tfma : T -> T -> T -> T) (a b c : uty) (x y z : T) : option (uty * T) :=
    match ty_mul fuel a b with
    | Some p => if rr_eqb (u_dim p) (u_dim c) then Some (p, tfma x y z) else None
    | None => None
    end.
End Values.

Section Scalars.
  (** quantity.hpp:355-401  operators with a number.  [T1] is the number's type, [T2] the representation and
      [T] the type of their product. *)
  Variables (T1 T2 T : Type).
  Variables (one1 : T1) (div1 : T1 -> T1 -> T1) (to1 : T1 -> T) (to2 : T2 -> T) (tmul : T -> T -> T).

  (** quantity.hpp:355-366  factor * qty *)
  Definition q_smul (factor : T1) (x : T2) : T := tmul (to1 factor) (to2 x).
  (** quantity.hpp:368-378  qty * factor *)
  Definition q_muls (x : T2) (factor : T1) : T := q_smul factor x.
  (** quantity.hpp:391-401  qty / factor *)
  Definition q_divs (x : T2) (factor : T1) : T := q_muls x (div1 one1 factor).

  Variables (one2 : T2) (div2 : T2 -> T2 -> T2).
  (** quantity.hpp:380-389  factor / qty = factor * qty.inv() *)
  Definition q_sdiv (fuel : nat) (a : uty) (factor : T1) (x : T2) : option (uty * T) :=
    match ty_inv fuel a with Some c => Some (c, q_smul factor (div2 one2 x)) | None => None end.
End Scalars.

(** arithmetic.hpp:158-161  arithmetic::eval<intmax_t>(root_ratio): integer division, then ct_root. *)
Definition eval_Z (fuel : nat) (x : rr) : option Z :=
  ct_root 0%Z 1%Z Z.add Z.mul Z.quot Z.eqb Z.ltb (fun z => z) 0%Z fuel (rr_root x) (Z.quot (rr_num x) (rr_den x)).

(** quantity.hpp:493-517: dimensional_system<N>: the I-th base dimension is the I-th element of prime_list<N>. *)
Definition base_dimension (fuel N I : nat) : option rr :=
  match prime_list fuel N 1 with
  | Some (Ok l) => match nth_error l I with Some p => Some (mk_rr p 1 1) | None => None end
  | _ => None
  end.

(** quantity.hpp:525-537  get_base_quantity<I, dimensional_system<N>, T, Scale, Offset> *)
Definition base_quantity (fuel N I : nat) (s : rr) (o : ratio) : option uty :=
  match base_dimension fuel N I with Some d => Some (U d s o) | None => None end.
