(** Model of scicpp/polynomials/polynomial.hpp. *)
From Coq Require Import ZArith.
From Verif Require Import Base Functional Numeric Convolve.
Open Scope nat_scope.

Section Polynomial.
Context {T : Type}.
Variables (zero one : T) (add sub mul div : T -> T -> T) (opp : T -> T) (ofnat : nat -> T) (gtb : T -> T -> bool).

(** polynomial.hpp:36-54: Horner from the highest coefficient; std::fma(res, x, c) is exact res * x + c here. *)
Definition polyval (x : T) (coeffs : list T) : T :=
  fold_left (fun res c => add (mul res x) c) (rev coeffs) zero.
Definition polyval_array (xs coeffs : list T) : list T := transform1 (fun v => polyval v coeffs) xs.

(** std::copy(first, last, d) of [src] into [dst] at [pos] *)
Fixpoint copy_at (dst : list T) (pos : nat) (src : list T) : outcome (list T) :=
  match src with [] => Ok dst | x :: r => do d <- set_ub dst pos x; copy_at d (S pos) r end.

(** polynomial.hpp:62-83 *)
Definition add_arrays (P1 P2 P : list T) : outcome (list T) :=
  if length P1 <=? length P2 then
    require (length P2 <=? length P)
      (do t <- transform2 add P1 P2; do P' <- copy_at P 0 t; copy_at P' (length P1) (skipn (length P1) P2))
  else
    require (length P1 <=? length P)
      (do t <- transform2 add P2 P1; do P' <- copy_at P 0 t; copy_at P' (length P2) (skipn (length P2) P1)).
(** polynomial.hpp:87-99 *)
Definition polyadd (P1 P2 : list T) : outcome (list T) :=
  add_arrays P1 P2 (repeat zero (if length P2 <? length P1 then length P1 else length P2)).
(** polynomial.hpp:107-132 *)
Definition sub_arrays (P1 P2 P : list T) : outcome (list T) :=
  if length P1 <=? length P2 then
    require (length P2 <=? length P)
      (do t <- transform2 sub P1 P2; do P' <- copy_at P 0 t;
       copy_at P' (length P1) (transform1 opp (skipn (length P1) P2)))
  else
    require (length P1 <=? length P)
      (do t <- transform2 (fun v2 v1 => sub v1 v2) P2 P1; do P' <- copy_at P 0 t;
       copy_at P' (length P2) (skipn (length P2) P1)).
(** polynomial.hpp:136-148 *)
Definition polysub (P1 P2 : list T) : outcome (list T) :=
  sub_arrays P1 P2 (repeat zero (if length P2 <? length P1 then length P1 else length P2)).

(** polynomial.hpp:154-163, direct convolution *)
Definition polymul (P1 P2 : list T) : outcome (list T) := convolve zero add mul P1 P2.

(** polynomial.hpp:186-188: for (j = n + k - 1; j >= k; --j) tmp[j] -= d * v[j - k];
    [cnt] iterations left, j = k + cnt - 1 *)
Fixpoint div_inner (v : list T) (d : T) (k cnt : nat) (tmp : list T) : outcome (list T) :=
  match cnt with
  | O => Ok tmp
  | S c => let j := k + c in
           do t <- at_ub tmp j;
           do y <- at_ub v (j - k);
           do tmp' <- set_ub tmp j (sub t (mul d y));
           div_inner v d k c tmp'
  end.
(** polynomial.hpp:183-189: for (k = m - n; k >= 0; --k); [cnt] iterations left, k = cnt - 1 *)
Fixpoint div_outer (v : list T) (n : nat) (scale : T) (cnt : nat) (tmp : list T) : outcome (list T) :=
  match cnt with
  | O => Ok tmp
  | S k => do t <- at_ub tmp (n + k);
           do tmp' <- div_inner v (mul scale t) k n tmp;
           div_outer v n scale k tmp'
  end.
(** polynomial.hpp:174-193, called with u.size() >= v.size() >= 2 *)
Definition polydiv_impl (u v : list T) : outcome (list T) :=
  let m := length u - 1 in
  let n := length v - 1 in
  do lc <- at_ub v n;
  div_outer v n (div one lc) (m - n + 1) u.
(** polynomial.hpp:217-240 (vectors); 197-215 (arrays, same branches resolved at compile time) *)
Definition polydiv (u v : list T) : outcome (list T * list T) :=
  require (negb (length u =? 0)) (require (negb (length v =? 0))
    (if length v =? 1 then
       do v0 <- at_ub v 0;
       Ok (transform1 (fun x => div x v0) u, [zero])
     else if length u <? length v then Ok ([zero], u)
     else do tmp <- polydiv_impl u v;
          let len := length v - 1 in
          Ok (skipn len tmp, firstn len tmp))).

(** polynomial.hpp:246-258: copy into res.begin() + 1 *)
Definition polymulx (P : list T) : outcome (list T) := copy_at (repeat zero (length P + 1)) 1 P.
(** polynomial.hpp:260-265: push_back(0); rotate one step to the right *)
Definition polymulx_rvalue (P : list T) : list T :=
  match rev (P ++ [zero]) with [] => [] | x :: r => x :: rev r end.

(** polynomial.hpp:275-291 (std::array), recursion on the exponent; [fuel] >= pow *)
Fixpoint polypow_array (fuel pow : nat) (P : list T) : outcome (list T) :=
  match fuel with
  | O => Ok [one]
  | S f =>
      if pow =? 0 then Ok [one]
      else if pow =? 1 then Ok P
      else do PP <- polymul P P;
           if pow mod 2 =? 0 then polypow_array f (pow / 2) PP
           else do R <- polypow_array f ((pow - 1) / 2) PP; polymul P R
  end.
(** polynomial.hpp:305-312: while (pow > 1); [fuel] >= pow *)
Fixpoint polypow_loop (fuel pow : nat) (x y : list T) : outcome (list T * list T) :=
  match fuel with
  | O => Ok (x, y)
  | S f =>
      if 1 <? pow then
        do y' <- (if pow mod 2 =? 1 then polymul x y else Ok y);
        do x' <- polymul x x;
        polypow_loop f (pow / 2) x' y'
      else Ok (x, y)
  end.
(** polynomial.hpp:293-320; x.reserve(pow * (P.size() - 1) + 1) throws std::length_error for an empty P *)
Definition polypow (P : list T) (pow : nat) : outcome (list T) :=
  if pow =? 0 then Ok [one]
  else if pow =? 1 then Ok P
  else if length P =? 0 then Throw
  else do (x, y) <- polypow_loop pow pow P [one]; polymul x y.

(** polynomial.hpp:328-350: res[i] = T(N - 1 - i) * P[i] for i < N - 1; the last coefficient is dropped *)
Definition polyder_once (P : list T) : outcome (list T) :=
  require (negb (length P =? 0))
    (let N := length P in
     do P' <- transform2 mul P (map (fun i => ofnat (N - 1 - i)) (seq 0 N));
     Ok (firstn (N - 1) P')).
Fixpoint polyder_loop (m : nat) (P : list T) : outcome (list T) :=
  match m with O => Ok P | S k => do P' <- polyder_once P; polyder_loop k P' end.
(** polynomial.hpp:373-391 (and 354-371 for arrays) *)
Definition polyder (P : list T) (m : Z) : outcome (list T) :=
  require (0 <=? m)%Z
    (if (m =? 0)%Z then Ok P
     else if (Z.of_nat (length P) <=? m)%Z then Ok []
     else polyder_loop (Z.to_nat m) P).

(** polynomial.hpp:414-421: for (i = N - 1; i >= 0; --i) P[i + 1] = P[i] / T(i + 1);  [cnt] left, i = cnt - 1 *)
Fixpoint polyint_fill (cnt : nat) (P : list T) : outcome (list T) :=
  match cnt with
  | O => Ok P
  | S i => do x <- at_ub P i; do P' <- set_ub P (i + 1) (div x (ofnat (i + 1))); polyint_fill i P'
  end.
(** polynomial.hpp:412-424: P.resize(N + 1), fill from the end, P[0] = 0 *)
Definition polyint_once (P : list T) : outcome (list T) :=
  do P' <- polyint_fill (length P) (P ++ [zero]); set_ub P' 0 zero.
(** polynomial.hpp:399-408, std::array version *)
Definition polyint_once_array (P : list T) : list T :=
  zero :: map (fun i => div (nth i P zero) (ofnat (i + 1))) (seq 0 (length P)).
Fixpoint polyint_loop (m : nat) (P : list T) : outcome (list T) :=
  match m with O => Ok P | S k => do P' <- polyint_once P; polyint_loop k P' end.
(** polynomial.hpp:440-458 *)
Definition polyint (P : list T) (m : Z) : outcome (list T) :=
  require (negb (length P =? 0)) (require (0 <=? m)%Z
    (if (m =? 0)%Z then Ok P else polyint_loop (Z.to_nat m) P)).

(** polynomial.hpp:464-482: deg x deg matrix as a list of rows; subdiagonal ones, last column -P_i / P_deg.
    col(deg - 1) of an empty matrix is out of range. *)
Definition polycompanion (P : list T) : outcome (list (list T)) :=
  if length P <=? 1 then UB
  else let deg := length P - 1 in
       do lc <- at_ub P deg;
       Ok (map (fun i => map (fun j =>
             if j =? deg - 1 then div (opp (nth i P zero)) lc
             else if i =? S j then one else zero) (seq 0 deg)) (seq 0 deg)).

(** polynomial.hpp:497-526: columns 1, x, and col(i) = col(i-1) * col(1); col(1) does not exist for deg = 0.
    Result: the list of columns. *)
Fixpoint vander_cols (x prev : list T) (cnt : nat) : outcome (list (list T)) :=
  match cnt with
  | O => Ok []
  | S k => do c <- map2 mul prev x; do r <- vander_cols x c k; Ok (c :: r)
  end.
Definition polyvander (x : list T) (deg : Z) : outcome (list (list T)) :=
  if (deg <? 1)%Z then UB
  else do r <- vander_cols x x (Z.to_nat deg - 1);
       Ok (repeat one (length x) :: x :: r).

(** polynomial.hpp:546-556: erase from one past the last coefficient > tol *)
Fixpoint drop_while_rev (p : T -> bool) (r : list T) : list T :=
  match r with [] => [] | x :: s => if p x then r else drop_while_rev p s end.
Definition polytrim (P : list T) (tol : T) : list T :=
  let P' := rev (drop_while_rev (fun c => gtb c tol) (rev P)) in
  match P' with [] => [zero] | _ => P' end.

(** class Polynomial, polynomial.hpp:563-698: the state is the coefficient vector m_coef.
    degree() = m_coef.size() - 1 in std::size_t: SIZE_MAX for an empty vector; [degree_gtb a b] is a.degree() > b.degree(). *)
Definition degree_gtb (a b : list T) : bool :=
  if length a =? 0 then negb (length b =? 0)
  else if length b =? 0 then false else length b <? length a.
(** degree() + 1 wraps back to the size *)
Definition class_resize (v : list T) (n : nat) : list T :=
  firstn n v ++ repeat zero (n - length v).
(** transform(first1, last1, first2, d, op) with d = first2 (in place): v[i] = op(src[i], v[i]) *)
Fixpoint transform_into (op : T -> T -> T) (src v : list T) (pos : nat) : outcome (list T) :=
  match src with
  | [] => Ok v
  | x :: r => do y <- at_ub v pos; do v' <- set_ub v pos (op x y); transform_into op r v' (S pos)
  end.
(** polynomial.hpp:602-621; [firstn_ub]: the range rhs.begin() .. rhs.begin() + old_size must exist *)
Definition poly_plus_assign (p rhs : list T) : outcome (list T) :=
  if degree_gtb rhs p then
    let old_size := length p in
    let p1 := class_resize p (length rhs) in
    if length rhs <? old_size then UB
    else do p2 <- transform_into add (firstn old_size rhs) p1 0;
         copy_at p2 old_size (skipn old_size rhs)
  else transform_into add rhs p 0.
(** for (i = pos; i < pos + cnt; ++i) m_coef[i] -= rhs[i] *)
Fixpoint sub_range (p rhs : list T) (pos cnt : nat) : outcome (list T) :=
  match cnt with
  | O => Ok p
  | S k => do x <- at_ub p pos; do y <- at_ub rhs pos; do p' <- set_ub p pos (sub x y); sub_range p' rhs (S pos) k
  end.
Fixpoint neg_range (p rhs : list T) (pos cnt : nat) : outcome (list T) :=
  match cnt with
  | O => Ok p
  | S k => do y <- at_ub rhs pos; do p' <- set_ub p pos (opp y); neg_range p' rhs (S pos) k
  end.
(** polynomial.hpp:623-642 *)
Definition poly_minus_assign (p rhs : list T) : outcome (list T) :=
  if degree_gtb rhs p then
    let old_size := length p in
    let p1 := class_resize p (length rhs) in
    do p2 <- sub_range p1 rhs 0 old_size;
    neg_range p2 rhs old_size (length p1 - old_size)
  else sub_range p rhs 0 (length rhs).
(** polynomial.hpp:644-650, 652-655 *)
Definition poly_scale_assign (p : list T) (s : T) : list T := transform1 (fun c => mul c s) p.
Definition poly_mul_assign (p rhs : list T) : outcome (list T) := polymul p rhs.

(** polynomial.hpp:705-721 *)
Fixpoint fromroots_loop (roots P : list T) : outcome (list T) :=
  match roots with
  | [] => Ok P
  | r :: rs =>
      let P_ := poly_scale_assign P r in
      do P' <- poly_minus_assign (polymulx_rvalue P) P_;
      fromroots_loop rs P'
  end.
Definition polyfromroots (roots : list T) : outcome (list T) := fromroots_loop roots [one].
End Polynomial.
