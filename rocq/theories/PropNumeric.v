(** Properties C08-C16 (scicpp/core/numeric.hpp). *)
From Coq Require Import ZArith Permutation Sorted Ring.
From Verif Require Import Base Functional FunctionalProofs Spec Numeric NumericProofs BaseFl FlFacts NumericFacts.
Open Scope nat_scope.

(** C08: sums and products in any commutative ring (integers: [integral = true]; otherwise the pairwise path). *)
Theorem C08_sum_prod_ring : forall (T : Type) (rO rI : T) radd rmul rsub ropp,
  ring_theory rO rI radd rmul rsub ropp eq ->
  forall (integral : bool) (a b : list T),
    sum rO radd integral a = bigop radd rO a /\
    prod rI rmul integral a = bigop rmul rI a /\
    sum rO radd integral (a ++ b) = radd (sum rO radd integral a) (sum rO radd integral b) /\
    prod rI rmul integral (a ++ b) = rmul (prod rI rmul integral a) (prod rI rmul integral b) /\
    (Permutation a b -> sum rO radd integral a = sum rO radd integral b
                        /\ prod rI rmul integral a = prod rI rmul integral b).
Proof. exact sum_prod_ring. Qed.
Print Assumptions C08_sum_prod_ring.

(** C08: doubles with infinities and NaN: the nan versions are the plain ones after removing NaNs (value, count);
    one NaN makes the plain versions NaN; NaN-free finite data give the mathematical value. *)
Theorem C08_nansum_nanprod : forall (a : list fl),
  nansum f0 fadd not_nan a = (sum f0 fadd false (filter not_nan a), length (filter not_nan a)) /\
  nanprod f1 fmul not_nan a = (prod f1 fmul false (filter not_nan a), length (filter not_nan a)).
Proof. exact nansum_nanprod. Qed.
Print Assumptions C08_nansum_nanprod.

Theorem C08_nan_propagates : forall (a : list fl), In NaN a ->
  sum f0 fadd false a = NaN /\ prod f1 fmul false a = NaN.
Proof. exact sum_prod_nan. Qed.
Print Assumptions C08_nan_propagates.

Theorem C08_finite_sum : forall (a : list Qc),
  sum f0 fadd false (map Fin a) = Fin (bigop Qcplus (Q2Qc 0) a) /\
  prod f1 fmul false (map Fin a) = Fin (bigop Qcmult (Q2Qc 1) a).
Proof. exact sum_prod_fin. Qed.
Print Assumptions C08_finite_sum.

Example C08_nonvacuous :
  nansum f0 fadd not_nan [Fin (qz 1); NaN; Fin (qz 2)] = (Fin (qz 3), 2) /\
  sum f0 fadd false [Fin (qz 1); NaN; Fin (qz 2)] = NaN.
Proof. split; reflexivity. Qed.

(** C09 *)
Theorem C09_diff_binomial : forall (T : Type) (rO rI : T) radd rmul rsub ropp,
  ring_theory rO rI radd rmul rsub ropp eq ->
  forall (a : list T) (n : nat),
  exists r, diff rsub a (Z.of_nat n) = Ok r /\ length r = length a - n /\
    forall i, i + n < length a ->
      nth i r rO =
      bigop radd rO (map (fun k => (if Nat.even (n - k) then fun x => x else ropp)
                                     (nmul rO radd (binom n k) (nth (i + k) a rO))) (seq 0 (S n))).
Proof. exact diff_binomial. Qed.
Print Assumptions C09_diff_binomial.

Theorem C09_diff_cumsum : forall (T : Type) (rO rI : T) radd rmul rsub ropp,
  ring_theory rO rI radd rmul rsub ropp eq ->
  forall a : list T, diff rsub (cumsum radd a) 1 = Ok (tl a).
Proof. exact @diff_cumsum. Qed.
Print Assumptions C09_diff_cumsum.

Theorem C09_array_overload : forall (T : Type) (rsub : T -> T -> T) (a : list T) (n : nat),
  diff rsub a (Z.of_nat n) = Ok (diff_array rsub n a).
Proof. exact diff_array_agrees. Qed.
Print Assumptions C09_array_overload.

Theorem C09_negative_order : forall (T : Type) (rsub : T -> T -> T) (a : list T) (n : Z),
  (n < 0)%Z -> diff rsub a n = RequireFail.
Proof. exact @diff_neg. Qed.
Print Assumptions C09_negative_order.

Example C09_nonvacuous : diff Z.sub [1; 4; 9; 16; 25]%Z 2 = Ok [2; 2; 2]%Z /\ diff Z.sub [1; 4]%Z 5 = Ok [].
Proof. split; reflexivity. Qed.

(** C10: for at least two samples. Missing from C10: the one-element case, which is undefined behaviour (refuted below). *)
Theorem C10_trapz_partial : forall (T : Type) (rO rI : T) radd rmul rsub ropp,
  ring_theory rO rI radd rmul rsub ropp eq ->
  forall (integral : bool) (half dx : T) (f : list T), radd half half = rI ->
  (f = [] -> trapz rO radd rmul integral half (radd rI rI) f dx = Ok rO) /\
  (2 <= length f ->
   trapz rO radd rmul integral half (radd rI rI) f dx =
   Ok (bigop radd rO (map (fun i => rmul dx (rmul half (radd (nth i f rO) (nth (S i) f rO)))) (seq 0 (length f - 1))))).
Proof. exact trapz_rule. Qed.
Print Assumptions C10_trapz_partial.

Theorem C10_trapz_additive : forall (T : Type) (rO rI : T) radd rmul rsub ropp,
  ring_theory rO rI radd rmul rsub ropp eq ->
  forall (integral : bool) (half dx : T) (l : list T) (x : T) (r : list T), l <> [] -> r <> [] ->
  exists A B, trapz rO radd rmul integral half (radd rI rI) (l ++ [x]) dx = Ok A /\
              trapz rO radd rmul integral half (radd rI rI) (x :: r) dx = Ok B /\
              trapz rO radd rmul integral half (radd rI rI) (l ++ x :: r) dx = Ok (radd A B).
Proof. exact trapz_additive. Qed.
Print Assumptions C10_trapz_additive.

(** exact for affine functions q + p*i sampled at n+2 points: dx * (q*N + p*N^2/2), N = n+1 *)
Theorem C10_trapz_affine : forall (T : Type) (rO rI : T) radd rmul rsub ropp,
  ring_theory rO rI radd rmul rsub ropp eq ->
  forall (integral : bool) (half dx p q : T) (n : nat), radd half half = rI ->
  let N := nmul rO radd (S n) rI in
  trapz rO radd rmul integral half (radd rI rI)
    (map (fun i => radd q (rmul p (nmul rO radd i rI))) (seq 0 (S (S n)))) dx =
  Ok (rmul dx (radd (rmul q N) (rmul half (rmul p (rmul N N))))).
Proof. exact trapz_affine. Qed.
Print Assumptions C10_trapz_affine.

Theorem C10_trapz_single_sample_refuted : forall (T : Type) (zero : T) add mul integral half two x dx,
  trapz zero add mul integral half two [x] dx = UB.
Proof. exact trapz_single. Qed.
Print Assumptions C10_trapz_single_sample_refuted.

(** C11 *)
Theorem C11_inner : forall (T : Type) (rO rI : T) radd rmul rsub ropp,
  ring_theory rO rI radd rmul rsub ropp eq ->
  forall a b : list T,
  (length a = length b ->
     inner rO radd rmul a b = Ok (bigop radd rO (map (fun i => rmul (nth i a rO) (nth i b rO)) (seq 0 (length a)))) /\
     dot rO radd rmul a b = inner rO radd rmul a b /\
     inner rO radd rmul a b = inner rO radd rmul b a) /\
  (length a <> length b -> inner rO radd rmul a b = RequireFail).
Proof. exact inner_product. Qed.
Print Assumptions C11_inner.

Theorem C11_inner_bilinear : forall (T : Type) (rO rI : T) radd rmul rsub ropp,
  ring_theory rO rI radd rmul rsub ropp eq ->
  forall (c : T) (a a' b : list T), length a = length b -> length a' = length b ->
  exists x y, inner rO radd rmul a b = Ok x /\ inner rO radd rmul a' b = Ok y /\
    inner rO radd rmul (map (fun p => radd (fst p) (snd p)) (combine a a')) b = Ok (radd x y) /\
    inner rO radd rmul (map (rmul c) a) b = Ok (rmul c x).
Proof. exact inner_bilinear. Qed.
Print Assumptions C11_inner_bilinear.

(** vdot for a ring with a conjugation (involutive ring morphism) *)
Theorem C11_vdot_hermitian : forall (T : Type) (rO rI : T) radd rmul rsub ropp (conj : T -> T),
  ring_theory rO rI radd rmul rsub ropp eq ->
  (forall x y, conj (radd x y) = radd (conj x) (conj y)) ->
  (forall x y, conj (rmul x y) = rmul (conj x) (conj y)) ->
  (forall x, conj (conj x) = x) ->
  forall a b : list T, length a = length b ->
  exists v, vdot rO radd rmul conj a b = Ok v /\ vdot rO radd rmul conj b a = Ok (conj v) /\
    v = bigop radd rO (map (fun i => rmul (conj (nth i a rO)) (nth i b rO)) (seq 0 (length a))).
Proof. exact vdot_hermitian. Qed.
Print Assumptions C11_vdot_hermitian.

(** complex numbers as pairs of rationals: vdot(a,a) = (sum of |a_i|^2, 0) *)
Theorem C11_vdot_self_real : forall (a : list (Qc * Qc)),
  vdot (Q2Qc 0, Q2Qc 0) cadd cmul cconj a a =
  Ok (bigop Qcplus (Q2Qc 0) (map (fun z => fst z * fst z + snd z * snd z)%Qc a), Q2Qc 0) /\
  (Q2Qc 0 <= bigop Qcplus (Q2Qc 0) (map (fun z => fst z * fst z + snd z * snd z) a))%Qc.
Proof. exact vdot_self. Qed.
Print Assumptions C11_vdot_self_real.

Example C11_nonvacuous : inner 0%Z Z.add Z.mul [1; 2; 3]%Z [4; 5; 6]%Z = Ok 32%Z /\
  (exists R, R = ring_theory 0%Z 1%Z Z.add Z.mul Z.sub Z.opp eq /\ R).
Proof. split; [reflexivity|]. eexists; split; [reflexivity|]. exact InitialRing.Zth. Qed.

(** C12: all the comparisons that behave as their scalar counterparts even with NaN ... *)
Theorem C12_comparisons_partial : forall (a : list fl) (s : fl),
  arr_lt_s flt a s = map (fun v => flt v s) a /\ s_lt_arr flt s a = map (fun v => flt s v) a /\
  arr_gt_s flt a s = map (fun v => flt s v) a /\ s_gt_arr flt s a = map (fun v => flt v s) a /\
  arr_eq_s feq a s = map (fun v => feq v s) a /\ arr_ne_s feq a s = map (fun v => negb (feq v s)) a /\
  (is_num s -> Forall is_num a ->
     arr_le_s flt a s = map (fun v => fle v s) a /\ arr_ge_s flt a s = map (fun v => fle s v) a /\
     s_le_arr flt s a = map (fun v => fle s v) a /\ s_ge_arr flt s a = map (fun v => fle v s) a).
Proof. exact scalar_comparisons. Qed.
Print Assumptions C12_comparisons_partial.

Theorem C12_array_comparisons_partial : forall (a b : list fl), length a = length b ->
  let z := combine a b in
  less flt a b = Ok (map (fun p => flt (fst p) (snd p)) z) /\
  greater flt a b = Ok (map (fun p => flt (snd p) (fst p)) z) /\
  equal feq a b = Ok (map (fun p => feq (fst p) (snd p)) z) /\
  not_equal feq a b = Ok (map (fun p => negb (feq (fst p) (snd p))) z) /\
  (Forall is_num a -> Forall is_num b ->
     less_equal flt a b = Ok (map (fun p => fle (fst p) (snd p)) z) /\
     greater_equal flt a b = Ok (map (fun p => fle (snd p) (fst p)) z)).
Proof. exact array_comparisons. Qed.
Print Assumptions C12_array_comparisons_partial.

(** ... and the ones that answer [true] for NaN. *)
Theorem C12_le_ge_nan_refuted :
  (exists a s, arr_le_s flt a s <> map (fun v => fle v s) a) /\
  (exists a s, arr_ge_s flt a s <> map (fun v => fle s v) a) /\
  (exists a b, length a = length b /\ less_equal flt a b <> Ok (map (fun p => fle (fst p) (snd p)) (combine a b))) /\
  (exists a b, length a = length b /\ greater_equal flt a b <> Ok (map (fun p => fle (snd p) (fst p)) (combine a b))).
Proof. exact le_ge_nan. Qed.
Print Assumptions C12_le_ge_nan_refuted.

(** C13 *)
Theorem C13_mask : forall (T : Type) (a : list T) (m : list bool),
  (length a = length m ->
     mask_copy a m = Ok (map fst (filter snd (combine a m))) /\
     mask_move a m = mask_copy a m) /\
  (length a <> length m -> mask_copy a m = RequireFail /\ mask_move a m = RequireFail) /\
  (forall p, mask_copy a (map p a) = Ok (filter p a)).
Proof. exact mask_selects. Qed.
Print Assumptions C13_mask.

Example C13_nonvacuous : mask_move [1; 2; 3; 4; 5] [false; true; false; true; true] = Ok [2; 4; 5].
Proof. reflexivity. Qed.

(** C14: any element type, [ltb] a strict weak order on a domain containing the data (doubles: no NaN). *)
Theorem C14_argmax_argmin : forall (T : Type) (D : T -> Prop) (ltb : T -> T -> bool),
  strict_weak_order_on D ltb ->
  forall a : list T, a <> [] -> Forall D a ->
  (exists i, argmax ltb a = Ok i /\ first_extremum (fun _ => True) (fun x y => ltb x y = true) a i) /\
  (exists i, argmin ltb a = Ok i /\ first_extremum (fun _ => True) (fun x y => ltb y x = true) a i).
Proof. exact argmax_argmin. Qed.
Print Assumptions C14_argmax_argmin.

Theorem C14_doubles_without_nan_qualify : strict_weak_order_on is_num flt.
Proof. exact flt_swo. Qed.
Print Assumptions C14_doubles_without_nan_qualify.

Example C14_nonvacuous : argmax flt [Fin (qz 1); Fin (qz 7); Fin (qz 2); Fin (qz 7)] = Ok 1 /\
  argmin flt [Fin (qz 1); NInf; Fin (qz 2); NInf] = Ok 1.
Proof. split; vm_compute; reflexivity. Qed.

(** C15: correct when the first element is not NaN; missing: leading NaNs (refuted below). *)
Theorem C15_nanarg_partial : forall (x : fl) (r : list fl), is_num x ->
  (exists i, nanargmax flt not_nan (x :: r) = Ok i /\
     first_extremum is_num (fun u v => flt u v = true) (x :: r) i) /\
  (exists i, nanargmin flt not_nan (x :: r) = Ok i /\
     first_extremum is_num (fun u v => flt v u = true) (x :: r) i).
Proof. exact nanarg_first_valid. Qed.
Print Assumptions C15_nanarg_partial.

(** exact behaviour with leading NaNs: right answer, or 0 when the first valid element is the extremum (and not last) *)
Theorem C15_nanarg_behaviour : forall (n : nat) (x : fl) (r : list fl), is_num x ->
  let a := repeat NaN n ++ x :: r in
  (exists i, nanargmax flt not_nan a = Ok i /\
     (first_extremum is_num (fun u v => flt u v = true) a i \/
      i = 0 /\ r <> [] /\ first_extremum is_num (fun u v => flt u v = true) a n)) /\
  (exists i, nanargmin flt not_nan a = Ok i /\
     (first_extremum is_num (fun u v => flt v u = true) a i \/
      i = 0 /\ r <> [] /\ first_extremum is_num (fun u v => flt v u = true) a n)).
Proof. exact nanarg_behaviour. Qed.
Print Assumptions C15_nanarg_behaviour.

Theorem C15_nanargmax_refuted :
  exists a i, (exists x, In x a /\ is_num x) /\ nanargmax flt not_nan a = Ok i /\ nth_error a i = Some NaN.
Proof. exact nanargmax_wrong. Qed.
Print Assumptions C15_nanargmax_refuted.

Theorem C15_all_nan_refuted : forall n, nanargmax flt not_nan (repeat NaN (S n)) = UB
                                        /\ nanargmin flt not_nan (repeat NaN (S n)) = UB.
Proof. exact nanarg_all_nan. Qed.
Print Assumptions C15_all_nan_refuted.

(** C16 *)
Theorem C16_argwhere : forall (T : Type) (a : list T) (p : T -> bool),
  StronglySorted lt (argwhere a p) /\
  (forall i, In i (argwhere a p) <-> exists x, nth_error a i = Some x /\ p x = true) /\
  map (nth_error a) (argwhere a p) = map Some (filter p a).
Proof. intros T a p. exact (conj (argwhere_sorted p a) (conj (argwhere_in p a) (argwhere_filter p a))). Qed.
Print Assumptions C16_argwhere.

Theorem C16_nonzero : forall (a : list fl) (i : nat),
  In i (nonzero feq f0 a) <-> exists x, nth_error a i = Some x /\ x <> f0.
Proof. exact nonzero_fl. Qed.
Print Assumptions C16_nonzero.

Example C16_nonvacuous : argwhere [0; 3; 0; 5] (fun x => negb (x =? 0)) = [1; 3].
Proof. reflexivity. Qed.
