(** Properties C01-C07 (scicpp/core/functional.hpp). Statements only; proofs are in FunctionalProofs.v / PairwiseError.v. *)
From Coq Require Import Reals Permutation.
From Flocq Require Import Core.
From Verif Require Import Base Functional FunctionalProofs PairwiseError FunctionalFacts.
Open Scope nat_scope.

(** C01: unary map, every container and value category: position by position (hence same length). *)
Theorem C01_map_unary : forall (A B : Type) (op : A -> B) (a : list A) (i : nat),
  nth_error (fst (map1_diff op a)) i = option_map op (nth_error a i).
Proof. exact map1_diff_nth. Qed.
Print Assumptions C01_map_unary.

Theorem C01_map_unary_same_type : forall (T : Type) (c : container) (vc : valcat) (op : T -> T) (a : list T) (i : nat),
  nth_error (fst (map1_same c vc op a)) i = option_map op (nth_error a i).
Proof. exact map1_same_nth. Qed.
Print Assumptions C01_map_unary_same_type.

(** C01: binary map: defined exactly for equal lengths, then element-wise; all overloads. *)
Theorem C01_map_binary : forall (A B C : Type) (op : A -> B -> C) (a : list A) (b : list B),
  (length a = length b ->
     exists r, map2 op a b = Ok r /\
       forall i, nth_error r i =
         match nth_error a i, nth_error b i with Some x, Some y => Some (op x y) | _, _ => None end) /\
  (length a <> length b -> map2 op a b = RequireFail).
Proof. exact map2_elementwise. Qed.
Print Assumptions C01_map_binary.

Theorem C01_map_binary_overloads : forall (A B C : Type),
  (forall (op : A -> B -> A) a b, map2_reuse1 op a b = map2 op a b) /\
  (forall (op : A -> B -> B) a b, map2_reuse2 op a b = map2 op a b) /\
  (forall same2 (op : A -> B -> B) a b, map2_both same2 op a b = map2 op a b).
Proof. exact map2_overloads_agree. Qed.
Print Assumptions C01_map_binary_overloads.

Example C01_nonvacuous : map2 Nat.add [1; 2; 3] [10; 20; 30] = Ok [11; 22; 33] /\ map2 Nat.add [1] [] = RequireFail.
Proof. split; reflexivity. Qed.

(** C02: the argument is untouched when it is a const lvalue or when the operation changes the element type... *)
Theorem C02_map_argument_unchanged_partial :
  (forall (T : Type) (c : container) (op : T -> T) (a : list T), snd (map1_same c ConstLvalue op a) = a) /\
  (forall (A B : Type) (op : A -> B) (a : list A), snd (map1_diff op a) = a).
Proof. exact map_argument_unchanged. Qed.
Print Assumptions C02_map_argument_unchanged_partial.

(** ... but a named non-const array is overwritten or emptied (missing from C02: the non-const lvalue case is false). *)
Theorem C02_map_nonconst_lvalue_refuted :
  exists (op : nat -> nat) (a : list nat),
    snd (map1_same Vector Lvalue op a) <> a /\ snd (map1_same Array Lvalue op a) <> a /\
    snd (map1_same Vector Lvalue op a) = [].
Proof. exact map_nonconst_lvalue_changed. Qed.
Print Assumptions C02_map_nonconst_lvalue_refuted.

(** Every non-empty vector is lost this way, whatever the operation. *)
Theorem C02_map_nonconst_vector_lost : forall (T : Type) (op : T -> T) (a : list T),
  a <> [] -> snd (map1_same Vector Lvalue op a) <> a.
Proof. exact map_nonconst_vector_lost. Qed.
Print Assumptions C02_map_nonconst_vector_lost.

(** C03 *)
Theorem C03_filter_exact : forall (T : Type) (p : T -> bool) (a : list T),
  (forall x, In x (filter_scicpp a p) <-> In x a /\ p x = true) /\
  (forall (dec : forall x y : T, {x = y} + {x <> y}) x,
      count_occ dec (filter_scicpp a p) x = if p x then count_occ dec a x else 0) /\
  (exists idx : list nat, Sorted.StronglySorted lt idx /\
      map (nth_error a) idx = map Some (filter_scicpp a p)).
Proof. exact filter_exact. Qed.
Print Assumptions C03_filter_exact.

Theorem C03_filter_idempotent : forall (T : Type) (p : T -> bool) (a : list T),
  filter_scicpp (filter_scicpp a p) p = filter_scicpp a p.
Proof. exact filter_scicpp_idem. Qed.
Print Assumptions C03_filter_idempotent.

Example C03_nonvacuous : filter_scicpp [1; 4; 2; 4; 3] (fun x => 2 <? x) = [4; 4; 3].
Proof. reflexivity. Qed.

(** C04 *)
Theorem C04_filter_reduce_fold : forall (T U : Type) (op : U -> T -> U) (p : T -> bool) (a : list T) (init : U),
  filter_reduce a op init p = (fold_left op (filter p a) init, length (filter p a)) /\
  reduce a op init = (fold_left op a init, length a).
Proof. exact filter_reduce_and_reduce. Qed.
Print Assumptions C04_filter_reduce_fold.

(** C05: any block size, any accumulation on blocks and any combination that is a homomorphism. *)
Theorem C05_pairwise_is_sequential : forall (T : Type) (op : T -> T -> T) (e : T) (p : T -> bool) (integral : bool),
  (forall x y z, op x (op y z) = op (op x y) z) -> (forall x, op e x = x) -> (forall x, op x e = x) ->
  forall a : list T,
    filter_reduce_associative integral a op p e = (fold_left op (filter p a) e, length (filter p a)).
Proof. exact pairwise_is_sequential. Qed.
Print Assumptions C05_pairwise_is_sequential.

Theorem C05_pairwise_code_equation : forall (T V : Type) (B : nat) (acc : list T -> V) (comb : V -> V -> V) (a : list T),
  1 <= B ->
  pairwise_accumulate B acc comb a =
  if length a <=? B then acc a
  else comb (pairwise_accumulate B acc comb (firstn (length a / 2) a))
            (pairwise_accumulate B acc comb (skipn (length a / 2) a)).
Proof. exact pairwise_code_equation. Qed.
Print Assumptions C05_pairwise_code_equation.

Example C05_nonvacuous :
  filter_reduce_associative false (seq 0 100) Nat.add (fun x => Nat.even x) 0 = (2450, 50)
  /\ (forall x y z, x + (y + z) = (x + y) + z) /\ (forall x, 0 + x = x) /\ (forall x, x + 0 = x).
Proof. repeat split; intros; lia. Qed.

(** C06: error of the pairwise sum; 2^L blocks of 64, i.e. L = ceil(log2(n/64)). *)
Theorem C06_pairwise_sum_error : forall (u : R) (fmt : R -> Prop) (radd : R -> R -> R),
  (0 <= u)%R -> fmt 0%R ->
  (forall x y, fmt x -> fmt y -> fmt (radd x y)) ->
  (forall x y, fmt x -> fmt y -> Rabs (radd x y - (x + y)) <= u * Rabs (x + y))%R ->
  forall (L : nat) (l : list R), (length l <= 64 * 2 ^ L)%nat -> Forall fmt l ->
  (Rabs (fst (filter_reduce_associative false l radd f_all 0) - fold_right Rplus 0 l)
   <= ((1 + u) ^ (64 + L) - 1) * fold_right (fun x s => Rabs x + s) 0 l)%R.
Proof. exact pairwise_sum_error_any. Qed.
Print Assumptions C06_pairwise_sum_error.

(** instance: IEEE binary64 addition rounded to nearest even (no overflow) *)
Theorem C06_pairwise_sum_error_binary64 : forall (L : nat) (l : list R),
  (length l <= 64 * 2 ^ L)%nat ->
  Forall (generic_format radix2 (FLT_exp (-1074) 53)) l ->
  (Rabs (fst (filter_reduce_associative false l
               (fun x y => round radix2 (FLT_exp (-1074) 53) ZnearestE (x + y)) f_all 0)
         - fold_right Rplus 0 l)
   <= ((1 + bpow radix2 (-53)) ^ (64 + L) - 1) * fold_right (fun x s => Rabs x + s) 0 l)%R.
Proof. exact pairwise_sum_error_b64. Qed.
Print Assumptions C06_pairwise_sum_error_binary64.

Example C06_nonvacuous : exists l : list R, (length l <= 64 * 2 ^ 1)%nat /\ length l = 100%nat /\
  Forall (generic_format radix2 (FLT_exp (-1074) 53)) l.
Proof. exists (repeat 0%R 100). split; [vm_compute; lia|]. split; [reflexivity|].
  apply Forall_forall. intros x Hx. apply repeat_spec in Hx as ->. apply generic_format_0. Qed.

(** C07: running folds (with a filter for the nan versions). *)
Theorem C07_cumulative : forall (T : Type) (op : T -> T -> T) (p : T -> bool) (a : list T),
  length (cumacc a op p) = length (filter p a) /\
  (forall x r k, filter p a = x :: r -> (k <= length r)%nat ->
     nth_error (cumacc a op p) k = Some (fold_left op (firstn k r) x)).
Proof. exact cumacc_running. Qed.
Print Assumptions C07_cumulative.

Theorem C07_cumulative_unfiltered : forall (T : Type) (op : T -> T -> T) (a : list T),
  length (partial_sum op a) = length a /\
  (forall x r k, a = x :: r -> (k <= length r)%nat ->
     nth_error (partial_sum op a) k = Some (fold_left op (firstn k r) x)).
Proof. exact partial_sum_running. Qed.
Print Assumptions C07_cumulative_unfiltered.

Example C07_nonvacuous : cumacc [1; 2; 0; 3] Nat.add (fun x => negb (x =? 0)) = [1; 3; 6].
Proof. reflexivity. Qed.
