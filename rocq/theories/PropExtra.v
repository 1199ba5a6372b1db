(** Further theorems for C03 (predefined predicates), C07 (the cumulative functions of scicpp/core/numeric.hpp), C25 (nanquantile), C34 (complex numbers, array_equal),
    C35 (lerp on arrays), C73 (ifft of real numbers), C89 (tuples). *)
From Coq Require Import ZArith Reals QArith Qcanon Permutation.
From Verif Require Import Base BaseQc Functional FunctionalFacts Numeric BaseFl FlFacts Equal EqualFacts Stats.
From Verif Require Import Base Functional FunctionalProofs Spec Numeric BaseFl FlFacts Equal EqualFacts RangeManips RangeFacts
  Stats StatsOrder StatsQuantile.
From Verif Require Import PropStats1.
Open Scope nat_scope.

(** ** C07: the functions a user calls *)
Definition running {T} (op : T -> T -> T) (l out : list T) : Prop :=
  length out = length l /\ forall x r k, l = x :: r -> k <= length r -> nth_error out k = Some (fold_left op (firstn k r) x).

Theorem C07_cumsum_cumprod : forall (T : Type) (add mul : T -> T -> T) (a : list T),
  running add a (cumsum add a) /\ running mul a (cumprod mul a).
Proof. intros. split; apply partial_sum_running. Qed.
Print Assumptions C07_cumsum_cumprod.

Theorem C07_nancum : forall (T : Type) (add mul : T -> T -> T) (notnan : T -> bool) (a : list T),
  running add (filter notnan a) (nancumsum add notnan a) /\ running mul (filter notnan a) (nancumprod mul notnan a).
Proof. intros. split; apply cumacc_running. Qed.
Print Assumptions C07_nancum.

(** every overload returns the same array; a const argument keeps its value, a non-const one does not: a std::array is overwritten
    with the result and a std::vector is moved from *)
Theorem C07_overloads : forall (T : Type) (op : T -> T -> T) (c : container) (vc : valcat) (a : list T),
  running op a (fst (cum_inplace op c vc a)) /\
  snd (cum_inplace op c vc a) = match vc, c with
                                | ConstLvalue, _ => a
                                | _, Array => fst (cum_inplace op c vc a)
                                | _, Vector => []
                                end.
Proof. intros T op c vc a. destruct vc, c; (split; [apply partial_sum_running|reflexivity]). Qed.
Print Assumptions C07_overloads.

(** a non-const argument does not keep its value *)
Theorem C07_argument_consumed : exists a : list nat, a <> [] /\ snd (cum_inplace Nat.add Vector Lvalue a) = [] /\ snd (cum_inplace Nat.add Array Lvalue a) <> a.
Proof. exists [1; 2]. repeat split; discriminate. Qed.
Print Assumptions C07_argument_consumed.

Example C07_numeric_nonvacuous : cumsum Nat.add [1; 2; 4] = [1; 3; 7] /\ cumprod Nat.mul [2; 3; 4] = [2; 6; 24] /\
  nancumprod Nat.mul (fun x => negb (x =? 0)) [2; 0; 3; 0; 4] = [2; 6; 24].
Proof. repeat split. Qed.

(** ** C34 *)
Theorem C34_almost_equal_complex : forall (k : nat) (a b : fl * fl),
  (almost_equal_cplx k a b = true <-> almost_equal k (fst a) (fst b) = true /\ almost_equal k (snd a) (snd b) = true) /\
  almost_equal_cplx k a a = true /\ almost_equal_cplx k a b = almost_equal_cplx k b a.
Proof.
  intros k [a1 a2] [b1 b2]. unfold almost_equal_cplx. cbn [fst snd].
  destruct (almost_equal_refl_sym k a1 b1) as [R1 S1], (almost_equal_refl_sym k a2 b2) as [R2 S2].
  split; [apply andb_true_iff|]. rewrite R1, R2, <- S1, <- S2. split; reflexivity.
Qed.
Print Assumptions C34_almost_equal_complex.

Lemma std_equal_iff (T : Type) (e : T -> T -> bool) : forall a b,
  std_equal e a b = true <-> length a = length b /\ forall i x y, nth_error a i = Some x -> nth_error b i = Some y -> e x y = true.
Proof.
  induction a as [|x a IH]; intros [|y b]; cbn [std_equal length]; split; try (intros H; discriminate H); try (intros [H _]; discriminate H).
  - intros _. split; [reflexivity|]. intros [|i] x y H; discriminate H.
  - reflexivity.
  - intros H. apply andb_true_iff in H. destruct H as [H1 H2]. apply IH in H2. destruct H2 as [L H2]. split; [now rewrite L|].
    intros [|i] u v; cbn [nth_error]; [intros [= <-] [= <-]; exact H1|apply H2].
  - intros [L H]. apply andb_true_iff. split; [apply (H 0); reflexivity|]. apply IH. split; [now injection L|]. intros i u v U V. exact (H (S i) u v U V).
Qed.
(** array_equal compares element by element with operator==: it holds exactly for arrays of the same length without NaN and with the same numbers *)
Theorem C34_array_equal : forall a b : list fl,
  (array_equal a b = true <-> length a = length b /\ forall i x y, nth_error a i = Some x -> nth_error b i = Some y -> feq x y = true) /\
  (array_equal a b = true <-> a = b /\ ~ In NaN a).
Proof.
  intros a b. split; [apply std_equal_iff|]. unfold array_equal. rewrite std_equal_iff.
  assert (E : forall x y, feq x y = true <-> x = y /\ x <> NaN).
  { intros x y. destruct x, y; cbn [feq]; split; try (intros H; discriminate H); try (intros [H H']; congruence); try (split; [reflexivity|discriminate]); try reflexivity.
    - intros H. split; [|discriminate]. f_equal. now apply qeqb_eq.
    - intros [H _]. apply qeqb_eq. congruence. }
  split.
  - intros [L H]. split.
    + revert b L H. induction a as [|x a IH]; intros [|y b] L H; try discriminate L; [reflexivity|]. f_equal; [apply E, (H 0); reflexivity|].
      apply IH; [now injection L|]. intros i u v U V. exact (H (S i) u v U V).
    + intros N. apply In_nth_error in N. destruct N as [i N]. assert (exists y, nth_error b i = Some y) as [y Y].
      { assert (i < length b) by (rewrite <- L; apply nth_error_Some; rewrite N; discriminate). destruct (nth_error b i) eqn:B; [eauto|]. apply nth_error_None in B. lia. }
      specialize (H i NaN y N Y). discriminate H.
  - intros [<- N]. split; [reflexivity|]. intros i x y X Y. rewrite X in Y. injection Y as <-. apply E. split; [reflexivity|]. intros ->. apply N. eapply nth_error_In, X.
Qed.
Print Assumptions C34_array_equal.
Example C34_extra_nonvacuous : array_equal [Fin (qz 1); PInf] [Fin (qz 1); PInf] = true /\ array_equal [NaN] [NaN] = false /\
  almost_equal_cplx 1 (Fin (qz 1), NaN) (Fin (Q2Qc (1 + (1 # (2 ^ 53)))), NaN) = true.
Proof. repeat split. Qed.

(** ** C35: on arrays lerp works element by element and requires equal sizes *)
Theorem C35_lerp_arrays : forall (T : Type) (zero one : T) (add sub mul : T -> T -> T) (leb ltb eqb : T -> T -> bool) (a b : list T) (t : T),
  (length a = length b -> exists r, lerp_array zero one add sub mul leb ltb eqb a b t = Ok r /\ length r = length a /\
     forall i x y, nth_error a i = Some x -> nth_error b i = Some y -> nth_error r i = Some (lerp zero one add sub mul leb ltb eqb x y t)) /\
  (length a <> length b -> lerp_array zero one add sub mul leb ltb eqb a b t = RequireFail).
Proof.
  intros. unfold lerp_array. destruct (map2_elementwise T T T (fun x y => lerp zero one add sub mul leb ltb eqb x y t) a b) as [H1 H2].
  split; [|exact H2]. intros L. destruct (H1 L) as [r [E H]]. exists r. split; [exact E|]. split.
  - rewrite map2_ok in E by exact L. injection E as <-. rewrite map_length, combine_length. lia.
  - intros i x y X Y. now rewrite H, X, Y.
Qed.
Print Assumptions C35_lerp_arrays.
Example C35_arrays_nonvacuous : exists r, lerp_array (qz 0) (qz 1) Qcplus Qcminus Qcmult qleb qltb qeqb [qz 0; qz 10] [qz 8; qz 2] (Q2Qc (1 # 4)) = Ok r /\
  map this r = [2%Q; 8%Q].
Proof. eexists. split; reflexivity. Qed.

(** ** C25: nanquantile is the quantile of the elements that are not NaN *)
Theorem C25_nanquantile_partial : forall f, nth_element_contract f -> forall a s, sorted_version (filter not_nan a) (map Fin s) -> s <> [] ->
  forall m q, (0 <= q)%Qc -> (q <= 1)%Qc ->
  (exists p, mode_position m (q * qn (length s - 1))%Qc p /\ (snap_free p -> nanquantile f m a q = Ok (Fin (interp_stat s p)))) /\
  (exists v, nanquantile f m a q = Ok (Fin v) /\ fle (amin NaN flt (filter not_nan a)) (Fin v) = true /\ fle (Fin v) (amax NaN flt (filter not_nan a)) = true).
Proof.
  intros f C a s S N m q Q0 Q1. unfold nanquantile. rewrite filter_scicpp_filter.
  split; [exact (C25_quantile_position_partial f C _ s S N m q Q0 Q1)|exact (C25_quantile_bounds f C _ s S N m q Q0 Q1)].
Qed.
Print Assumptions C25_nanquantile_partial.
(** it depends only on the collection of the elements that are not NaN, and without NaN it is quantile *)
Theorem C25_nanquantile_ignores_nan : forall f, nth_element_contract f -> forall (a b : list fl) (x : list Qc),
  Permutation (filter not_nan a) (map Fin x) -> Permutation (filter not_nan b) (map Fin x) ->
  forall m q, nanquantile f m a q = nanquantile f m b q /\ nanquantile f m a q = quantile f m (map Fin x) q.
Proof.
  intros f C a b x A B m q. unfold nanquantile. rewrite !filter_scicpp_filter.
  pose proof (C25_quantile_order_independent f f C C x _ (Permutation_sym A) m q) as E1.
  pose proof (C25_quantile_order_independent f f C C x _ (Permutation_sym B) m q) as E2. unfold quantile in *. split; congruence.
Qed.
Print Assumptions C25_nanquantile_ignores_nan.
Example C25_nan_nonvacuous : Permutation (filter not_nan [NaN; Fin (qz 3); NaN; Fin (qz 1)]) (map Fin [qz 3; qz 1]).
Proof. apply Permutation_refl. Qed.

(** ** C03 with the predefined predicates: filters::all keeps everything, filters::none nothing, and filters::Trim the elements of an interval
    whose ends are included or not as asked, for every element type with a total order [le] *)
Theorem C03_predefined : forall (T : Type) (le : T -> T -> Prop) (leb ltb : T -> T -> bool),
  (forall x y, leb x y = true <-> le x y) -> (forall x y, ltb x y = true <-> le x y /\ x <> y) ->
  forall (a : list T) (lo hi : T) (il ih : bool) (x : T),
  filter_scicpp a f_all = a /\ filter_scicpp a f_none = [] /\
  (In x (filter_scicpp a (f_trim leb ltb lo hi il ih)) <->
   In x a /\ le lo x /\ le x hi /\ (il = false -> x <> lo) /\ (ih = false -> x <> hi)).
Proof.
  intros T le leb ltb HL HT a lo hi il ih x. rewrite !filter_scicpp_filter. split; [|split].
  - induction a as [|y a IH]; [reflexivity|]. cbn. now rewrite IH.
  - induction a as [|y a IH]; [reflexivity|]. exact IH.
  - rewrite filter_In. unfold f_trim. rewrite andb_true_iff.
    assert (H1 : (if il then leb lo x else ltb lo x) = true <-> le lo x /\ (il = false -> x <> lo)).
    { destruct il; [rewrite HL; intuition congruence|rewrite HT; intuition congruence]. }
    assert (H2 : (if ih then leb x hi else ltb x hi) = true <-> le x hi /\ (ih = false -> x <> hi)).
    { destruct ih; [rewrite HL; intuition congruence|rewrite HT; intuition congruence]. }
    rewrite H1, H2. intuition.
Qed.
Print Assumptions C03_predefined.
Example C03_predefined_nonvacuous :
  filter_scicpp [0; 5; 3; 7; 1; 2] (f_trim Nat.leb Nat.ltb 1 5 false true) = [5; 3; 2] /\
  (forall x y, (x <=? y) = true <-> x <= y) /\ (forall x y, (x <? y) = true <-> x <= y /\ x <> y).
Proof. split; [reflexivity|]. split; intros x y; [apply Nat.leb_le|rewrite Nat.ltb_lt; lia]. Qed.
