(** Lemmas closing the statements of PropFunctional.v *)
From Coq Require Import Reals Permutation Sorted.
From Flocq Require Import Core.
From Verif Require Import Base Functional FunctionalProofs PairwiseError Numeric NumericProofs.
Open Scope nat_scope.

Lemma nth_error_map' {A B} (f : A -> B) l i : nth_error (map f l) i = option_map f (nth_error l i).
Proof. revert i; induction l as [|x l IH]; intros [|i]; simpl; auto. Qed.

Lemma map1_diff_nth : forall (A B : Type) (op : A -> B) (a : list A) (i : nat),
  nth_error (fst (map1_diff op a)) i = option_map op (nth_error a i).
Proof. intros. simpl. rewrite transform1_map. apply nth_error_map'. Qed.

Lemma map1_same_nth : forall (T : Type) (c : container) (vc : valcat) (op : T -> T) (a : list T) (i : nat),
  nth_error (fst (map1_same c vc op a)) i = option_map op (nth_error a i).
Proof. intros. destruct vc; simpl; rewrite transform1_map; apply nth_error_map'. Qed.

Lemma nth_error_combine {A B} (a : list A) : forall (b : list B) i,
  nth_error (combine a b) i = match nth_error a i, nth_error b i with Some x, Some y => Some (x, y) | _, _ => None end.
Proof.
  induction a as [|x a IH]; intros [|y b] [|i]; simpl; auto.
  destruct (nth_error a i); reflexivity.
Qed.

Lemma map2_elementwise : forall (A B C : Type) (op : A -> B -> C) (a : list A) (b : list B),
  (length a = length b ->
     exists r, map2 op a b = Ok r /\
       forall i, nth_error r i =
         match nth_error a i, nth_error b i with Some x, Some y => Some (op x y) | _, _ => None end) /\
  (length a <> length b -> map2 op a b = RequireFail).
Proof.
  intros. split; [|apply map2_fail]. intros H. eexists. split; [now apply map2_ok|].
  intros i. rewrite nth_error_map', nth_error_combine.
  destruct (nth_error a i), (nth_error b i); reflexivity.
Qed.

Lemma map2_overloads_agree : forall (A B C : Type),
  (forall (op : A -> B -> A) a b, map2_reuse1 op a b = map2 op a b) /\
  (forall (op : A -> B -> B) a b, map2_reuse2 op a b = map2 op a b) /\
  (forall same2 (op : A -> B -> B) a b, map2_both same2 op a b = map2 op a b).
Proof. repeat split; intros; try reflexivity. destruct same2; reflexivity. Qed.

Lemma map_argument_unchanged :
  (forall (T : Type) (c : container) (op : T -> T) (a : list T), snd (map1_same c ConstLvalue op a) = a) /\
  (forall (A B : Type) (op : A -> B) (a : list A), snd (map1_diff op a) = a).
Proof. split; reflexivity. Qed.

Lemma map_nonconst_lvalue_changed :
  exists (op : nat -> nat) (a : list nat),
    snd (map1_same Vector Lvalue op a) <> a /\ snd (map1_same Array Lvalue op a) <> a /\
    snd (map1_same Vector Lvalue op a) = [].
Proof. exists S, [1; 2; 3]. simpl. repeat split; discriminate. Qed.

Lemma map_nonconst_vector_lost : forall (T : Type) (op : T -> T) (a : list T),
  a <> [] -> snd (map1_same Vector Lvalue op a) <> a.
Proof. intros T op a H. simpl. congruence. Qed.

Lemma filter_exact : forall (T : Type) (p : T -> bool) (a : list T),
  (forall x, In x (filter_scicpp a p) <-> In x a /\ p x = true) /\
  (forall (dec : forall x y : T, {x = y} + {x <> y}) x,
      count_occ dec (filter_scicpp a p) x = if p x then count_occ dec a x else 0) /\
  (exists idx : list nat, StronglySorted lt idx /\
      map (nth_error a) idx = map Some (filter_scicpp a p)).
Proof.
  intros T p a. rewrite filter_scicpp_filter. split; [intros; apply filter_In|]. split.
  - intros dec x. induction a as [|y a IH]; simpl; [now destruct (p x)|].
    destruct (p y) eqn:Py; simpl; destruct (dec y x) as [->|Hne]; rewrite ?IH.
    + now rewrite Py.
    + destruct (p x); reflexivity.
    + now rewrite Py.
    + destruct (p x); reflexivity.
  - exists (argwhere a p). split; [apply argwhere_sorted|apply argwhere_filter].
Qed.

Lemma filter_scicpp_idem : forall (T : Type) (p : T -> bool) (a : list T),
  filter_scicpp (filter_scicpp a p) p = filter_scicpp a p.
Proof. intros. rewrite !filter_scicpp_filter. apply filter_idem. Qed.

Lemma filter_reduce_and_reduce : forall (T U : Type) (op : U -> T -> U) (p : T -> bool) (a : list T) (init : U),
  filter_reduce a op init p = (fold_left op (filter p a) init, length (filter p a)) /\
  reduce a op init = (fold_left op a init, length a).
Proof.
  intros. split; [apply filter_reduce_spec|]. unfold reduce. rewrite filter_reduce_spec, filter_all. reflexivity.
Qed.

Lemma pairwise_is_sequential : forall (T : Type) (op : T -> T -> T) (e : T) (p : T -> bool) (integral : bool),
  (forall x y z, op x (op y z) = op (op x y) z) -> (forall x, op e x = x) -> (forall x, op x e = x) ->
  forall a : list T,
    filter_reduce_associative integral a op p e = (fold_left op (filter p a) e, length (filter p a)).
Proof. intros. now apply filter_reduce_associative_spec. Qed.

Lemma pairwise_code_equation : forall (T V : Type) (B : nat) (acc : list T -> V) (comb : V -> V -> V) (a : list T),
  1 <= B ->
  pairwise_accumulate B acc comb a =
  if length a <=? B then acc a
  else comb (pairwise_accumulate B acc comb (firstn (length a / 2) a))
            (pairwise_accumulate B acc comb (skipn (length a / 2) a)).
Proof. intros. now apply pairwise_unfold. Qed.

Lemma pairwise_sum_error_any : forall (u : R) (fmt : R -> Prop) (radd : R -> R -> R),
  (0 <= u)%R -> fmt 0%R ->
  (forall x y, fmt x -> fmt y -> fmt (radd x y)) ->
  (forall x y, fmt x -> fmt y -> Rabs (radd x y - (x + y)) <= u * Rabs (x + y))%R ->
  forall (L : nat) (l : list R), (length l <= 64 * 2 ^ L)%nat -> Forall fmt l ->
  (Rabs (fst (filter_reduce_associative false l radd f_all 0) - fold_right Rplus 0 l)
   <= ((1 + u) ^ (64 + L) - 1) * fold_right (fun x s => Rabs x + s) 0 l)%R.
Proof. intros u fmt radd Hu H0 Hf He L l. now apply pairwise_sum_error_bound with (fmt := fmt). Qed.

Lemma cumacc_running : forall (T : Type) (op : T -> T -> T) (p : T -> bool) (a : list T),
  length (cumacc a op p) = length (filter p a) /\
  (forall x r k, filter p a = x :: r -> (k <= length r)%nat ->
     nth_error (cumacc a op p) k = Some (fold_left op (firstn k r) x)).
Proof.
  intros. unfold cumacc. rewrite filter_scicpp_filter. split; [apply partial_sum_length|].
  intros x r k -> Hk. apply partial_sum_nth. lia.
Qed.

Lemma partial_sum_running : forall (T : Type) (op : T -> T -> T) (a : list T),
  length (partial_sum op a) = length a /\
  (forall x r k, a = x :: r -> (k <= length r)%nat ->
     nth_error (partial_sum op a) k = Some (fold_left op (firstn k r) x)).
Proof. intros. split; [apply partial_sum_length|]. intros x r k -> Hk. apply partial_sum_nth. lia. Qed.
