(** Proofs about Functional.v *)
From Coq Require Import Permutation.
From Verif Require Import Base Functional.

Lemma transform1_map {A B} (op : A -> B) a : transform1 op a = map op a.
Proof. induction a as [|x r IH]; simpl; [reflexivity|now rewrite IH]. Qed.

Lemma transform2_ok {A B C} (op : A -> B -> C) a : forall b, length a = length b ->
  transform2 op a b = Ok (map (fun xy => op (fst xy) (snd xy)) (combine a b)).
Proof.
  induction a as [|x r IH]; intros [|y s] H; simpl in *; try discriminate; [reflexivity|].
  rewrite IH by lia. reflexivity.
Qed.

Lemma map2_ok {A B C} (op : A -> B -> C) a b : length a = length b ->
  map2 op a b = Ok (map (fun xy => op (fst xy) (snd xy)) (combine a b)).
Proof.
  intros H. unfold map2, map2_fresh, require. rewrite (proj2 (Nat.eqb_eq _ _) H).
  now apply transform2_ok.
Qed.

Lemma map2_fail {A B C} (op : A -> B -> C) a b : length a <> length b -> map2 op a b = RequireFail.
Proof.
  intros H. unfold map2, map2_fresh, require. now rewrite (proj2 (Nat.eqb_neq _ _) H).
Qed.

Lemma filter_scicpp_filter {T} (a : list T) p : filter_scicpp a p = filter p a.
Proof.
  unfold filter_scicpp. induction a as [|x r IH]; simpl; [reflexivity|].
  destruct (p x); simpl; now rewrite IH.
Qed.

Lemma filter_reduce_loop_spec {T U} (op : U -> T -> U) p a : forall init cnt,
  filter_reduce_loop op p a init cnt =
  (fold_left op (filter p a) init, cnt + length (filter p a)).
Proof.
  induction a as [|x r IH]; intros init cnt; simpl; [now rewrite Nat.add_0_r|].
  destruct (p x); rewrite IH; simpl; [f_equal; lia|reflexivity].
Qed.

Lemma filter_reduce_spec {T U} (op : U -> T -> U) p a init :
  filter_reduce a op init p = (fold_left op (filter p a) init, length (filter p a)).
Proof. unfold filter_reduce. rewrite filter_reduce_loop_spec. reflexivity. Qed.

Lemma filter_all {T} (a : list T) : filter f_all a = a.
Proof. induction a as [|x r IH]; simpl; [reflexivity|now rewrite IH]. Qed.

(** The code's recursion equation holds without any fuel proviso. *)
Lemma pairwise_fuel_enough {T V} B acc (comb : V -> V -> V) : 1 <= B -> forall f1 f2 (a : list T),
  length a <= f1 -> length a <= f2 ->
  pairwise_fuel f1 B acc comb a = pairwise_fuel f2 B acc comb a.
Proof.
  intros HB. induction f1 as [|f1 IH]; intros f2 a H1 H2.
  - destruct a; simpl in H1; [|lia]. destruct f2; simpl; reflexivity.
  - destruct f2 as [|f2].
    + destruct a; simpl in H2; [|lia]. simpl; reflexivity.
    + cbn [pairwise_fuel]. destruct (Nat.leb_spec (length a) B) as [Hle|Hgt]; [reflexivity|].
      assert (Hd : length a / 2 < length a) by (apply Nat.div_lt; lia).
      assert (Hd1 : 1 <= length a / 2) by (apply Nat.div_le_lower_bound; lia).
      f_equal; apply IH; rewrite ?firstn_length, ?skipn_length; lia.
Qed.

Lemma pairwise_unfold {T V} B acc (comb : V -> V -> V) (a : list T) : 1 <= B ->
  pairwise_accumulate B acc comb a =
  if length a <=? B then acc a
  else comb (pairwise_accumulate B acc comb (firstn (length a / 2) a))
            (pairwise_accumulate B acc comb (skipn (length a / 2) a)).
Proof.
  intros HB. unfold pairwise_accumulate at 1. destruct (length a) as [|n] eqn:Hn.
  - destruct a; [|discriminate]. simpl. reflexivity.
  - cbn [pairwise_fuel]. rewrite Hn. destruct (Nat.leb_spec (S n) B) as [Hle|Hgt]; [reflexivity|].
    assert (Hd : S n / 2 < S n) by (apply Nat.div_lt; lia).
    assert (Hd1 : 1 <= S n / 2) by (apply Nat.div_le_lower_bound; lia).
    unfold pairwise_accumulate. 
    f_equal; apply pairwise_fuel_enough; rewrite ?firstn_length, ?skipn_length; lia.
Qed.

(** Induction principle following the code's recursion. *)
Lemma pairwise_ind {T V} B acc (comb : V -> V -> V) (P : list T -> V -> Prop) : 1 <= B ->
  (forall a, length a <= B -> P a (acc a)) ->
  (forall a b x y, B < length a + length b -> length a <= length b <= S (length a) ->
      P a x -> P b y -> P (a ++ b) (comb x y)) ->
  forall a, P a (pairwise_accumulate B acc comb a).
Proof.
  intros HB Hacc Hcomb a.
  remember (length a) as n eqn:Hn. revert a Hn.
  induction n as [n IH] using lt_wf_ind. intros a Hn.
  rewrite pairwise_unfold by exact HB.
  destruct (Nat.leb_spec (length a) B) as [Hle|Hgt]; [now apply Hacc|].
  assert (Hd : length a / 2 < length a) by (apply Nat.div_lt; lia).
  assert (Hd1 : 1 <= length a / 2) by (apply Nat.div_le_lower_bound; lia).
  assert (Hm := Nat.div_mod (length a) 2 ltac:(lia)).
  assert (Hb := Nat.mod_upper_bound (length a) 2 ltac:(lia)).
  rewrite <- (firstn_skipn (length a / 2) a) at 1.
  apply Hcomb.
  - rewrite firstn_length, skipn_length. lia.
  - rewrite firstn_length, skipn_length. lia.
  - apply (IH (length (firstn (length a / 2) a))); [rewrite firstn_length; lia|reflexivity].
  - apply (IH (length (skipn (length a / 2) a))); [rewrite skipn_length; lia|reflexivity].
Qed.

Lemma fold_left_assoc {T} (op : T -> T -> T) id :
  (forall x y z, op x (op y z) = op (op x y) z) -> (forall x, op id x = x) -> (forall x, op x id = x) ->
  forall l x, fold_left op l x = op x (fold_left op l id).
Proof.
  intros Ha Hl Hr. induction l as [|y l IH]; intros x; simpl; [now rewrite Hr|].
  rewrite IH, (IH (op id y)), Hl, Ha. reflexivity.
Qed.

Lemma filter_reduce_associative_spec {T} integral (op : T -> T -> T) p id_elt :
  (forall x y z, op x (op y z) = op (op x y) z) ->
  (forall x, op id_elt x = x) -> (forall x, op x id_elt = x) ->
  forall a, filter_reduce_associative integral a op p id_elt =
            (fold_left op (filter p a) id_elt, length (filter p a)).
Proof.
  intros Ha Hl Hr a. unfold filter_reduce_associative.
  destruct integral; [apply filter_reduce_spec|].
  apply (pairwise_ind PW_BLOCKSIZE _ _ (fun b r => r = (fold_left op (filter p b) id_elt, length (filter p b)))).
  - unfold PW_BLOCKSIZE; lia.
  - intros b _. apply filter_reduce_spec.
  - intros b c x y _ _ -> ->. rewrite filter_app, fold_left_app, app_length. f_equal.
    symmetry. now apply fold_left_assoc.
Qed.

Lemma partial_sum_from_length {T} (op : T -> T -> T) a : forall x, length (partial_sum_from op x a) = length a.
Proof. induction a as [|y r IH]; intros x; simpl; [reflexivity|now rewrite IH]. Qed.

Lemma partial_sum_length {T} (op : T -> T -> T) a : length (partial_sum op a) = length a.
Proof. destruct a; simpl; [reflexivity|]. now rewrite partial_sum_from_length. Qed.

Lemma partial_sum_from_nth {T} (op : T -> T -> T) a : forall x k, k < length a ->
  nth_error (partial_sum_from op x a) k = Some (fold_left op (firstn (S k) a) x).
Proof.
  induction a as [|y r IH]; intros x k Hk; simpl in *; [lia|].
  destruct k as [|k]; simpl; [reflexivity|]. rewrite IH by lia. reflexivity.
Qed.

Lemma partial_sum_nth {T} (op : T -> T -> T) x a k : k < S (length a) ->
  nth_error (partial_sum op (x :: a)) k = Some (fold_left op (firstn k a) x).
Proof.
  intros Hk. simpl. destruct k as [|k]; simpl; [reflexivity|].
  rewrite partial_sum_from_nth by lia. reflexivity.
Qed.

Lemma filter_idem {T} (p : T -> bool) a : filter p (filter p a) = filter p a.
Proof.
  induction a as [|x r IH]; simpl; [reflexivity|]. destruct (p x) eqn:E; simpl; [|exact IH].
  now rewrite E, IH.
Qed.
