(** Proofs about Numeric.v *)
From Coq Require Import ZArith Ring Permutation Sorted.
From Verif Require Import Base Functional FunctionalProofs Spec Numeric.

Lemma fold_left_bigop {T} (op : T -> T -> T) e :
  (forall x y z, op x (op y z) = op (op x y) z) -> (forall x, op e x = x) -> (forall x, op x e = x) ->
  forall l, fold_left op l e = bigop op e l.
Proof.
  intros Ha Hl Hr. induction l as [|x l IH]; simpl; [reflexivity|].
  rewrite Hl, (fold_left_assoc op e Ha Hl Hr), IH. reflexivity.
Qed.

Lemma bigop_app {T} (op : T -> T -> T) e :
  (forall x y z, op x (op y z) = op (op x y) z) -> (forall x, op e x = x) ->
  forall a b, bigop op e (a ++ b) = op (bigop op e a) (bigop op e b).
Proof. intros Ha Hl a b. induction a as [|x a IH]; simpl; [now rewrite Hl|]. now rewrite IH, Ha. Qed.

Lemma bigop_perm {T} (op : T -> T -> T) e :
  (forall x y z, op x (op y z) = op (op x y) z) -> (forall x y, op x y = op y x) ->
  forall a b, Permutation a b -> bigop op e a = bigop op e b.
Proof.
  intros Ha Hc a b H. induction H as [|x a b H IH|x y a|a b c H1 IH1 H2 IH2]; simpl; [reflexivity|now rewrite IH| |congruence].
  rewrite Ha, (Hc y x), <- Ha. reflexivity.
Qed.

Lemma sum_filter_spec {T} zero add integral (p : T -> bool) :
  (forall x y z, add x (add y z) = add (add x y) z) -> (forall x, add zero x = x) -> (forall x, add x zero = x) ->
  forall a, sum_filter zero add integral a p = (bigop add zero (filter p a), length (filter p a)).
Proof.
  intros Ha Hl Hr a. unfold sum_filter. rewrite filter_reduce_associative_spec by assumption.
  now rewrite fold_left_bigop.
Qed.

Lemma sum_spec {T} (zero : T) add integral :
  (forall x y z, add x (add y z) = add (add x y) z) -> (forall x, add zero x = x) -> (forall x, add x zero = x) ->
  forall a, sum zero add integral a = bigop add zero a.
Proof. intros Ha Hl Hr a. unfold sum. rewrite sum_filter_spec by assumption. simpl. now rewrite filter_all. Qed.

(** *** trapz, diff, inner over a commutative ring *)
Section RingP.
Context {T : Type} {rO rI : T} {radd rmul rsub : T -> T -> T} {ropp : T -> T}.
Hypothesis Rth : ring_theory rO rI radd rmul rsub ropp eq.
Add Ring TR : Rth.
Notation "0" := rO. Notation "1" := rI.
Infix "+" := radd. Infix "*" := rmul. Infix "-" := rsub.
Notation bsum := (bigop radd 0).

Lemma radd_assoc x y z : x + (y + z) = (x + y) + z. Proof. ring. Qed.
Lemma radd_0_l x : 0 + x = x. Proof. ring. Qed.
Lemma radd_0_r x : x + 0 = x. Proof. ring. Qed.

Lemma ring_sum integral a : sum 0 radd integral a = bsum a.
Proof. apply sum_spec; intros; ring. Qed.

Lemma bsum_app a b : bsum (a ++ b) = bsum a + bsum b.
Proof. apply bigop_app; intros; ring. Qed.

Lemma bsum_map_add {A} (f g : A -> T) l : bsum (map (fun x => f x + g x) l) = bsum (map f l) + bsum (map g l).
Proof. induction l as [|x l IH]; simpl; [ring|]. rewrite IH. ring. Qed.
Lemma bsum_map_scale {A} c (f : A -> T) l : bsum (map (fun x => c * f x) l) = c * bsum (map f l).
Proof. induction l as [|x l IH]; simpl; [ring|]. rewrite IH. ring. Qed.

(** sums of neighbouring pairs *)
Fixpoint pairs (a : list T) : list (T * T) :=
  match a with x :: ((y :: _) as r) => (x, y) :: pairs r | _ => [] end.

Lemma firstn_removelast_mid (y : T) r : firstn (length (y :: r) - 1) (y :: r) = removelast (y :: r).
Proof. rewrite removelast_firstn_len. f_equal. lia. Qed.

Lemma trapz_pairs (y : T) r : forall x,
  x + (1 + 1) * bsum (removelast (y :: r)) + last (y :: r) 0 =
  bsum (map (fun p => fst p + snd p) (pairs (x :: y :: r))).
Proof.
  revert y. induction r as [|z r IH]; intros y x.
  - simpl. ring.
  - change (removelast (y :: z :: r)) with (y :: removelast (z :: r)).
    change (last (y :: z :: r) 0) with (last (z :: r) 0).
    change (pairs (x :: y :: z :: r)) with ((x, y) :: pairs (y :: z :: r)).
    cbn [map bigop fst snd]. rewrite <- (IH z y). ring.
Qed.

Lemma nth_error_last (y : T) r : nth_error (y :: r) (length r) = Some (last (y :: r) 0).
Proof.
  revert y; induction r as [|z r IH]; intros y; [reflexivity|].
  change (last (y :: z :: r) 0) with (last (z :: r) 0). rewrite <- IH. reflexivity.
Qed.

Lemma trapz_spec integral half f dx : (2 <= length f)%nat ->
  trapz 0 radd rmul integral half (1 + 1) f dx =
  Ok (half * dx * bsum (map (fun p => fst p + snd p) (pairs f))).
Proof.
  intros Hf. destruct f as [|x [|y r]]; simpl in Hf; try lia.
  unfold trapz, at_ub, sum_range.
  replace (length (x :: y :: r) =? 0)%nat with false by reflexivity.
  replace (length (x :: y :: r) - 1)%nat with (S (length r)) by (simpl; lia).
  replace (S (length r) <? 1)%nat with false by (symmetry; apply Nat.ltb_ge; lia).
  cbn [nth_error bind]. rewrite nth_error_last. cbn [bind].
  do 2 f_equal. rewrite ring_sum.
  replace (skipn 1 (x :: y :: r)) with (y :: r) by reflexivity.
  replace (S (length r) - 1)%nat with (length (y :: r) - 1)%nat by (simpl; lia).
  rewrite firstn_removelast_mid. apply trapz_pairs.
Qed.

(** *** diff *)
Fixpoint bsumf (f : nat -> T) (n : nat) : T :=
  match n with O => 0 | S m => bsumf f m + f m end.

Lemma adjacent_difference_from_length x a : length (adjacent_difference_from rsub x a) = length a.
Proof. revert x; induction a as [|y a IH]; intros x; simpl; [reflexivity|now rewrite IH]. Qed.

Lemma diff_once_tl a : a <> [] -> diff_once rsub a = Ok (tl (adjacent_difference rsub a)).
Proof. destruct a; [congruence|reflexivity]. Qed.

Lemma adj_from_nth x a : forall i y, nth_error a i = Some y ->
  nth_error (adjacent_difference_from rsub x a) i =
  Some (y - match i with O => x | S j => nth j a 0 end).
Proof.
  revert x; induction a as [|z a IH]; intros x i y H; [destruct i; discriminate|].
  destruct i as [|i]; simpl in *; [congruence|].
  rewrite (IH z i y H). destruct i; reflexivity.
Qed.

Lemma diff1_nth a i : (S i < length a)%nat ->
  nth i (tl (adjacent_difference rsub a)) 0 = nth (S i) a 0 - nth i a 0.
Proof.
  destruct a as [|x a]; simpl; [lia|]. intros H.
  assert (Hn : nth_error a i = Some (nth i a 0)) by (apply nth_error_nth'; lia).
  apply nth_error_nth. rewrite (adj_from_nth x a i _ Hn). do 2 f_equal.
Qed.

Lemma diff1_length a : length (tl (adjacent_difference rsub a)) = (length a - 1)%nat.
Proof. destruct a; simpl; [reflexivity|]. rewrite adjacent_difference_from_length. lia. Qed.

(** Δ^n by recursion on the sequence *)
Fixpoint delta (n : nat) (f : nat -> T) (i : nat) : T :=
  match n with O => f i | S m => delta m f (S i) - delta m f i end.

Lemma delta_shift n : forall f i, delta n (fun j => f (S j) - f j) i = delta n f (S i) - delta n f i.
Proof. induction n as [|n IH]; intros f i; simpl; [reflexivity|]. now rewrite !IH. Qed.

Lemma delta_ext n : forall f g i, (forall j, (i <= j <= i + n)%nat -> f j = g j) -> delta n f i = delta n g i.
Proof.
  induction n as [|n IH]; intros f g i H; simpl; [apply H; lia|].
  rewrite (IH f g (S i)), (IH f g i); [reflexivity| |]; intros j Hj; apply H; lia.
Qed.

Lemma diff_loop_spec n : forall a,
  exists r, diff_loop rsub n a = Ok r /\ length r = (length a - n)%nat /\
    forall i, (i + n < length a)%nat -> nth i r 0 = delta n (fun j => nth j a 0) i.
Proof.
  induction n as [|n IH]; intros a; simpl.
  - exists a. split; [reflexivity|]. split; [lia|reflexivity].
  - destruct a as [|x a]; simpl Nat.eqb.
    + cbv iota. exists []. split; [reflexivity|]. split; [reflexivity|]. simpl. intros; lia.
    + rewrite diff_once_tl by discriminate. cbn [bind].
      destruct (IH (tl (adjacent_difference rsub (x :: a)))) as [r [Hr [Hl Hn]]].
      exists r. split; [exact Hr|]. rewrite diff1_length in *. split; [rewrite Hl; lia|].
      intros i Hi. rewrite Hn by lia. rewrite <- delta_shift. apply delta_ext.
      intros j Hj. apply diff1_nth. simpl in *. lia.
Qed.

Lemma diff_neg a n : (n < 0)%Z -> diff rsub a n = RequireFail.
Proof. intros H. unfold diff, require. destruct (Z.leb_spec 0%Z n); [lia|reflexivity]. Qed.

Fixpoint binom (n k : nat) : nat :=
  match n, k with
  | _, O => 1
  | O, S _ => 0
  | S m, S j => (binom m j + binom m (S j))%nat
  end.
Definition sgn (n : nat) (x : T) : T := if Nat.even n then x else ropp x.

Lemma binom_0 n k : (n < k)%nat -> binom n k = 0%nat.
Proof. revert k; induction n as [|n IH]; intros [|k] H; simpl; try lia. rewrite !IH by lia. lia. Qed.

Lemma nmul_add n m (x : T) : nmul 0 radd (n + m) x = nmul 0 radd n x + nmul 0 radd m x.
Proof. induction n as [|n IH]; simpl; [ring|]. rewrite IH. ring. Qed.

Lemma sgn_S n x : sgn (S n) x = ropp (sgn n x).
Proof. unfold sgn. rewrite Nat.even_succ, <- Nat.negb_even. destruct (Nat.even n); simpl; ring. Qed.
Lemma sgn_add n x y : sgn n (x + y) = sgn n x + sgn n y.
Proof. unfold sgn. destruct (Nat.even n); ring. Qed.

Lemma bsumf_ext f g n : (forall k, (k < n)%nat -> f k = g k) -> bsumf f n = bsumf g n.
Proof. induction n as [|n IH]; intros H; simpl; [reflexivity|]. rewrite IH, (H n); auto. Qed.
Lemma bsumf_add f g n : bsumf (fun k => f k + g k) n = bsumf f n + bsumf g n.
Proof. induction n as [|n IH]; simpl; [ring|]. rewrite IH. ring. Qed.
Lemma bsumf_S_l f n : bsumf f (S n) = f O + bsumf (fun k => f (S k)) n.
Proof. induction n as [|n IH]; [simpl; ring|]. change (bsumf f (S (S n))) with (bsumf f (S n) + f (S n)). rewrite IH. simpl. ring. Qed.
Lemma bsumf_opp f n : bsumf (fun k => ropp (f k)) n = ropp (bsumf f n).
Proof. induction n as [|n IH]; simpl; [ring|]. rewrite IH. ring. Qed.

Lemma delta_binom n : forall f i,
  delta n f i = bsumf (fun k => sgn (n - k) (nmul 0 radd (binom n k) (f (i + k)%nat))) (S n).
Proof.
  induction n as [|n IH]; intros f i.
  - unfold sgn. simpl. rewrite Nat.add_0_r. ring.
  - cbn [delta]. rewrite !IH.
    rewrite (bsumf_S_l (fun k => sgn (S n - k) (nmul 0 radd (binom (S n) k) (f (i + k)%nat))) (S n)).
    rewrite (bsumf_ext (fun k => sgn (S n - S k) (nmul 0 radd (binom (S n) (S k)) (f (i + S k)%nat)))
      (fun k => sgn (n - k) (nmul 0 radd (binom n k) (f (S i + k)%nat))
              + sgn (n - k) (nmul 0 radd (binom n (S k)) (f (i + S k)%nat)))).
    2:{ intros k Hk. cbn [binom]. rewrite nmul_add, sgn_add. replace (i + S k)%nat with (S i + k)%nat by lia.
        replace (S n - S k)%nat with (n - k)%nat by lia. reflexivity. }
    rewrite bsumf_add.
    assert (E : bsumf (fun k => sgn (n - k) (nmul 0 radd (binom n k) (f (i + k)%nat))) (S n) =
      ropp (sgn (S n - 0) (nmul 0 radd (binom (S n) 0) (f (i + 0)%nat)))
      - bsumf (fun k => sgn (n - k) (nmul 0 radd (binom n (S k)) (f (i + S k)%nat))) (S n)).
    { rewrite bsumf_S_l at 1. replace (S n - 0)%nat with (S n) by lia. rewrite sgn_S.
      replace (n - 0)%nat with n by lia. replace (binom (S n) 0) with 1%nat by reflexivity.
      replace (binom n 0) with 1%nat by (destruct n; reflexivity).
      change (bsumf (fun k => sgn (n - k) (nmul 0 radd (binom n (S k)) (f (i + S k)%nat))) (S n))
        with (bsumf (fun k => sgn (n - k) (nmul 0 radd (binom n (S k)) (f (i + S k)%nat))) n
              + sgn (n - n) (nmul 0 radd (binom n (S n)) (f (i + S n)%nat))).
      rewrite (binom_0 n (S n)) by lia. rewrite Nat.sub_diag. unfold sgn at 5. simpl nmul.
      rewrite (bsumf_ext (fun k => sgn (n - k) (nmul 0 radd (binom n (S k)) (f (i + S k)%nat)))
        (fun k => ropp (sgn (n - S k) (nmul 0 radd (binom n (S k)) (f (i + S k)%nat)))) n).
      2:{ intros k Hk. replace (n - k)%nat with (S (n - S k)) by lia. apply sgn_S. }
      rewrite bsumf_opp. simpl Nat.even. cbv iota. ring. }
    rewrite E. ring.
Qed.

(** diff undoes cumsum *)
Lemma diff_cumsum_from a : forall x, adjacent_difference_from rsub x (partial_sum_from radd x a) = a.
Proof.
  induction a as [|y a IH]; intros x; simpl; [reflexivity|]. rewrite IH. f_equal. ring.
Qed.
Lemma diff_cumsum a : diff rsub (cumsum radd a) 1 = Ok (tl a).
Proof.
  destruct a as [|x a]; [reflexivity|].
  unfold diff, require, cumsum. simpl. now rewrite diff_cumsum_from.
Qed.

Lemma diff_once_array_eq a : diff_once_array rsub a = tl (adjacent_difference rsub a).
Proof. destruct a as [|x [|y r]]; reflexivity. Qed.

Lemma diff_array_eq n : forall a, diff_loop rsub n a = Ok (diff_array rsub n a).
Proof.
  induction n as [|n IH]; intros a; [reflexivity|].
  cbn [diff_loop diff_array]. rewrite diff_once_array_eq. destruct a as [|x a].
  - simpl. assert (H : forall k, diff_array rsub k [] = []) by (induction k; simpl; auto). now rewrite H.
  - simpl Nat.eqb. cbv iota. rewrite diff_once_tl by discriminate. cbn [bind]. apply IH.
Qed.

(** *** inner *)
Lemma fold_inner {A B} (op : A -> B -> T) l : forall s,
  fold_left (fun res xy => res + op (fst xy) (snd xy)) l s =
  s + bsum (map (fun xy => op (fst xy) (snd xy)) l).
Proof. induction l as [|x l IH]; intros s; simpl; [ring|]. rewrite IH. ring. Qed.

Lemma inner_op_spec {A B} (op : A -> B -> T) a b : length a = length b ->
  inner_op 0 radd op a b = Ok (bsum (map (fun xy => op (fst xy) (snd xy)) (combine a b))).
Proof.
  intros H. unfold inner_op, pairwise_accumulate2, require. rewrite H, Nat.eqb_refl. f_equal.
  apply (pairwise_ind PW_BLOCKSIZE _ _ (fun l v => v = bsum (map (fun xy => op (fst xy) (snd xy)) l))).
  - unfold PW_BLOCKSIZE; lia.
  - intros l _. rewrite fold_inner. ring.
  - intros l m x y _ _ -> ->. rewrite map_app, bsum_app. reflexivity.
Qed.

Lemma inner_op_fail {A B} (op : A -> B -> T) a b : length a <> length b ->
  inner_op 0 radd op a b = RequireFail.
Proof.
  intros H. unfold inner_op, pairwise_accumulate2, require. now rewrite (proj2 (Nat.eqb_neq _ _) H).
Qed.
End RingP.

(** *** comparisons *)
Section Cmp.
Context {T : Type}.
Variables (eqb ltb : T -> T -> bool).
Lemma logical_not_map f (a : list T) : logical_not (map f a) = map (fun v => negb (f v)) a.
Proof. unfold logical_not. rewrite transform1_map, map_map. reflexivity. Qed.
Lemma arr_lt_s_map a s : arr_lt_s ltb a s = map (fun v => ltb v s) a.
Proof. apply transform1_map. Qed.
Lemma s_lt_arr_map a s : s_lt_arr ltb s a = map (fun v => ltb s v) a.
Proof. apply transform1_map. Qed.
Lemma arr_gt_s_map a s : arr_gt_s ltb a s = map (fun v => ltb s v) a.
Proof.
  unfold arr_gt_s, arr_le_s. rewrite s_lt_arr_map, !logical_not_map.
  apply map_ext. intros v. apply negb_involutive.
Qed.
Lemma s_gt_arr_map a s : s_gt_arr ltb s a = map (fun v => ltb v s) a.
Proof.
  unfold s_gt_arr, s_le_arr. rewrite arr_lt_s_map, !logical_not_map.
  apply map_ext. intros v. apply negb_involutive.
Qed.
Lemma arr_le_s_map a s : arr_le_s ltb a s = map (fun v => negb (ltb s v)) a.
Proof. unfold arr_le_s. now rewrite s_lt_arr_map, logical_not_map. Qed.
Lemma s_le_arr_map a s : s_le_arr ltb s a = map (fun v => negb (ltb v s)) a.
Proof. unfold s_le_arr. now rewrite arr_lt_s_map, logical_not_map. Qed.
Lemma arr_ge_s_map a s : arr_ge_s ltb a s = map (fun v => negb (ltb v s)) a.
Proof. unfold arr_ge_s. now rewrite arr_lt_s_map, logical_not_map. Qed.
Lemma s_ge_arr_map a s : s_ge_arr ltb s a = map (fun v => negb (ltb s v)) a.
Proof. unfold s_ge_arr. now rewrite s_lt_arr_map, logical_not_map. Qed.
Lemma arr_eq_s_map a s : arr_eq_s eqb a s = map (fun v => eqb v s) a.
Proof. apply transform1_map. Qed.
Lemma arr_ne_s_map a s : arr_ne_s eqb a s = map (fun v => negb (eqb v s)) a.
Proof. unfold arr_ne_s. now rewrite arr_eq_s_map, logical_not_map. Qed.
Lemma logical_not_map' {A} f (a : list A) : logical_not (map f a) = map (fun v => negb (f v)) a.
Proof. unfold logical_not. rewrite transform1_map, map_map. reflexivity. Qed.
Lemma combine_swap {A B C} (f : A -> B -> C) (a : list A) : forall (b : list B),
  map (fun xy => f (snd xy) (fst xy)) (combine b a) = map (fun xy => f (fst xy) (snd xy)) (combine a b).
Proof. induction a as [|x a IH]; intros [|y b]; simpl; try reflexivity. now rewrite IH. Qed.
End Cmp.

(** *** mask *)
Section MaskP.
Context {T : Type}.
Definition selected (a : list T) (m : list bool) : list T := map fst (filter snd (combine a m)).

Lemma selected_app a1 a2 m1 m2 : length a1 = length m1 ->
  selected (a1 ++ a2) (m1 ++ m2) = selected a1 m1 ++ selected a2 m2.
Proof.
  revert m1; induction a1 as [|x a1 IH]; intros [|b m1] H; simpl in *; try discriminate; [reflexivity|].
  unfold selected in *. simpl. destruct b; simpl; rewrite IH by lia; reflexivity.
Qed.

Lemma nth_error_mid {A} (a b : list A) x : nth_error (a ++ x :: b) (length a) = Some x.
Proof. rewrite nth_error_app2 by lia. now rewrite Nat.sub_diag. Qed.

Lemma mask_copy_loop_spec a2 : forall m2 a1 m1 res, length a1 = length m1 -> length a2 = length m2 ->
  mask_copy_loop (a1 ++ a2) (m1 ++ m2) (length a1) (length a2) res = Ok (res ++ selected a2 m2).
Proof.
  induction a2 as [|x a2 IH]; intros [|b m2] a1 m1 res H1 H2; simpl in *; try discriminate.
  - now rewrite app_nil_r.
  - unfold at_ub. rewrite H1 at 1. rewrite nth_error_mid. cbn [bind]. 
    replace (a1 ++ x :: a2) with ((a1 ++ [x]) ++ a2) by now rewrite <- app_assoc.
    replace (m1 ++ b :: m2) with ((m1 ++ [b]) ++ m2) by now rewrite <- app_assoc.
    assert (Hlen : length (a1 ++ [x]) = S (length a1)) by (rewrite app_length; simpl; lia).
    assert (Hlen' : length (m1 ++ [b]) = length (a1 ++ [x])) by (rewrite !app_length; simpl; lia).
    unfold selected. destruct b; simpl.
    + rewrite <- app_assoc. simpl. rewrite nth_error_mid. cbn [bind].
      replace (a1 ++ x :: a2) with ((a1 ++ [x]) ++ a2) by now rewrite <- app_assoc.
      rewrite <- Hlen, IH by lia. rewrite <- app_assoc. reflexivity.
    + rewrite <- Hlen, IH by lia. reflexivity.
Qed.

Lemma mask_copy_spec a m : length a = length m -> mask_copy a m = Ok (selected a m).
Proof.
  intros H. unfold mask_copy, require. rewrite H, Nat.eqb_refl, <- H.
  apply (mask_copy_loop_spec a m [] [] []); auto.
Qed.

Lemma upd_app_mid (a b : list T) x y : upd (a ++ y :: b) (length a) x = a ++ x :: b.
Proof. induction a as [|z a IH]; simpl; [reflexivity|now rewrite IH]. Qed.

Lemma upd_length (a : list T) i x : length (upd a i x) = length a.
Proof. revert i; induction a as [|y a IH]; intros [|i]; simpl; auto. Qed.

(** Invariant: the first [idx] slots hold the selected elements, the slots from [i] on are untouched. *)
Lemma mask_move_loop_spec a2 : forall m2 sel junk m1,
  length (sel ++ junk) = length m1 -> length a2 = length m2 ->
  mask_move_loop (sel ++ junk ++ a2) (m1 ++ m2) (length m1) (length a2) (length sel) = Ok (sel ++ selected a2 m2).
Proof.
  induction a2 as [|x a2 IH]; intros [|b m2] sel junk m1 H1 H2; simpl in *; try discriminate.
  - rewrite app_nil_r, firstn_app, Nat.sub_diag, firstn_all. simpl. reflexivity.
  - unfold at_ub. rewrite nth_error_mid. cbn [bind].
    replace (m1 ++ b :: m2) with ((m1 ++ [b]) ++ m2) by now rewrite <- app_assoc.
    assert (HS : S (length m1) = length (m1 ++ [b])) by (rewrite app_length; simpl; lia).
    rewrite HS. unfold selected. destruct b; cbn [combine filter snd map fst].
    + rewrite app_assoc, <- H1, nth_error_mid. cbn [bind].
      unfold set_ub. rewrite <- app_assoc.
      destruct junk as [|z junk].
      * simpl app. assert (Hlt : length sel <? length (sel ++ x :: a2) = true).
        { apply Nat.ltb_lt. rewrite app_length. simpl. lia. }
        rewrite Hlt. cbn [bind]. rewrite upd_app_mid.
        replace (sel ++ x :: a2) with ((sel ++ [x]) ++ [] ++ a2) by (now rewrite <- app_assoc).
        replace (S (length sel)) with (length (sel ++ [x])) by (rewrite app_length; simpl; lia).
        rewrite (IH m2 (sel ++ [x]) [] (m1 ++ [true])); [|rewrite app_nil_r in *; rewrite !app_length; simpl in *; lia|lia].
        now rewrite <- app_assoc.
      * assert (Hlt : length sel <? length (sel ++ (z :: junk) ++ x :: a2) = true).
        { apply Nat.ltb_lt. rewrite !app_length. simpl. lia. }
        rewrite Hlt. cbn [bind]. simpl app. rewrite upd_app_mid.
        replace (sel ++ x :: junk ++ x :: a2) with ((sel ++ [x]) ++ (junk ++ [x]) ++ a2)
          by (now rewrite <- !app_assoc).
        replace (S (length sel)) with (length (sel ++ [x])) by (rewrite app_length; simpl; lia).
        rewrite (IH m2 (sel ++ [x]) (junk ++ [x]) (m1 ++ [true])).
        -- now rewrite <- app_assoc.
        -- rewrite !app_length in *. simpl in *. lia.
        -- lia.
    + replace (sel ++ junk ++ x :: a2) with (sel ++ (junk ++ [x]) ++ a2) by (now rewrite <- app_assoc).
      rewrite (IH m2 sel (junk ++ [x]) (m1 ++ [false])); [reflexivity| |lia].
      rewrite !app_length in *. simpl in *. lia.
Qed.

Lemma mask_move_spec a m : length a = length m -> mask_move a m = Ok (selected a m).
Proof.
  intros H. unfold mask_move, require. rewrite H, Nat.eqb_refl, <- H.
  apply (mask_move_loop_spec a m [] [] []); auto.
Qed.

Lemma selected_pred p a : selected a (map p a) = filter p a.
Proof.
  unfold selected. induction a as [|x a IH]; simpl; [reflexivity|]. destruct (p x); simpl; now rewrite IH.
Qed.
End MaskP.

(** *** argcmp *)
Section ArgP.
Context {T : Type}.
Variable cmp : T -> T -> bool.   (* cmp u v: u strictly beats v *)
Variable D : T -> Prop.
Hypothesis W : strict_weak_order_on D cmp.
Variable p : T -> bool.

(** The loop keeps the index/value of the first best valid element seen. *)
Lemma argcmp_loop_spec r : forall pre mx idx,
  (forall x, In x (pre ++ r) -> p x = true -> D x) -> D mx ->
  (forall x, In x pre -> p x = true -> cmp x mx = false) ->
  let idx' := argcmp_loop p cmp r (length pre) mx idx in
  (idx' = idx /\ (forall x, In x (pre ++ r) -> p x = true -> cmp x mx = false)) \/
  (exists m, idx' >= length pre /\ nth_error (pre ++ r) idx' = Some m /\ p m = true /\ cmp m mx = true /\
     (forall x, In x (pre ++ r) -> p x = true -> cmp x m = false) /\
     (forall j x, length pre <= j < idx' -> nth_error (pre ++ r) j = Some x -> p x = true -> cmp m x = true)).
Proof.
  induction r as [|x r IH]; intros pre mx idx HD Dmx Hpre; simpl.
  - left. split; [reflexivity|]. now rewrite app_nil_r.
  - assert (Heq : pre ++ x :: r = (pre ++ [x]) ++ r) by now rewrite <- app_assoc.
    assert (HS : S (length pre) = length (pre ++ [x])) by (rewrite app_length; simpl; lia).
    assert (HD' : forall y, In y ((pre ++ [x]) ++ r) -> p y = true -> D y) by (rewrite <- Heq; exact HD).
    assert (HDp : forall y, In y pre -> p y = true -> D y)
      by (intros y Hy; apply HD; apply in_or_app; now left).
    destruct (p x) eqn:Px; simpl.
    + assert (Dx : D x) by (apply HD; [apply in_or_app; right; now left|exact Px]).
      destruct (cmp x mx) eqn:Cx.
      * rewrite HS. destruct (IH (pre ++ [x]) x (length pre)) as [[Hi Hall]|(m & Hge & Hn & Pm & Cm & Hall & Hlt)]; auto.
        { intros y Hy Py. apply in_app_or in Hy as [Hy|[->|[]]]; [|now apply W].
          specialize (Hpre y Hy Py). destruct (cmp y x) eqn:E; [|reflexivity].
          assert (cmp y mx = true) by (apply (swo_trans W y x mx); auto). congruence. }
        -- right. exists x. rewrite Hi, Heq. repeat split; auto.
           ++ rewrite <- Heq. apply nth_error_mid.
           ++ intros j y Hj. lia.
        -- assert (Dm : D m) by (apply HD'; [eapply nth_error_In; eauto|exact Pm]).
           right. exists m. rewrite Heq. split; [lia|]. split; [exact Hn|]. split; [exact Pm|].
           split; [apply (swo_trans W m x mx); auto|]. split; [exact Hall|].
           intros j y Hj Hy Py. destruct (Nat.eq_dec j (length pre)) as [->|Hne].
           ++ rewrite <- Heq, nth_error_mid in Hy. injection Hy as <-. exact Cm.
           ++ apply (Hlt j y); auto. lia.
      * rewrite HS. destruct (IH (pre ++ [x]) mx idx) as [[Hi Hall]|(m & Hge & Hn & Pm & Cm & Hall & Hlt)]; auto.
        { intros y Hy Py. apply in_app_or in Hy as [Hy|[->|[]]]; auto. }
        -- left. rewrite Heq. split; auto.
        -- assert (Dm : D m) by (apply HD'; [eapply nth_error_In; eauto|exact Pm]).
           right. exists m. rewrite Heq. split; [lia|]. split; [exact Hn|]. split; [exact Pm|]. split; [exact Cm|].
           split; [exact Hall|].
           intros j y Hj Hy Py. destruct (Nat.eq_dec j (length pre)) as [->|Hne].
           ++ rewrite <- Heq, nth_error_mid in Hy. injection Hy as <-.
              destruct (cmp m x) eqn:E; [reflexivity|].
              assert (cmp m mx = false) by (apply (swo_negtrans W m x mx); auto). congruence.
           ++ apply (Hlt j y); auto. lia.
    + rewrite HS. destruct (IH (pre ++ [x]) mx idx) as [[Hi Hall]|(m & Hge & Hn & Pm & Cm & Hall & Hlt)]; auto.
      { intros y Hy Py. apply in_app_or in Hy as [Hy|[->|[]]]; auto. congruence. }
      * left. rewrite Heq. split; auto.
      * right. exists m. rewrite Heq. split; [lia|]. split; [exact Hn|]. split; [exact Pm|]. split; [exact Cm|].
        split; [exact Hall|].
        intros j y Hj Hy Py. destruct (Nat.eq_dec j (length pre)) as [->|Hne].
        -- rewrite <- Heq, nth_error_mid in Hy. injection Hy as <-. congruence.
        -- apply (Hlt j y); auto. lia.
Qed.

Lemma skip_invalid_spec a : forall pos,
  (forall x, In x a -> p x = false) /\ skip_invalid p a pos = UB \/
  exists pre x r, a = pre ++ x :: r /\ (forall y, In y pre -> p y = false) /\ p x = true /\
     skip_invalid p a pos = Ok (pos + length pre, x, r).
Proof.
  induction a as [|x a IH]; intros pos; simpl.
  - left. split; [intros y []|reflexivity].
  - destruct (p x) eqn:Px.
    + right. exists [], x, a. repeat split; auto. { intros y []. } simpl. now rewrite Nat.add_0_r.
    + destruct (IH (S pos)) as [[Hall Hu]|(pre & y & r & -> & Hpre & Py & Hs)].
      * left. split; [|exact Hu]. intros y [->|Hy]; auto.
      * right. exists (x :: pre), y, r. repeat split; auto.
        { intros z [->|Hz]; auto. }
        rewrite Hs. simpl. do 2 f_equal. f_equal. lia.
Qed.

(** the order used by [first_extremum]: lt x y  <->  y beats x *)
Let lt x y := cmp y x = true.
Let valid x := p x = true.

(** Exact behaviour of the code: correct unless the first valid element, at a non-zero position which is not the last,
    is itself the extremum; then 0 is returned. *)
Lemma argcmp_behaviour pre x r : (forall y, In y (pre ++ x :: r) -> p y = true -> D y) ->
  (forall y, In y pre -> p y = false) -> p x = true ->
  exists i, argcmp (pre ++ x :: r) p cmp = Ok i /\
    (first_extremum valid lt (pre ++ x :: r) i \/
     (i = 0 /\ r <> [] /\ first_extremum valid lt (pre ++ x :: r) (length pre))).
Proof.
  intros HD Hpre Px. unfold argcmp, require.
  assert (Dx : D x) by (apply HD; [apply in_or_app; right; now left|exact Px]).
  replace (0 <? length (pre ++ x :: r)) with true
    by (symmetry; apply Nat.ltb_lt; rewrite app_length; simpl; lia).
  destruct (skip_invalid_spec (pre ++ x :: r) 0) as [[Hall _]|(pre' & x' & r' & Heq & Hpre' & Px' & Hs)].
  { specialize (Hall x). rewrite Hall in Px; [discriminate|]. apply in_or_app. right. now left. }
  assert (pre = pre' /\ x = x' /\ r = r') as (<- & <- & <-).
  { clear Hs HD. revert pre' Heq Hpre'. induction pre as [|y pre IH]; intros [|z pre'] Heq Hpre'; simpl in Heq.
    - injection Heq as -> ->. auto.
    - injection Heq as -> _. rewrite Hpre' in Px; [discriminate|now left].
    - injection Heq as -> _. rewrite (Hpre x') in Px'; [discriminate|now left].
    - injection Heq as -> Heq. destruct (IH (fun w Hw => Hpre w (or_intror Hw)) pre' Heq (fun w Hw => Hpre' w (or_intror Hw)))
        as (-> & -> & ->). auto. }
  rewrite Hs. cbn [bind]. rewrite Nat.add_0_l.
  assert (HF : forall i m, nth_error (pre ++ x :: r) i = Some m -> p m = true -> i >= length pre ->
     (forall y, In y (pre ++ x :: r) -> p y = true -> cmp y m = false) ->
     (forall j y, length pre <= j < i -> nth_error (pre ++ x :: r) j = Some y -> p y = true -> cmp m y = true) ->
     first_extremum valid lt (pre ++ x :: r) i).
  { intros i m Hn Pm Hge Hall Hlt. exists m. split; [exact Hn|]. split; [exact Pm|]. split.
    - intros j y Hj Vy. unfold lt, valid in *. rewrite Hall; [discriminate| |exact Vy]. eapply nth_error_In; eauto.
    - intros j y Hj Hy Vy. unfold lt, valid in *. destruct (Nat.lt_ge_cases j (length pre)) as [Hl|Hl].
      + rewrite nth_error_app1 in Hy by exact Hl. apply nth_error_In in Hy. rewrite Hpre in Vy; [discriminate|exact Hy].
      + apply (Hlt j); auto. }
  destruct (Nat.eqb_spec (length r) 0) as [Hr|Hr].
  - destruct r; [|discriminate]. exists (length pre). split; [reflexivity|]. left.
    apply (HF (length pre) x); auto using nth_error_mid.
    + intros y Hy Py. apply in_app_or in Hy as [Hy|[->|[]]]; [|now apply W]. rewrite Hpre in Py; [discriminate|exact Hy].
    + intros j y Hj. lia.
  - eexists. split; [reflexivity|].
    assert (HS : S (length pre) = length (pre ++ [x])) by (rewrite app_length; simpl; lia).
    assert (Heq2 : pre ++ x :: r = (pre ++ [x]) ++ r) by now rewrite <- app_assoc.
    rewrite HS.
    destruct (argcmp_loop_spec r (pre ++ [x]) x 0) as [[Hi Hall]|(m & Hge & Hn & Pm & Cm & Hall & Hlt)]; auto.
    { rewrite <- Heq2. exact HD. }
    { intros y Hy Py. apply in_app_or in Hy as [Hy|[->|[]]]; [|now apply W]. rewrite Hpre in Py; [discriminate|exact Hy]. }
    + right. rewrite Hi. split; [reflexivity|]. split; [intros ->; apply Hr; reflexivity|].
      apply (HF (length pre) x); auto using nth_error_mid.
      * rewrite Heq2. exact Hall.
      * intros j y Hj. lia.
    + left. apply (HF _ m); auto.
      * rewrite Heq2. exact Hn.
      * unfold ge in *. eapply Nat.le_trans; [|exact Hge]. lia.
      * rewrite Heq2. exact Hall.
      * intros j y Hj Hy Py. destruct (Nat.eq_dec j (length pre)) as [->|Hne].
        -- rewrite nth_error_mid in Hy. injection Hy as <-. exact Cm.
        -- rewrite Heq2 in Hy. apply (Hlt j y); auto. split; [lia|apply Hj].
Qed.

Lemma argcmp_hd_valid x r : (forall y, In y (x :: r) -> p y = true -> D y) -> p x = true ->
  exists i, argcmp (x :: r) p cmp = Ok i /\ first_extremum valid lt (x :: r) i.
Proof.
  intros HD Px. destruct (argcmp_behaviour [] x r) as [i [Hi [HF|[-> [_ HF]]]]]; auto.
  - intros y [].
  - exists i. auto.
  - exists 0. auto.
Qed.

Lemma argcmp_none a : a <> [] -> (forall x, In x a -> p x = false) -> argcmp a p cmp = UB.
Proof.
  intros Hne Hall. unfold argcmp, require. destruct a as [|y a]; [congruence|]. simpl Nat.ltb. cbv iota.
  destruct (skip_invalid_spec (y :: a) 0) as [[_ Hu]|(pre & x & r & Heq & _ & Px & _)].
  - change (0 <? S (length a)) with true. cbv iota. rewrite Hu. reflexivity.
  - rewrite (Hall x) in Px; [discriminate|]. rewrite Heq. apply in_or_app. right. now left.
Qed.
End ArgP.

Section ArgWhereP.
Context {T : Type} (p : T -> bool).
Lemma argwhere_loop_spec r : forall pre res,
  argwhere_loop p r (length pre) res =
  res ++ filter (fun i => match nth_error (pre ++ r) i with Some x => p x | None => false end)
           (seq (length pre) (length r)).
Proof.
  induction r as [|x r IH]; intros pre res; simpl; [now rewrite app_nil_r|].
  rewrite nth_error_mid.
  replace (S (length pre)) with (length (pre ++ [x])) by (rewrite app_length; simpl; lia).
  replace (pre ++ x :: r) with ((pre ++ [x]) ++ r) by (now rewrite <- app_assoc).
  rewrite IH. destruct (p x); simpl; [|reflexivity]. now rewrite <- app_assoc.
Qed.
Lemma argwhere_spec a : argwhere a p =
  filter (fun i => match nth_error a i with Some x => p x | None => false end) (seq 0 (length a)).
Proof. apply (argwhere_loop_spec a [] []). Qed.

Lemma argwhere_in a i : In i (argwhere a p) <-> exists x, nth_error a i = Some x /\ p x = true.
Proof.
  rewrite argwhere_spec, filter_In, in_seq. split.
  - intros [_ H]. destruct (nth_error a i) as [x|]; [eauto|discriminate].
  - intros [x [Hx Px]]. rewrite Hx. split; [|exact Px].
    assert (i < length a) by (apply nth_error_Some; congruence). lia.
Qed.
Lemma seq_sorted n : forall s, StronglySorted lt (seq s n).
Proof.
  induction n as [|n IH]; intros s; simpl; constructor; auto.
  apply Forall_forall. intros x Hx. apply in_seq in Hx. lia.
Qed.
Lemma filter_sorted {A} (R : A -> A -> Prop) f l : StronglySorted R l -> StronglySorted R (filter f l).
Proof.
  induction 1 as [|x l Hs IH Hf]; simpl; [constructor|]. destruct (f x); auto.
  constructor; auto. apply Forall_forall. intros y Hy. apply filter_In in Hy as [Hy _].
  rewrite Forall_forall in Hf. auto.
Qed.
Lemma argwhere_sorted a : StronglySorted lt (argwhere a p).
Proof. rewrite argwhere_spec. apply filter_sorted, seq_sorted. Qed.

Lemma argwhere_filter_aux r : forall pre,
  map (nth_error (pre ++ r)) (filter (fun i => match nth_error (pre ++ r) i with Some x => p x | None => false end)
           (seq (length pre) (length r))) = map Some (filter p r).
Proof.
  induction r as [|x r IH]; intros pre; simpl; [reflexivity|].
  rewrite nth_error_mid.
  replace (S (length pre)) with (length (pre ++ [x])) by (rewrite app_length; simpl; lia).
  replace (pre ++ x :: r) with ((pre ++ [x]) ++ r) by (now rewrite <- app_assoc).
  destruct (p x); simpl; rewrite IH; [|reflexivity]. 
  rewrite <- app_assoc. simpl. rewrite nth_error_mid. reflexivity.
Qed.
Lemma argwhere_filter a : map (nth_error a) (argwhere a p) = map Some (filter p a).
Proof. rewrite argwhere_spec. apply (argwhere_filter_aux a []). Qed.
End ArgWhereP.
