(** Lemmas closing the statements of PropNumeric.v *)
From Coq Require Import ZArith Permutation Sorted Ring.
From Verif Require Import Base Functional FunctionalProofs Spec Numeric NumericProofs BaseFl FlFacts.
Open Scope nat_scope.

Section R.
Context (T : Type) (rO rI : T) (radd rmul rsub : T -> T -> T) (ropp : T -> T).
Hypothesis Rth : ring_theory rO rI radd rmul rsub ropp eq.
Add Ring TR : Rth.

Lemma prod_ring integral a : prod rI rmul integral a = bigop rmul rI a.
Proof.
  unfold prod, prod_filter. rewrite filter_reduce_associative_spec by (intros; ring). simpl.
  rewrite filter_all. apply fold_left_bigop; intros; ring.
Qed.

Lemma sum_prod_ring : forall (integral : bool) (a b : list T),
    sum rO radd integral a = bigop radd rO a /\
    prod rI rmul integral a = bigop rmul rI a /\
    sum rO radd integral (a ++ b) = radd (sum rO radd integral a) (sum rO radd integral b) /\
    prod rI rmul integral (a ++ b) = rmul (prod rI rmul integral a) (prod rI rmul integral b) /\
    (Permutation a b -> sum rO radd integral a = sum rO radd integral b
                        /\ prod rI rmul integral a = prod rI rmul integral b).
Proof.
  intros integral a b. rewrite !(ring_sum Rth), !prod_ring.
  split; [reflexivity|]. split; [reflexivity|]. split; [apply bigop_app; intros; ring|].
  split; [apply bigop_app; intros; ring|].
  intros HP. split; apply bigop_perm; auto; intros; ring.
Qed.

Lemma bsumf_bigop f n : bsumf (rO:=rO) (radd:=radd) f n = bigop radd rO (map f (seq 0 n)).
Proof.
  induction n as [|n IH]; [reflexivity|]. rewrite seq_S, map_app. simpl.
  rewrite (bigop_app radd rO) by (intros; ring). simpl. rewrite IH. ring.
Qed.

Lemma diff_binomial : forall (a : list T) (n : nat),
  exists r, diff rsub a (Z.of_nat n) = Ok r /\ length r = length a - n /\
    forall i, i + n < length a ->
      nth i r rO =
      bigop radd rO (map (fun k => (if Nat.even (n - k) then fun x => x else ropp)
                                     (nmul rO radd (binom n k) (nth (i + k) a rO))) (seq 0 (S n))).
Proof.
  intros a n. destruct (diff_loop_spec (rO:=rO) (rsub:=rsub) n a) as [r [Hr [Hl Hn]]].
  exists r. unfold diff, require. rewrite Nat2Z.id.
  destruct (Z.leb_spec 0 (Z.of_nat n)); [|lia]. split; [exact Hr|]. split; [exact Hl|].
  intros i Hi. rewrite (Hn i Hi), (delta_binom Rth), bsumf_bigop. f_equal. apply map_ext. intros k.
  unfold sgn. destruct (Nat.even (n - k)); reflexivity.
Qed.

Lemma pairs_nth (f : list T) : pairs f = map (fun i => (nth i f rO, nth (S i) f rO)) (seq 0 (length f - 1)).
Proof.
  induction f as [|x f IH]; [reflexivity|]. destruct f as [|y f]; [reflexivity|].
  change (pairs (x :: y :: f)) with ((x, y) :: pairs (y :: f)). rewrite IH.
  replace (length (x :: y :: f) - 1) with (S (length (y :: f) - 1)) by (simpl; lia).
  cbn [seq map]. f_equal. rewrite <- seq_shift, map_map. apply map_ext. reflexivity.
Qed.

Lemma trapz_rule : forall (integral : bool) (half dx : T) (f : list T), radd half half = rI ->
  (f = [] -> trapz rO radd rmul integral half (radd rI rI) f dx = Ok rO) /\
  (2 <= length f ->
   trapz rO radd rmul integral half (radd rI rI) f dx =
   Ok (bigop radd rO (map (fun i => rmul dx (rmul half (radd (nth i f rO) (nth (S i) f rO)))) (seq 0 (length f - 1))))).
Proof.
  intros integral half dx f Hh. split; [intros ->; reflexivity|]. intros Hf.
  rewrite (trapz_spec Rth) by exact Hf. f_equal. rewrite pairs_nth, map_map.
  rewrite <- (bsum_map_scale Rth). f_equal. apply map_ext. intros i. simpl. ring.
Qed.

Lemma pairs_app (l : list T) x r : pairs (l ++ x :: r) = pairs (l ++ [x]) ++ pairs (x :: r).
Proof.
  induction l as [|y l IH].
  - destruct r; reflexivity.
  - destruct l as [|z l]; [destruct r; reflexivity|].
    change (pairs ((y :: z :: l) ++ x :: r)) with ((y, z) :: pairs ((z :: l) ++ x :: r)).
    rewrite IH. reflexivity.
Qed.

Lemma trapz_additive : forall (integral : bool) (half dx : T) (l : list T) (x : T) (r : list T), l <> [] -> r <> [] ->
  exists A B, trapz rO radd rmul integral half (radd rI rI) (l ++ [x]) dx = Ok A /\
              trapz rO radd rmul integral half (radd rI rI) (x :: r) dx = Ok B /\
              trapz rO radd rmul integral half (radd rI rI) (l ++ x :: r) dx = Ok (radd A B).
Proof.
  intros integral half dx l x r Hl Hr.
  assert (1 <= length l) by (destruct l; [congruence|simpl; lia]).
  assert (1 <= length r) by (destruct r; [congruence|simpl; lia]).
  do 2 eexists. split; [apply (trapz_spec Rth); rewrite app_length; simpl; lia|].
  split; [apply (trapz_spec Rth); simpl; lia|].
  rewrite (trapz_spec Rth) by (rewrite app_length; simpl; lia). f_equal.
  rewrite pairs_app, map_app, (bsum_app Rth). ring.
Qed.

Lemma trapz_affine : forall (integral : bool) (half dx p q : T) (n : nat), radd half half = rI ->
  let N := nmul rO radd (S n) rI in
  trapz rO radd rmul integral half (radd rI rI)
    (map (fun i => radd q (rmul p (nmul rO radd i rI))) (seq 0 (S (S n)))) dx =
  Ok (rmul dx (radd (rmul q N) (rmul half (rmul p (rmul N N))))).
Proof.
  intros integral half dx p q n Hh N.
  set (g := fun i => radd q (rmul p (nmul rO radd i rI))).
  destruct (trapz_rule integral half dx (map g (seq 0 (S (S n)))) Hh) as [_ H].
  rewrite H by (rewrite map_length, seq_length; lia). f_equal.
  rewrite map_length, seq_length. replace (S (S n) - 1) with (S n) by lia.
  rewrite (map_ext_in _ (fun i => rmul dx (rmul half (radd (g i) (g (S i)))))).
  2:{ intros i Hi. apply in_seq in Hi.
      assert (E : forall j, j < S (S n) -> nth j (map g (seq 0 (S (S n)))) rO = g j).
      { intros j Hj. rewrite (nth_indep _ rO (g 0)) by (rewrite map_length, seq_length; lia).
        rewrite map_nth. rewrite seq_nth by lia. reflexivity. }
      rewrite !E by lia. reflexivity. }
  subst N. clear H. induction n as [|n IH].
  - simpl. unfold g. simpl. 
    replace (rmul dx (rmul half (radd (radd q (rmul p rO)) (radd q (rmul p (radd rI rO))))))
      with (rmul dx (radd (rmul q (radd half half)) (rmul half p))) by ring.
    rewrite Hh. ring.
  - rewrite (seq_S (S n) 0), map_app, (bigop_app radd rO) by (intros; ring).
    rewrite IH. cbn [map bigop]. unfold g. cbn [Nat.add nmul]. set (k := nmul rO radd n rI).
    replace q with (rmul q (radd half half)) by (rewrite Hh; ring).
    replace (rmul dx (rmul half (radd (radd (rmul q (radd half half)) (rmul p (radd rI k))) (radd (rmul q (radd half half)) (rmul p (radd rI (radd rI k)))))))
     with (rmul dx (radd (rmul (rmul q (radd half half)) (radd half half))
               (radd (rmul (radd half half) (rmul p (radd rI k))) (rmul half p)))) by ring.
    rewrite Hh. 
    replace (rmul half (rmul p (rmul (radd rI (radd rI k)) (radd rI (radd rI k)))))
      with (radd (rmul half (rmul p (rmul (radd rI k) (radd rI k))))
             (radd (rmul (radd half half) (rmul p (radd rI k))) (rmul half p))) by ring.
    rewrite Hh. ring.
Qed.

Lemma map_combine_nth {A B C} (f : A -> B -> C) (da : A) (db : B) a : forall b, length a = length b ->
  map (fun xy => f (fst xy) (snd xy)) (combine a b) = map (fun i => f (nth i a da) (nth i b db)) (seq 0 (length a)).
Proof.
  induction a as [|x a IH]; intros [|y b] H; simpl in *; try discriminate; [reflexivity|].
  f_equal. rewrite IH by lia. rewrite <- seq_shift, map_map. reflexivity.
Qed.

Lemma inner_product : forall a b : list T,
  (length a = length b ->
     inner rO radd rmul a b = Ok (bigop radd rO (map (fun i => rmul (nth i a rO) (nth i b rO)) (seq 0 (length a)))) /\
     dot rO radd rmul a b = inner rO radd rmul a b /\
     inner rO radd rmul a b = inner rO radd rmul b a) /\
  (length a <> length b -> inner rO radd rmul a b = RequireFail).
Proof.
  intros a b. split; [|unfold inner; apply inner_op_fail].
  intros H. unfold dot, inner. rewrite !(inner_op_spec Rth) by lia.
  rewrite (map_combine_nth rmul rO rO) by exact H. split; [reflexivity|]. split; [reflexivity|].
  rewrite (map_combine_nth rmul rO rO) by lia. rewrite <- H. f_equal. f_equal. apply map_ext. intros; ring.
Qed.

Lemma inner_bilinear : forall (c : T) (a a' b : list T), length a = length b -> length a' = length b ->
  exists x y, inner rO radd rmul a b = Ok x /\ inner rO radd rmul a' b = Ok y /\
    inner rO radd rmul (map (fun p => radd (fst p) (snd p)) (combine a a')) b = Ok (radd x y) /\
    inner rO radd rmul (map (rmul c) a) b = Ok (rmul c x).
Proof.
  intros c a a' b H H'. unfold inner. do 2 eexists.
  split; [now apply (inner_op_spec Rth)|]. split; [now apply (inner_op_spec Rth)|]. split.
  - rewrite (inner_op_spec Rth) by (rewrite map_length, combine_length; lia). f_equal.
    revert a' b H H'. induction a as [|x a IH]; intros [|x' a'] [|y b] H H'; simpl in *; try discriminate; [ring|].
    rewrite IH by lia. ring.
  - rewrite (inner_op_spec Rth) by (rewrite map_length; lia). f_equal. clear H'.
    revert b H. induction a as [|x a IH]; intros [|y b] H; simpl in *; try discriminate; [ring|].
    rewrite IH by lia. ring.
Qed.

Lemma vdot_hermitian_aux (conj : T -> T) :
  (forall x y, conj (radd x y) = radd (conj x) (conj y)) ->
  (forall x y, conj (rmul x y) = rmul (conj x) (conj y)) ->
  (forall x, conj (conj x) = x) ->
  forall a b : list T, length a = length b ->
  exists v, vdot rO radd rmul conj a b = Ok v /\ vdot rO radd rmul conj b a = Ok (conj v) /\
    v = bigop radd rO (map (fun i => rmul (conj (nth i a rO)) (nth i b rO)) (seq 0 (length a))).
Proof.
  intros Ca Cm Ci a b H. unfold vdot. eexists. split; [now apply (inner_op_spec Rth)|]. split.
  - rewrite (inner_op_spec Rth) by lia. f_equal.
    assert (C0 : conj rO = rO).
    { assert (E : radd (conj rO) (conj rO) = conj rO) by (rewrite <- Ca; f_equal; ring).
      assert (E2 : radd (radd (conj rO) (conj rO)) (ropp (conj rO)) = radd (conj rO) (ropp (conj rO))) by now rewrite E.
      ring_simplify in E2. exact E2. }
    revert b H. induction a as [|x a IH]; intros [|y b] H; simpl in *; try discriminate; [now rewrite C0|].
    rewrite Ca, Cm, Ci, IH by lia. ring.
  - f_equal. now apply (map_combine_nth (fun x y => rmul (conj x) y) rO rO).
Qed.
End R.

Lemma vdot_hermitian : forall (T : Type) (rO rI : T) radd rmul rsub ropp (conj : T -> T),
  ring_theory rO rI radd rmul rsub ropp eq ->
  (forall x y, conj (radd x y) = radd (conj x) (conj y)) ->
  (forall x y, conj (rmul x y) = rmul (conj x) (conj y)) ->
  (forall x, conj (conj x) = x) ->
  forall a b : list T, length a = length b ->
  exists v, vdot rO radd rmul conj a b = Ok v /\ vdot rO radd rmul conj b a = Ok (conj v) /\
    v = bigop radd rO (map (fun i => rmul (conj (nth i a rO)) (nth i b rO)) (seq 0 (length a))).
Proof. intros T rO rI radd rmul rsub ropp conj Rth. exact (vdot_hermitian_aux T rO rI radd rmul rsub ropp Rth conj). Qed.

Lemma diff_array_agrees : forall (T : Type) (rsub : T -> T -> T) (a : list T) (n : nat),
  diff rsub a (Z.of_nat n) = Ok (diff_array rsub n a).
Proof.
  intros. unfold diff, require. destruct (Z.leb_spec 0 (Z.of_nat n)); [|lia]. rewrite Nat2Z.id. apply diff_array_eq.
Qed.

Lemma trapz_single : forall (T : Type) (zero : T) add mul integral half two x dx,
  trapz zero add mul integral half two [x] dx = UB.
Proof. reflexivity. Qed.

(** complex numbers over the rationals *)
Definition cadd (a b : Qc * Qc) : Qc * Qc := (fst a + fst b, snd a + snd b)%Qc.
Definition cmul (a b : Qc * Qc) : Qc * Qc := (fst a * fst b - snd a * snd b, fst a * snd b + snd a * fst b)%Qc.
Definition csub (a b : Qc * Qc) : Qc * Qc := (fst a - fst b, snd a - snd b)%Qc.
Definition copp (a : Qc * Qc) : Qc * Qc := (- fst a, - snd a)%Qc.
Definition cconj (a : Qc * Qc) : Qc * Qc := (fst a, - snd a)%Qc.
Lemma complex_ring : ring_theory (Q2Qc 0, Q2Qc 0) (Q2Qc 1, Q2Qc 0) cadd cmul csub copp eq.
Proof.
  constructor; intros; repeat match goal with x : (Qc * Qc)%type |- _ => destruct x end;
  unfold cadd, cmul, csub, copp; simpl; f_equal; ring.
Qed.
Lemma vdot_self : forall (a : list (Qc * Qc)),
  vdot (Q2Qc 0, Q2Qc 0) cadd cmul cconj a a =
  Ok (bigop Qcplus (Q2Qc 0) (map (fun z => fst z * fst z + snd z * snd z)%Qc a), Q2Qc 0) /\
  (Q2Qc 0 <= bigop Qcplus (Q2Qc 0) (map (fun z => fst z * fst z + snd z * snd z) a))%Qc.
Proof.
  intros a. split.
  - unfold vdot. rewrite (inner_op_spec complex_ring) by reflexivity. f_equal.
    induction a as [|[x y] a IH]; [reflexivity|]. cbn [combine map bigop fst snd]. rewrite IH.
    unfold cadd, cmul, cconj. simpl. f_equal; ring.
  - induction a as [|[x y] a IH]; cbn [map bigop fst snd]; [qc_lra|]. qc_nra.
Qed.

Lemma nansum_nanprod : forall (a : list fl),
  nansum f0 fadd not_nan a = (sum f0 fadd false (filter not_nan a), length (filter not_nan a)) /\
  nanprod f1 fmul not_nan a = (prod f1 fmul false (filter not_nan a), length (filter not_nan a)).
Proof.
  intros a. unfold nansum, nanprod, sum, prod, sum_filter, prod_filter.
  rewrite !filter_reduce_associative_spec; auto using fadd_assoc, fadd_0_l, fadd_0_r, fmul_assoc, fmul_1_l, fmul_1_r.
  simpl. rewrite !filter_all. split; reflexivity.
Qed.

Lemma fl_sum a : sum f0 fadd false a = bigop fadd f0 a.
Proof. apply sum_spec; auto using fadd_assoc, fadd_0_l, fadd_0_r. Qed.
Lemma fl_prod a : prod f1 fmul false a = bigop fmul f1 a.
Proof.
  unfold prod, prod_filter. rewrite filter_reduce_associative_spec; auto using fmul_assoc, fmul_1_l, fmul_1_r.
  simpl. rewrite filter_all. apply fold_left_bigop; auto using fmul_assoc, fmul_1_l, fmul_1_r.
Qed.

Lemma sum_prod_nan : forall (a : list fl), In NaN a ->
  sum f0 fadd false a = NaN /\ prod f1 fmul false a = NaN.
Proof. intros a H. rewrite fl_sum, fl_prod. split; [now apply bigop_nan_add|now apply bigop_nan_mul]. Qed.

Lemma sum_prod_fin : forall (a : list Qc),
  sum f0 fadd false (map Fin a) = Fin (bigop Qcplus (Q2Qc 0) a) /\
  prod f1 fmul false (map Fin a) = Fin (bigop Qcmult (Q2Qc 1) a).
Proof. intros a. rewrite fl_sum, fl_prod. split; [apply bigop_fin_add|apply bigop_fin_mul]. Qed.

Lemma scalar_comparisons : forall (a : list fl) (s : fl),
  arr_lt_s flt a s = map (fun v => flt v s) a /\ s_lt_arr flt s a = map (fun v => flt s v) a /\
  arr_gt_s flt a s = map (fun v => flt s v) a /\ s_gt_arr flt s a = map (fun v => flt v s) a /\
  arr_eq_s feq a s = map (fun v => feq v s) a /\ arr_ne_s feq a s = map (fun v => negb (feq v s)) a /\
  (is_num s -> Forall is_num a ->
     arr_le_s flt a s = map (fun v => fle v s) a /\ arr_ge_s flt a s = map (fun v => fle s v) a /\
     s_le_arr flt s a = map (fun v => fle s v) a /\ s_ge_arr flt s a = map (fun v => fle v s) a).
Proof.
  intros a s. rewrite arr_lt_s_map, s_lt_arr_map, arr_gt_s_map, s_gt_arr_map, arr_eq_s_map, arr_ne_s_map.
  repeat (split; [reflexivity|]). intros Hs Ha.
  rewrite arr_le_s_map, arr_ge_s_map, s_le_arr_map, s_ge_arr_map. rewrite Forall_forall in Ha.
  repeat split; apply map_ext_in; intros v Hv; symmetry; apply fle_negb_lt; auto.
Qed.

Lemma array_comparisons : forall (a b : list fl), length a = length b ->
  let z := combine a b in
  less flt a b = Ok (map (fun p => flt (fst p) (snd p)) z) /\
  greater flt a b = Ok (map (fun p => flt (snd p) (fst p)) z) /\
  equal feq a b = Ok (map (fun p => feq (fst p) (snd p)) z) /\
  not_equal feq a b = Ok (map (fun p => negb (feq (fst p) (snd p))) z) /\
  (Forall is_num a -> Forall is_num b ->
     less_equal flt a b = Ok (map (fun p => fle (fst p) (snd p)) z) /\
     greater_equal flt a b = Ok (map (fun p => fle (snd p) (fst p)) z)).
Proof.
  intros a b H z. unfold greater, less, less_equal, greater_equal, not_equal, equal, less.
  rewrite !map2_ok by lia.
  rewrite <- (combine_swap flt b a). fold z. split; [reflexivity|]. split; [reflexivity|].
  split; [reflexivity|]. cbn [omap bind].
  split; [f_equal; apply logical_not_map'|]. intros Ha Hb. rewrite Forall_forall in Ha, Hb.
  unfold omap, bind. rewrite !logical_not_map'.
  split; f_equal; apply map_ext_in; intros [x y] Hxy; simpl; symmetry; apply fle_negb_lt;
  first [apply Ha; eapply in_combine_l; eassumption | apply Hb; eapply in_combine_r; eassumption].
Qed.

Lemma le_ge_nan :
  (exists a s, arr_le_s flt a s <> map (fun v => fle v s) a) /\
  (exists a s, arr_ge_s flt a s <> map (fun v => fle s v) a) /\
  (exists a b, length a = length b /\ less_equal flt a b <> Ok (map (fun p => fle (fst p) (snd p)) (combine a b))) /\
  (exists a b, length a = length b /\ greater_equal flt a b <> Ok (map (fun p => fle (snd p) (fst p)) (combine a b))).
Proof.
  repeat split.
  - exists [NaN], f1. vm_compute. discriminate.
  - exists [NaN], f1. vm_compute. discriminate.
  - exists [NaN], [f1]. split; [reflexivity|]. vm_compute. discriminate.
  - exists [NaN], [f1]. split; [reflexivity|]. vm_compute. discriminate.
Qed.

Lemma mask_selects : forall (T : Type) (a : list T) (m : list bool),
  (length a = length m ->
     mask_copy a m = Ok (map fst (filter snd (combine a m))) /\
     mask_move a m = mask_copy a m) /\
  (length a <> length m -> mask_copy a m = RequireFail /\ mask_move a m = RequireFail) /\
  (forall p, mask_copy a (map p a) = Ok (filter p a)).
Proof.
  intros T a m. split; [|split].
  - intros H. rewrite mask_move_spec, mask_copy_spec by exact H. split; reflexivity.
  - intros H. unfold mask_copy, mask_move, require. rewrite (proj2 (Nat.eqb_neq _ _) H). split; reflexivity.
  - intros p. rewrite mask_copy_spec by now rewrite map_length. now rewrite selected_pred.
Qed.

Lemma swo_flip {T} (D : T -> Prop) ltb : strict_weak_order_on D ltb -> strict_weak_order_on D (fun u v => ltb v u).
Proof.
  intros [Hi Ht Hn]. constructor; auto.
  - intros x y z Hx Hy Hz H1 H2. apply (Ht z y x); auto.
  - intros x y z Hx Hy Hz H1 H2. apply (Hn z y x); auto.
Qed.

Lemma first_extremum_iff {T} (V V' : T -> Prop) (lt : T -> T -> Prop) a i :
  (forall x, V x <-> V' x) -> first_extremum V lt a i -> first_extremum V' lt a i.
Proof.
  intros HV (m & Hn & Hv & H1 & H2). exists m. split; [exact Hn|]. split; [now apply HV|].
  split; intros j x; [intros Hj Hx|intros Hlt Hj Hx]; [apply (H1 j)|apply (H2 j)]; auto; now apply HV.
Qed.

Lemma argmax_argmin : forall (T : Type) (D : T -> Prop) (ltb : T -> T -> bool),
  strict_weak_order_on D ltb ->
  forall a : list T, a <> [] -> Forall D a ->
  (exists i, argmax ltb a = Ok i /\ first_extremum (fun _ => True) (fun x y => ltb x y = true) a i) /\
  (exists i, argmin ltb a = Ok i /\ first_extremum (fun _ => True) (fun x y => ltb y x = true) a i).
Proof.
  intros T D ltb W [|x r] Hne HD; [congruence|]. rewrite Forall_forall in HD.
  split.
  - destruct (argcmp_hd_valid (fun u v => ltb v u) D (swo_flip D ltb W) f_all x r) as [i [Hi HF]]; auto.
    exists i. split; [exact Hi|]. eapply first_extremum_iff; [|exact HF]. unfold f_all. intuition.
  - destruct (argcmp_hd_valid ltb D W f_all x r) as [i [Hi HF]]; auto.
    exists i. split; [exact Hi|]. eapply first_extremum_iff; [|exact HF]. unfold f_all. intuition.
Qed.

Lemma nanarg_behaviour : forall (n : nat) (x : fl) (r : list fl), is_num x ->
  let a := repeat NaN n ++ x :: r in
  (exists i, nanargmax flt not_nan a = Ok i /\
     (first_extremum is_num (fun u v => flt u v = true) a i \/
      i = 0 /\ r <> [] /\ first_extremum is_num (fun u v => flt u v = true) a n)) /\
  (exists i, nanargmin flt not_nan a = Ok i /\
     (first_extremum is_num (fun u v => flt v u = true) a i \/
      i = 0 /\ r <> [] /\ first_extremum is_num (fun u v => flt v u = true) a n)).
Proof.
  intros n x r Hx a.
  assert (Hrep : forall y, In y (repeat NaN n) -> not_nan y = false).
  { intros y Hy. apply repeat_spec in Hy. now subst. }
  assert (HD : forall y, In y a -> not_nan y = true -> is_num y) by (intros y _; apply not_nan_iff).
  assert (HV : forall y, not_nan y = true <-> is_num y) by apply not_nan_iff.
  assert (Px : not_nan x = true) by now apply not_nan_iff.
  split.
  - destruct (argcmp_behaviour (fun u v => flt v u) is_num fgt_swo not_nan (repeat NaN n) x r HD Hrep Px) as [i [Hi [HF|[H0 [Hr HF]]]]];
    exists i; (split; [exact Hi|]); [left|right]; rewrite ?repeat_length in HF.
    + eapply first_extremum_iff; [exact HV|exact HF].
    + split; [exact H0|]. split; [exact Hr|]. eapply first_extremum_iff; [exact HV|exact HF].
  - destruct (argcmp_behaviour flt is_num flt_swo not_nan (repeat NaN n) x r HD Hrep Px) as [i [Hi [HF|[H0 [Hr HF]]]]];
    exists i; (split; [exact Hi|]); [left|right]; rewrite ?repeat_length in HF.
    + eapply first_extremum_iff; [exact HV|exact HF].
    + split; [exact H0|]. split; [exact Hr|]. eapply first_extremum_iff; [exact HV|exact HF].
Qed.

Lemma nanarg_first_valid : forall (x : fl) (r : list fl), is_num x ->
  (exists i, nanargmax flt not_nan (x :: r) = Ok i /\
     first_extremum is_num (fun u v => flt u v = true) (x :: r) i) /\
  (exists i, nanargmin flt not_nan (x :: r) = Ok i /\
     first_extremum is_num (fun u v => flt v u = true) (x :: r) i).
Proof.
  intros x r Hx. destruct (nanarg_behaviour 0 x r Hx) as [[i [Hi [HF|[-> [_ HF]]]]] [j [Hj [HG|[-> [_ HG]]]]]]; simpl in *; split; eexists; split; eauto.
Qed.

Lemma nanargmax_wrong :
  exists a i, (exists x, In x a /\ is_num x) /\ nanargmax flt not_nan a = Ok i /\ nth_error a i = Some NaN.
Proof.
  exists [NaN; Fin (qz 5); Fin (qz 3)], 0. split.
  - exists (Fin (qz 5)). split; [right; left; reflexivity|discriminate].
  - split; vm_compute; reflexivity.
Qed.

Lemma nanarg_all_nan : forall n, nanargmax flt not_nan (repeat NaN (S n)) = UB
                                        /\ nanargmin flt not_nan (repeat NaN (S n)) = UB.
Proof.
  intros n. split; apply argcmp_none; try discriminate;
  intros x Hx; apply repeat_spec in Hx; now subst.
Qed.

Lemma nonzero_fl : forall (a : list fl) (i : nat),
  In i (nonzero feq f0 a) <-> exists x, nth_error a i = Some x /\ x <> f0.
Proof.
  intros a i. unfold nonzero. rewrite argwhere_in.
  assert (H : forall x, negb (feq x f0) = true <-> x <> f0).
  { unfold f0. intros [x| | |]; simpl; try (split; congruence).
    destruct (qeqb_spec x (Q2Qc 0)) as [E|Hne]; simpl.
    - subst x. split; [discriminate|intros H; exfalso; apply H; reflexivity].
    - split; [|reflexivity]. intros _ HE. apply Hne. exact (Fin_inj _ _ HE). }
  split; intros [x [Hx Hp]]; exists x; split; auto; now apply H.
Qed.
