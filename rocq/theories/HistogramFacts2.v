(** Consequences: totals, order independence, density, histogram(x, nbins), binary64 counterexamples. *)
From Coq Require Import ZArith Permutation Sorted.
From Coq Require Import Floats.
From Verif Require Import Base Functional FunctionalProofs Spec Numeric NumericProofs BaseFl FlFacts Equal EqualFacts RangeManips RangeFacts
  Stats StatsOrder StatsVar Histogram HistogramFacts.
From Coq Require Import Lqa.
Open Scope nat_scope.

(** plain half-open interval *)
Definition between (lo hi x : fl) : bool := fle lo x && flt x hi.

Lemma count_app {A} (p : A -> bool) u v : count p (u ++ v) = count p u + count p v.
Proof. unfold count. now rewrite filter_app, app_length. Qed.
Lemma count_perm {A} (p : A -> bool) u v : Permutation u v -> count p u = count p v.
Proof. unfold count. induction 1; simpl; auto; try (destruct (p x); simpl; auto); try (destruct (p y); simpl; auto); congruence. Qed.
Lemma count_or {A} (p q r : A -> bool) l : (forall x, In x l -> (p x = true -> q x = false) /\ r x = p x || q x) ->
  count p l + count q l = count r l.
Proof.
  unfold count. induction l as [|x l IH]; intros H; [reflexivity|]. simpl.
  destruct (H x (or_introl eq_refl)) as [A1 A2]. rewrite A2.
  specialize (IH (fun y Hy => H y (or_intror Hy))).
  destruct (p x) eqn:E; simpl; [rewrite (A1 eq_refl); simpl; lia|]. destruct (q x); simpl; lia.
Qed.
Lemma count_le {A} (p : A -> bool) l : count p l <= length l.
Proof. unfold count. induction l as [|x l IH]; simpl; [lia|]. destruct (p x); simpl; lia. Qed.
Lemma count_all {A} (p : A -> bool) l : (forall x, In x l -> p x = true) -> count p l = length l.
Proof.
  unfold count. induction l as [|x l IH]; intros H; [reflexivity|]. simpl. rewrite (H x) by (now left). simpl.
  rewrite IH; [reflexivity|]. intros; apply H; now right.
Qed.

Lemma sum_bins b xs k : increasing b -> S k < length b ->
  list_sum (map (fun i => count (between (edge b i) (edge b (S i))) xs) (seq 0 (S k))) = count (between (edge b 0) (edge b (S k))) xs.
Proof.
  intros Hs. induction k as [|k IH]; intros Hk; [simpl; lia|].
  rewrite seq_S, map_app, list_sum_app, IH by lia. simpl list_sum. rewrite Nat.add_0_r. apply count_or.
  intros x _. unfold between. assert (H1 : is_num (edge b (S k))) by (apply increasing_num; auto; lia).
  split.
  - intros E. apply andb_true_iff in E as [E1 E2]. rewrite fle_negb_lt; [rewrite E2; reflexivity|exact H1|].
    now destruct (flt_not_nan _ _ E2).
  - apply bool_eq_iff. rewrite orb_true_iff, !andb_true_iff. split.
    + intros [A B]. destruct (flt_not_nan _ _ B) as [Nx _].
      rewrite (fle_negb_lt (edge b (S k)) x) by auto.
      destruct (flt x (edge b (S k))) eqn:E; auto.
    + intros [[A B]|[A B]].
      * split; [exact A|]. apply fle_trans_lt with (edge b (S k)); auto; apply Hs; lia.
      * split; [|exact B]. apply fle_trans_num with (edge b (S k)); auto; apply Hs; lia.
Qed.

(** the values counted by the histogram: from the first edge up to the last edge, which is included (with the tolerance of
    almost_equal above it) *)
Definition counted (b : list fl) (x : fl) : bool :=
  between (edge b 0) (edge b (length b - 1)) x || closed_last x (edge b (length b - 1)).

Lemma hist_list h b xs : length h = length b - 1 ->
  (forall i, S i < length b -> nth_error h i = Some (count (in_bin b i) xs)) ->
  h = map (fun i => count (in_bin b i) xs) (seq 0 (length b - 1)).
Proof.
  intros L H. apply list_eq_nth; [now rewrite map_length, seq_length|]. intros i Hi. rewrite H by lia.
  now rewrite nth_error_map_seq by lia.
Qed.
Lemma hist_total h b xs : increasing b -> 2 <= length b -> length h = length b - 1 ->
  (forall i, S i < length b -> nth_error h i = Some (count (in_bin b i) xs)) ->
  list_sum h = count (counted b) xs.
Proof.
  intros Hs Hl L H. rewrite (hist_list h b xs L H).
  destruct (length b - 1) as [|k] eqn:E; [lia|]. replace k with (length b - 2) in * by lia. clear E.
  set (k' := length b - 2) in *.
  rewrite seq_S, map_app, list_sum_app. simpl list_sum. rewrite Nat.add_0_r. simpl plus.
  assert (Hlast : count (in_bin b k') xs = count (between (edge b k') (edge b (S k'))) xs + count (fun x => closed_last x (edge b (S k'))) xs).
  { symmetry. apply count_or. intros x _. unfold in_bin, between, closed_last.
    replace (S (S k') =? length b) with true by (symmetry; apply Nat.eqb_eq; lia). rewrite andb_true_l. split; [|reflexivity].
    intros E. apply andb_true_iff in E as [E1 E2]. rewrite fle_negb_lt; [now rewrite E2| |now destruct (flt_not_nan _ _ E2)].
    apply increasing_num; auto; lia. }
  rewrite Hlast, Nat.add_assoc.
  assert (Hmid : list_sum (map (fun i => count (in_bin b i) xs) (seq 0 k')) =
                 list_sum (map (fun i => count (between (edge b i) (edge b (S i))) xs) (seq 0 k'))).
  { f_equal. apply map_ext_in. intros i Hi. apply in_seq in Hi. apply count_ext_in. intros x _. unfold in_bin, between.
    replace (S (S i) =? length b) with false by (symmetry; apply Nat.eqb_neq; lia). now rewrite andb_false_l, orb_false_r. }
  rewrite Hmid.
  assert (Hsum : list_sum (map (fun i => count (between (edge b i) (edge b (S i))) xs) (seq 0 k')) +
                 count (between (edge b k') (edge b (S k'))) xs = count (between (edge b 0) (edge b (S k'))) xs).
  { rewrite <- (sum_bins b xs k') by (auto; lia). rewrite seq_S, map_app, list_sum_app. simpl list_sum. simpl plus. lia. }
  rewrite Hsum. apply count_or. intros x _. unfold counted, closed_last, between. replace (length b - 1) with (S k') by lia.
  split; [|reflexivity]. intros E. apply andb_true_iff in E as [E1 E2].
  rewrite fle_negb_lt; [now rewrite E2| |now destruct (flt_not_nan _ _ E2)]. apply increasing_num; auto; lia.
Qed.

(** when no element is just above (within the tolerance of) the last edge, "closed" means <= *)
Definition no_near_miss (b xs : list fl) : Prop :=
  forall x, In x xs -> almost_equal 1 x (edge b (length b - 1)) = true -> fle x (edge b (length b - 1)) = true.
Lemma feq_aeq x y : feq x y = true -> almost_equal 1 x y = true.
Proof.
  intros H. assert (E : x = y) by (destruct x, y; simpl in H; try discriminate; auto; apply qeqb_eq in H; now subst).
  subst. apply almost_equal_refl_sym. exact y.
Qed.
Lemma feq_eq x y : feq x y = true -> x = y.
Proof. destruct x, y; simpl; try discriminate; auto. intros H. apply qeqb_eq in H. now subst. Qed.
Lemma closed_last_exact x last : (almost_equal 1 x last = true -> fle x last = true) -> is_num last ->
  flt x last || closed_last x last = fle x last.
Proof.
  intros H Hn. unfold closed_last. apply bool_eq_iff. rewrite orb_true_iff, andb_true_iff. split.
  - intros [A|[A B]]; [now apply flt_fle|now apply H].
  - intros E. unfold fle in E. apply orb_true_iff in E as [E|E]; [now left|]. right.
    split; [|now apply feq_aeq]. apply feq_eq in E. subst. now apply fle_refl_num.
Qed.

Lemma histogram_counts xs b : increasing b -> 2 <= length b -> no_near_miss b xs ->
  exists h, fhist false xs b = Ok h /\ length h = length b - 1 /\
    (forall i, S (S i) < length b -> nth_error h i = Some (count (fun x => fle (edge b i) x && flt x (edge b (S i))) xs)) /\
    nth_error h (length b - 2) =
      Some (count (fun x => fle (edge b (length b - 2)) x && fle x (edge b (length b - 1))) xs) /\
    list_sum h = count (fun x => fle (edge b 0) x && fle x (edge b (length b - 1))) xs.
Proof.
  intros Hs Hl Hm. destruct (hist_general xs b Hs Hl) as [h [E [L H]]]. exists h.
  assert (Nl : is_num (edge b (length b - 1))) by (apply increasing_num; auto; lia).
  split; [exact E|]. split; [exact L|]. split; [|split].
  - intros i Hi. rewrite H by lia. f_equal. apply count_ext_in. intros x _. unfold in_bin.
    replace (S (S i) =? length b) with false by (symmetry; apply Nat.eqb_neq; lia). now rewrite andb_false_l, orb_false_r.
  - rewrite H by lia. f_equal. apply count_ext_in. intros x Hx. unfold in_bin.
    replace (S (length b - 2)) with (length b - 1) by lia. replace (S (length b - 1)) with (length b) by lia.
    rewrite Nat.eqb_refl, andb_true_l. rewrite <- (closed_last_exact x (edge b (length b - 1))) by (auto; now apply Hm).
    rewrite andb_orb_distrib_r. f_equal. unfold closed_last.
    destruct (fle (edge b (length b - 1)) x) eqn:F; [|now rewrite andb_false_l, andb_false_r].
    rewrite andb_true_l. rewrite (fle_trans_num (edge b (length b - 2)) (edge b (length b - 1)) x); auto; apply Hs; lia.
  - rewrite (hist_total h b xs Hs Hl L H). apply count_ext_in. intros x Hx. unfold counted, between.
    rewrite <- (closed_last_exact x (edge b (length b - 1))) by (auto; now apply Hm).
    rewrite andb_orb_distrib_r. f_equal. unfold closed_last.
    destruct (fle (edge b (length b - 1)) x) eqn:F; [|now rewrite andb_false_l, andb_false_r].
    rewrite andb_true_l. rewrite (fle_trans_num (edge b 0) (edge b (length b - 1)) x); auto; apply Hs; lia.
Qed.

Lemma histogram_perm xs ys b : increasing b -> Permutation xs ys -> fhist false xs b = fhist false ys b.
Proof.
  intros Hs P. destruct (Nat.le_gt_cases (length b) 1) as [Hl|Hl].
  - unfold fhist, histogram. apply Nat.leb_le in Hl. now rewrite Hl.
  - destruct (hist_general xs b Hs Hl) as [h [E [L H]]], (hist_general ys b Hs Hl) as [h' [E' [L' H']]].
    rewrite E, E'. f_equal. apply list_eq_nth; [lia|]. intros i Hi. rewrite H, H' by lia. f_equal. now apply count_perm.
Qed.
Lemma histogram_few_edges u xs b : length b <= 1 -> fhist u xs b = Ok [].
Proof. intros H. unfold fhist, histogram. apply Nat.leb_le in H. now rewrite H. Qed.
Lemma histogram_inf_counted : exists xs b, increasing b /\ fhist false xs b = Ok [1] /\
  fle (nth 0 xs NaN) (edge b (length b - 1)) = false /\ xs = [PInf].
Proof.
  exists [PInf], [f0; f1]. split; [|split; [|split; reflexivity]].
  - intros i j Hij Hj. simpl in Hj. destruct i as [|[|i]], j as [|[|j]]; try lia; vm_compute; reflexivity.
  - vm_compute. reflexivity.
Qed.
(** 1e-20 counted in [-1, 0] *)
Lemma histogram_above_last_counted : exists x b, increasing b /\ fhist false [Fin x] b = Ok [1] /\
  flt (edge b (length b - 1)) (Fin x) = true.
Proof.
  exists (Q2Qc (1 # 100000000000000000000)), [Fin (qz (-1)); f0]. split; [|split].
  - intros i j Hij Hj. simpl in Hj. destruct i as [|[|i]], j as [|[|j]]; try lia; vm_compute; reflexivity.
  - vm_compute. reflexivity.
  - vm_compute. reflexivity.
Qed.

(** *** lengths in general *)
Lemma incr_length h i h' : incr h i = Ok h' -> length h' = length h.
Proof.
  unfold incr, at_ub, set_ub. destruct (nth_error h i); simpl; [|discriminate].
  destruct (i <? length h); [|discriminate]. injection 1 as <-. apply nat_upd_length.
Qed.
Lemma incr_back_length h h' : incr_back h = Ok h' -> length h' = length h.
Proof. unfold incr_back. destruct h; [discriminate|]. apply incr_length. Qed.
Lemma loop_length {T} (f : list nat -> T -> outcome (list nat)) xs : (forall h x h', f h x = Ok h' -> length h' = length h) ->
  forall h h', loop f xs h = Ok h' -> length h' = length h.
Proof.
  intros Hf. induction xs as [|x xs IH]; intros h h' H; simpl in H; [now injection H as <-|].
  destruct (f h x) as [h1| | |] eqn:E; try discriminate. simpl in H. rewrite (IH _ _ H). now apply Hf with x.
Qed.
Lemma histogram_length u xs b h : fhist u xs b = Ok h -> length h = length b - 1.
Proof.
  unfold fhist, histogram. destruct (Nat.leb_spec (length b) 1) as [Hl|Hl].
  - injection 1 as <-. simpl. lia.
  - unfold require. destruct (is_sorted flt b); [|discriminate]. intros H. rewrite <- (repeat_length 0 (length b - 1)).
    destruct u.
    + destruct (at_ub b 0) as [e0| | |]; try discriminate. cbn [bind] in H. destruct (at_ub b 1) as [e1| | |]; try discriminate.
      cbn [bind] in H. cbv zeta in H. destruct (flt f0 (fsub e1 e0)); [|discriminate].
      revert H. apply loop_length. intros g x g' E. unfold step_uniform in E.
      destruct (at_ub b 0) as [y| | |]; try discriminate. cbn [bind] in E. cbv zeta in E.
      destruct (fle (fofnat (length g)) _).
      * destruct (back_ub b) as [z| | |]; try discriminate. cbn [bind] in E. destruct (almost_equal 1 x z); [now apply incr_back_length|now injection E as <-].
      * destruct (fle f0 _); [eapply incr_length; exact E|now injection E as <-].
    + revert H. apply loop_length. intros g x g' E. unfold step_general in E.
      destruct (upper_bound flt b x) as [k| | |]; try discriminate. cbn [bind] in E.
      destruct (k =? length b).
      * destruct (back_ub b) as [z| | |]; try discriminate. cbn [bind] in E. destruct (almost_equal 1 x z); [now apply incr_back_length|now injection E as <-].
      * destruct (0 <=? Z.of_nat k - 1)%Z; [eapply incr_length; exact E|now injection E as <-].
Qed.

(** *** density *)
Definition strictly_increasing (e : list Qc) : Prop := forall i, S i < length e -> (nth i e 0%Qc < nth (S i) e 0%Qc)%Qc.
Lemma int32_small n : (Z.of_nat n < 2 ^ 31)%Z -> int32 n = Z.of_nat n.
Proof. intros H. unfold int32. rewrite Z.mod_small by lia. lia. Qed.
Lemma map2_nth {A B C} (f : A -> B -> C) (u : list A) (v : list B) : length u = length v ->
  exists w, map2 f u v = Ok w /\ length w = length u /\
    forall i x y, nth_error u i = Some x -> nth_error v i = Some y -> nth_error w i = Some (f x y).
Proof.
  intros H. unfold map2, map2_fresh, require. rewrite H, Nat.eqb_refl.
  revert v H. induction u as [|x u IH]; intros [|y v] H; simpl in *; try lia.
  - exists []. split; [reflexivity|]. split; [reflexivity|]. intros [|i]; discriminate.
  - destruct (IH v) as [w [A0 [A1 A2]]]; [lia|]. rewrite A0. simpl. eexists. split; [reflexivity|].
    split; [simpl; now rewrite A1|]. intros [|i] x' y'; simpl; [congruence|apply A2].
Qed.
Lemma diff_edges (e : list Qc) : e <> [] ->
  diff fsub (map Fin e) 1 = Ok (map (fun i => Fin (nth (S i) e 0 - nth i e 0)%Qc) (seq 0 (length e - 1))).
Proof.
  intros He. unfold diff. change (0 <=? 1)%Z with true. unfold require. change (Z.to_nat 1) with 1. cbn [diff_loop].
  replace (length (map Fin e) =? 0) with false by (symmetry; apply Nat.eqb_neq; rewrite map_length; destruct e; simpl; congruence).
  rewrite diff_once_tl by (destruct e; simpl; congruence). cbn [bind]. f_equal. apply list_eq_nth.
  - rewrite diff1_length, !map_length, seq_length. reflexivity.
  - intros i Hi. rewrite diff1_length, map_length in Hi. rewrite nth_error_map_seq by exact Hi.
    rewrite (nth_error_nth' _ (Fin 0)) by (rewrite diff1_length, map_length; exact Hi). f_equal.
    rewrite (diff1_nth (rO := Fin 0%Qc)) by (rewrite map_length; lia). rewrite !map_nth. reflexivity.
Qed.
Lemma qsum_nat (f : nat -> nat) l : qsum (map (fun i => qn (f i)) l) = qn (list_sum (map f l)).
Proof. induction l as [|x l IH]; simpl; [reflexivity|]. now rewrite IH, qn_add. Qed.
Lemma qsum_scale c (f : nat -> Qc) l : qsum (map (fun i => f i * c)%Qc l) = (qsum (map f l) * c)%Qc.
Proof. induction l as [|x l IH]; simpl; [ring|]. rewrite IH. ring. Qed.
Lemma qsum_ext (f g : nat -> Qc) l : (forall i, In i l -> f i = g i) -> qsum (map f l) = qsum (map g l).
Proof. intros H. f_equal. now apply map_ext_in. Qed.

Lemma density_integral u xs (e : list Qc) h : strictly_increasing e -> 2 <= length e ->
  fhist u xs (map Fin e) = Ok h -> 0 < list_sum h -> (Z.of_nat (list_sum h) < 2 ^ 31)%Z ->
  exists d : list Qc, fdens u xs (map Fin e) = Ok (map Fin d) /\ length d = length e - 1 /\
    (forall i, S i < length e ->
       nth i d 0%Qc = (qn (nth i h 0%nat) / (qn (list_sum h) * (nth (S i) e 0 - nth i e 0)))%Qc) /\
    qsum (map (fun i => nth i d 0 * (nth (S i) e 0 - nth i e 0))%Qc (seq 0 (length e - 1))) = 1%Qc.
Proof.
  intros Hs Hl E Hpos Hint. pose proof (histogram_length _ _ _ _ E) as Lh. rewrite map_length in Lh.
  assert (HN : qn (list_sum h) <> 0%Qc) by (apply qn_neq0; lia).
  exists (map (fun i => (qn (nth i h 0%nat) / (qn (list_sum h) * (nth (S i) e 0 - nth i e 0)))%Qc) (seq 0 (length e - 1))).
  assert (Hn : forall i, S i < length e -> nth i (map (fun i => (qn (nth i h 0%nat) / (qn (list_sum h) * (nth (S i) e 0 - nth i e 0)))%Qc) (seq 0 (length e - 1))) 0%Qc =
     (qn (nth i h 0%nat) / (qn (list_sum h) * (nth (S i) e 0 - nth i e 0)))%Qc).
  { intros i Hi. apply nth_error_nth. now rewrite nth_error_map_seq by lia. }
  split; [|split; [|split]].
  - unfold fdens, histogram_density. rewrite map_length. destruct (Nat.leb_spec (length e) 1); [lia|].
    unfold fhist in E. rewrite E. cbn [bind]. rewrite diff_edges by (intros ->; simpl in Hl; lia). cbn [bind].
    rewrite transform1_map, map_map. rewrite sum_spec by (intros; lia).
    assert (Esum : bigop Nat.add 0 h = list_sum h) by (clear; induction h as [|x h IH]; simpl; auto).
    rewrite Esum, int32_small by exact Hint.
    destruct (map2_nth (fun c w => fdiv (fofnat c) w) h
      (map (fun x => fmul (fofint (Z.of_nat (list_sum h))) (Fin (nth (S x) e 0 - nth x e 0)%Qc)) (seq 0 (length e - 1)))) as [w [Ew [Lw Hw]]].
    { now rewrite map_length, seq_length. }
    rewrite Ew. f_equal. apply list_eq_nth; [rewrite Lw, !map_length, seq_length; exact Lh|].
    intros i Hi. rewrite Lw, Lh in Hi. rewrite map_map, nth_error_map_seq by exact Hi.
    erewrite Hw; [|rewrite (nth_error_nth' h 0) by lia; reflexivity|now rewrite nth_error_map_seq by exact Hi].
    f_equal. unfold fofint, fofnat. change (fmul (Fin ?a) (Fin ?b)) with (Fin (a * b)%Qc).
    rewrite <- qn_qz. apply fdiv_fin. specialize (Hs i ltac:(lia)).
    intros C. apply Qcmult_integral in C as [C|C]; [contradiction|qc_lra].
  - now rewrite map_length, seq_length.
  - exact Hn.
  - rewrite (qsum_ext _ (fun i => qn (nth i h 0%nat) * / qn (list_sum h))%Qc).
    + rewrite qsum_scale, (qsum_nat (fun i => nth i h 0%nat)).
      assert (Eh : map (fun i => nth i h 0) (seq 0 (length e - 1)) = h).
      { apply list_eq_nth; [now rewrite map_length, seq_length|]. intros i Hi. rewrite map_length, seq_length in Hi.
        rewrite nth_error_map_seq by exact Hi. symmetry. apply nth_error_nth'. lia. }
      rewrite Eh. now apply Qc_mul_inv.
    + intros i Hi. apply in_seq in Hi. rewrite Hn by lia. specialize (Hs i ltac:(lia)). field.
      split; first [exact HN | intros C; qc_lra].
Qed.

(** *** histogram(x, nbins) *)
Lemma flinspace_uniform lo hi n : 1 <= n ->
  linspace fadd fsub fmul fdiv fofnat (Fin lo) (Fin hi) (n + 1) = uniform_edges lo ((hi - lo) / qn n)%Qc (n + 1).
Proof.
  intros Hn. unfold linspace. destruct (n + 1) as [|[|m]] eqn:E; try lia. replace (S (S m) - 1) with n by lia.
  rewrite !transform1_map. unfold iota. rewrite !map_map. unfold uniform_edges. apply map_ext_in. intros i _.
  unfold fofnat. change (fsub (Fin hi) (Fin lo)) with (Fin (hi - lo)%Qc).
  rewrite (fdiv_fin (hi - lo)%Qc (qn n)) by (apply qn_neq0; lia).
  change (Fin (lo + (hi - lo) / qn n * qn i)%Qc = Fin (lo + qn i * ((hi - lo) / qn n))%Qc). f_equal. ring.
Qed.

Lemma histogram_n_total (q : list Qc) nbins : q <> [] -> 1 <= nbins ->
  exists h, fhist_n (map Fin q) nbins = Ok h /\ length h = nbins /\ list_sum h = length q.
Proof.
  intros Hq Hb.
  assert (Hne : map Fin q <> []) by (destruct q; simpl; congruence).
  assert (Hnum : Forall is_num (map Fin q)) by (apply Forall_forall; intros y Hy; apply in_map_iff in Hy as [v [<- _]]; discriminate).
  destruct (amax_amin_ptp (map Fin q) Hne Hnum) as [[Mx Mx2] [[Mn Mn2] _]].
  apply in_map_iff in Mx as [mx [Ex Ix]]. apply in_map_iff in Mn as [mn [En In_]].
  rewrite <- Ex in *. rewrite <- En in *.
  assert (Hle : forall v, In v q -> (mn <= v)%Qc /\ (v <= mx)%Qc).
  { intros v Hv. split.
    - apply qleb_le. rewrite <- fle_fin. apply Mn2. now apply in_map.
    - apply qleb_le. rewrite <- fle_fin. apply Mx2. now apply in_map. }
  assert (Hedges : exists lo hi, outer_edges f0 fadd fsub flt (almost_equal 1) NaN (Fin (Q2Qc (1 # 2))) f1 (map Fin q) = (Fin lo, Fin hi)
            /\ (lo < hi)%Qc /\ (lo <= mn)%Qc /\ (mx <= hi)%Qc).
  { unfold outer_edges. destruct (map Fin q) as [|y r] eqn:Em; [congruence|]. rewrite <- Em in *. rewrite <- Ex, <- En.
    destruct (almost_equal 1 (Fin mn) (Fin mx)) eqn:Ea.
    - exists (mn - Q2Qc (1 # 2))%Qc, (mx + Q2Qc (1 # 2))%Qc. split; [reflexivity|].
      destruct (Hle mn In_) as [_ H1]. repeat split; qc_lra.
    - exists mn, mx. split; [reflexivity|]. destruct (Hle mn In_) as [_ H1].
      repeat split; try qc_lra. destruct (Qcle_lt_or_eq _ _ H1) as [L|L]; [exact L|].
      subst mx. rewrite (proj1 (almost_equal_refl_sym 1 (Fin mn) (Fin mn))) in Ea. discriminate. }
  destruct Hedges as [lo [hi [Eo [Hlt [Hlo Hhi]]]]].
  unfold fhist_n, histogram_n, histogram_bin_edges. rewrite Eo, flinspace_uniform by exact Hb.
  assert (Hs : (0 < (hi - lo) / qn nbins)%Qc).
  { unfold Qcdiv. assert (0 < / qn nbins)%Qc by (apply Qcinv_pos; rewrite <- qn_0, <- qn_lt; lia).
    assert (0 < hi - lo)%Qc by qc_lra. qc_nra. }
  set (s := ((hi - lo) / qn nbins)%Qc) in *.
  destruct (hist_uniform (map Fin q) lo s (nbins + 1) Hs) as [h [E [L H]]]; [lia|].
  exists h. split; [exact E|]. rewrite ue_length in L. split; [lia|].
  rewrite (hist_total h (uniform_edges lo s (nbins + 1)) (map Fin q)); auto; try (rewrite ue_length; lia).
  2: now apply ue_increasing.
  rewrite <- (map_length Fin q). apply count_all. intros x Hx. apply in_map_iff in Hx as [v [<- Hv]].
  destruct (Hle v Hv) as [V1 V2]. unfold counted. rewrite ue_length. rewrite !ue_edge by lia.
  assert (Elast : (lo + qn (nbins + 1 - 1) * s = hi)%Qc).
  { replace (nbins + 1 - 1) with nbins by lia. unfold s. field. apply qn_neq0. lia. }
  rewrite Elast. unfold between, closed_last. rewrite !fle_fin, flt_fin.
  change (qn 0) with 0%Qc. replace (lo + 0 * s)%Qc with lo by ring.
  replace (qleb lo v) with true by (symmetry; apply qleb_le; qc_lra). rewrite andb_true_l.
  destruct (qltb_spec v hi) as [Lt|Ge]; [reflexivity|]. simpl orb.
  assert (v = hi) by (apply Qcle_antisym; qc_lra). subst v.
  replace (qleb hi hi) with true by (symmetry; apply qleb_le; qc_lra). rewrite andb_true_l.
  apply almost_equal_refl_sym. exact (Fin hi).
Qed.

(** *** binary64 *)
(** equal.hpp:29-51 on primitive floats (finite arguments; the NaN/infinity branches included) *)
Definition f64_isinf (x : float) : bool := PrimFloat.eqb (PrimFloat.abs x) infinity.
Definition f64_isnan (x : float) : bool := negb (PrimFloat.eqb x x).
Definition f64_max (a b : float) : float := if PrimFloat.ltb a b then b else a.
Definition f64_almost_equal (a b : float) : bool :=
  let tol := 0x1p-53%float in
  if f64_isnan a && f64_isnan b then true
  else if f64_isinf a && f64_isinf b then Bool.eqb (PrimFloat.ltb a 0) (PrimFloat.ltb b 0)
  else let m := f64_max (PrimFloat.abs a) (PrimFloat.abs b) in
       if PrimFloat.eqb a 0 || PrimFloat.eqb b 0 || PrimFloat.ltb m tol
       then PrimFloat.leb (PrimFloat.abs (PrimFloat.sub a b)) tol
       else PrimFloat.leb (PrimFloat.abs (PrimFloat.sub a b)) (PrimFloat.mul tol m).
(** size_t(pos) for 0 <= pos < 1000 *)
Definition f64_trunc (x : float) : nat := length (List.filter (fun i => PrimFloat.leb (float_of_nat i) x) (seq 1 1000)).
Definition f64_of_Z (z : Z) : float := of_uint63 (Uint63.of_Z z).
Definition hist_f64 := histogram 0%float PrimFloat.sub PrimFloat.div PrimFloat.ltb PrimFloat.leb f64_almost_equal float_of_nat f64_trunc.
Definition hist_n_f64 := histogram_n 0%float PrimFloat.add PrimFloat.sub PrimFloat.mul PrimFloat.div PrimFloat.ltb PrimFloat.leb
  f64_almost_equal float_of_nat f64_trunc nan 0.5%float 1%float.
Definition edges_f64 := histogram_bin_edges 0%float PrimFloat.add PrimFloat.sub PrimFloat.mul PrimFloat.div PrimFloat.ltb
  f64_almost_equal float_of_nat nan 0.5%float 1%float.
Lemma hist_n_f64_loses : exists xs nbins h, hist_n_f64 xs nbins = Ok h /\ list_sum h < length xs /\
  xs = [(-6)%float; 9%float] /\ nbins = 11.
Proof.
  exists [(-6)%float; 9%float], 11. eexists. split; [vm_compute; reflexivity|].
  split; [vm_compute; lia|]. split; reflexivity.
Qed.
Lemma hist_f64_disagree : exists xs b, b = linspace_f64 0 7 6 /\ hist_f64 true xs b <> hist_f64 false xs b /\
  exists h1 h2, hist_f64 true xs b = Ok h1 /\ hist_f64 false xs b = Ok h2.
Proof.
  exists [nth 3 (linspace_f64 0 7 6) nan], (linspace_f64 0 7 6). split; [reflexivity|]. split.
  - vm_compute. discriminate.
  - do 2 eexists. split; vm_compute; reflexivity.
Qed.

(** int(sum(hist)) overflows from 2^31 elements on *)
Lemma density_one_bin N : 1 <= N ->
  fdens false (repeat (Fin (Q2Qc (1 # 2))) N) [f0; f1] = Ok [fdiv (Fin (qn N)) (fmul (Fin (qz (int32 N))) f1)].
Proof.
  intros HN. set (xs := repeat (Fin (Q2Qc (1 # 2))) N).
  assert (Hinc : increasing [f0; f1]).
  { intros i j Hij Hj. simpl in Hj. destruct i as [|[|i]], j as [|[|j]]; try lia; vm_compute; reflexivity. }
  destruct (hist_general xs [f0; f1] Hinc) as [h [E [L H]]]; [simpl; lia|].
  assert (Eh : h = [N]).
  { apply list_eq_nth; [rewrite L; reflexivity|]. intros i Hi. rewrite L in Hi. simpl in Hi. destruct i; [|lia].
    rewrite H by (simpl; lia). simpl nth_error. f_equal. rewrite count_all; [apply repeat_length|].
    intros x Hx. apply repeat_spec in Hx. subst x. vm_compute. reflexivity. }
  subst h. unfold fdens, histogram_density. simpl (length [f0; f1] <=? 1). cbv iota. unfold fhist in E. rewrite E. cbn [bind].
  assert (Ed : diff fsub [f0; f1] 1 = Ok [f1]).
  { change [f0; f1] with (map Fin [0%Qc; 1%Qc]). rewrite diff_edges by discriminate.
    cbn [length Nat.sub seq map nth]. unfold f1. apply f_equal. apply f_equal2; [|reflexivity]. apply f_equal. ring. }
  rewrite Ed. cbn [bind]. rewrite sum_spec by (intros; lia). simpl bigop. rewrite Nat.add_0_r. reflexivity.
Qed.
Lemma density_int_overflow_z z : (0 < z)%Z -> ((z + 2 ^ 31) mod 2 ^ 32 - 2 ^ 31 = - z)%Z -> exists N, 1 <= N /\
  fdens false (repeat (Fin (Q2Qc (1 # 2))) N) [f0; f1] = Ok [Fin (qz (-1))].
Proof.
  intros Hz Hm. exists (Z.to_nat z). split; [lia|].
  assert (E0 : fdiv (Fin (qn (Z.to_nat z))) (fmul (Fin (qz (int32 (Z.to_nat z)))) f1) = Fin (qz (-1))).
  { rewrite qn_qz. unfold int32. rewrite Z2Nat.id by lia. rewrite Hm.
    change (fmul (Fin (qz (- z))) f1) with (Fin (qz (- z) * 1)%Qc). rewrite fdiv_fin.
    - f_equal. rewrite qz_opp. change (qz (-1)) with (- (1))%Qc. field. intros C.
      assert (C2 : qz z = qz 0) by (change (qz 0) with 0%Qc; qc_lra). apply (proj1 (qz_inj _ _)) in C2. lia.
    - rewrite qz_opp. intros C. assert (C2 : qz z = qz 0) by (change (qz 0) with 0%Qc; qc_lra).
      apply (proj1 (qz_inj _ _)) in C2. lia. }
  rewrite density_one_bin by lia. rewrite E0. reflexivity.
Qed.
Lemma density_int_overflow : exists N, 1 <= N /\
  fdens false (repeat (Fin (Q2Qc (1 # 2))) N) [f0; f1] = Ok [Fin (qz (-1))].
Proof. apply (density_int_overflow_z (2 ^ 31)); vm_compute; reflexivity. Qed.
Lemma density_repeated_edge : exists xs b d, increasing b /\ fdens false xs b = Ok d /\ In NaN d /\ In f1 xs /\
  fhist false xs b = Ok [1; 0].
Proof.
  exists [f1], [f1; Fin (qz 2); Fin (qz 2)]. eexists. split; [|split; [vm_compute; reflexivity|]].
  - intros i j Hij Hj. simpl in Hj. destruct i as [|[|[|i]]], j as [|[|[|j]]]; try lia; vm_compute; reflexivity.
  - split; [|split; [now left|vm_compute; reflexivity]]. vm_compute. right. left. reflexivity.
Qed.
Lemma density_nothing_in_range : exists xs b, increasing b /\ fdens false xs b = Ok [NaN].
Proof.
  exists [Fin (qz 5)], [f0; f1]. split; [|vm_compute; reflexivity].
  intros i j Hij Hj. simpl in Hj. destruct i as [|[|i]], j as [|[|j]]; try lia; vm_compute; reflexivity.
Qed.
