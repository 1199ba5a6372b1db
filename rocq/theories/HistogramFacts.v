(** Proofs about the histogram model. *)
From Coq Require Import ZArith Permutation Sorted.
From Coq Require Import Floats.
From Verif Require Import Base Functional FunctionalProofs Spec Numeric NumericProofs BaseFl FlFacts Equal EqualFacts RangeManips RangeFacts
  Stats StatsOrder StatsVar Histogram.
From Coq Require Import Lqa.
Open Scope nat_scope.

Definition count {A} (p : A -> bool) (l : list A) : nat := length (List.filter p l).

(** *** A loop whose iterations each bump one slot *)
Definition bump (h : list nat) (o : option nat) : list nat :=
  match o with None => h | Some i => upd h i (S (nth i h 0)) end.
Lemma nat_upd_length (h : list nat) i x : length (upd h i x) = length h.
Proof. revert i; induction h as [|y h IH]; intros [|i]; simpl; auto. Qed.
Lemma upd_nth (h : list nat) i j x : i < length h -> nth j (upd h i x) 0 = if j =? i then x else nth j h 0.
Proof.
  revert i j; induction h as [|y h IH]; intros [|i] [|j] H; simpl in *; try lia; auto.
  apply IH. lia.
Qed.
Lemma bump_length h o : length (bump h o) = length h.
Proof. destruct o; simpl; [apply nat_upd_length|reflexivity]. Qed.
Lemma incr_bump h i : i < length h -> incr h i = Ok (bump h (Some i)).
Proof.
  intros H. unfold incr, at_ub, set_ub. destruct (nth_error h i) as [c|] eqn:E.
  - simpl. destruct (Nat.ltb_spec i (length h)); [|lia]. now rewrite (nth_error_nth _ _ 0 E).
  - apply nth_error_None in E. lia.
Qed.
Lemma incr_back_bump h : h <> [] -> incr_back h = Ok (bump h (Some (length h - 1))).
Proof. intros H. unfold incr_back. destruct h as [|x h]; [congruence|]. apply incr_bump. simpl; lia. Qed.

Definition oeqb (o : option nat) (i : nat) : bool := match o with Some j => j =? i | None => false end.
Lemma loop_bump {T} (f : list nat -> T -> outcome (list nat)) (bucket : T -> option nat) n xs :
  (forall h x, In x xs -> length h = n -> f h x = Ok (bump h (bucket x))) ->
  (forall x i, In x xs -> bucket x = Some i -> i < n) ->
  forall h, length h = n ->
  exists h', loop f xs h = Ok h' /\ length h' = n /\
    forall i, i < n -> nth i h' 0 = nth i h 0 + count (fun x => oeqb (bucket x) i) xs.
Proof.
  induction xs as [|x xs IH]; intros Hf Hb h Hn; simpl.
  - exists h. repeat split; auto.
  - rewrite (Hf h x) by (auto; now left). simpl.
    destruct (IH (fun h y Hy => Hf h y (or_intror Hy)) (fun y i Hy => Hb y i (or_intror Hy)) (bump h (bucket x))) as [h' [E1 [E2 E3]]].
    { now rewrite bump_length. }
    exists h'. split; [exact E1|split; [exact E2|]]. intros i Hi. rewrite E3 by exact Hi. unfold count. simpl.
    destruct (bucket x) as [j|] eqn:Ej; simpl.
    + pose proof (Hb x j (or_introl eq_refl) Ej). rewrite upd_nth by lia. rewrite (Nat.eqb_sym j i).
      destruct (i =? j) eqn:E; simpl; [apply Nat.eqb_eq in E; subst; lia|lia].
    + lia.
Qed.

(** *** binary search *)
Section Search.
Context {T : Type} (ltb : T -> T -> bool) (b : list T) (v d : T).
(** the elements greater than [v] form a suffix *)
Definition partitioned := forall i j, i <= j -> j < length b -> ltb v (nth i b d) = true -> ltb v (nth j b d) = true.
Lemma upper_bound_loop_spec : partitioned -> forall fuel first len, len <= fuel -> first + len <= length b ->
  (forall i, i < first -> ltb v (nth i b d) = false) ->
  (forall i, first + len <= i -> i < length b -> ltb v (nth i b d) = true) ->
  exists k, upper_bound_loop ltb fuel b first len v = Ok k /\ k <= length b /\
    (forall i, i < k -> ltb v (nth i b d) = false) /\
    (forall i, k <= i -> i < length b -> ltb v (nth i b d) = true).
Proof.
  intros HP. induction fuel as [|k IH]; intros first len Hl Hb H1 H2; cbn [upper_bound_loop].
  - exists first. repeat split; auto; try lia. intros i Hi. apply H2. lia.
  - destruct (Nat.eqb_spec len 0) as [->|Hne].
    + exists first. repeat split; auto; try lia. intros i Hi. apply H2. lia.
    + assert (Hh : len / 2 < len) by (apply Nat.div_lt; lia).
      unfold at_ub. destruct (nth_error b (first + len / 2)) as [m|] eqn:Em; [|apply nth_error_None in Em; lia].
      cbn [bind]. pose proof (nth_error_nth _ _ d Em) as En.
      destruct (ltb v m) eqn:Ev.
      * apply IH; try lia; auto. intros i Hi Hi2. apply (HP (first + len / 2) i Hi Hi2). now rewrite En.
      * apply IH; try lia.
        { intros i Hi. destruct (ltb v (nth i b d)) eqn:E; [|reflexivity].
          rewrite <- En in Ev. rewrite <- Ev. symmetry. apply (HP i); auto; lia. }
        { intros i Hi Hi2. apply H2; lia. }
Qed.
Lemma upper_bound_spec : partitioned ->
  exists k, upper_bound ltb b v = Ok k /\ k <= length b /\
    (forall i, i < k -> ltb v (nth i b d) = false) /\
    (forall i, k <= i -> i < length b -> ltb v (nth i b d) = true).
Proof. intros HP. unfold upper_bound. apply upper_bound_loop_spec; auto; intros; lia. Qed.
End Search.

(** *** sorted edges *)
Definition edge (b : list fl) (i : nat) : fl := nth i b NaN.
Definition increasing (b : list fl) : Prop :=
  forall i j, i <= j -> j < length b -> fle (edge b i) (edge b j) = true.

Lemma fle_trans_lt x y z : flt x y = true -> fle y z = true -> flt x z = true.
Proof.
  unfold fle. intros H1 H2. apply orb_true_iff in H2 as [H2|H2].
  - destruct (flt_not_nan _ _ H1) as [A B], (flt_not_nan _ _ H2) as [_ C]. apply (swo_trans flt_swo) with y; auto.
  - destruct x, y, z; simpl in *; try discriminate; auto. apply qeqb_eq in H2. now subst.
Qed.
Lemma flt_fle x y : flt x y = true -> fle x y = true.
Proof. unfold fle. now intros ->. Qed.
Lemma fle_refl_num x : is_num x -> fle x x = true.
Proof.
  unfold is_num. intros H. rewrite fle_negb_lt by exact H. now rewrite (swo_irrefl flt_swo).
Qed.
Lemma fle_trans_num x y z : fle x y = true -> fle y z = true -> fle x z = true.
Proof.
  intros H1 H2. unfold fle in H1. apply orb_true_iff in H1 as [H1|H1].
  - apply flt_fle. now apply fle_trans_lt with y.
  - destruct x, y, z; simpl in *; try discriminate; auto. apply qeqb_eq in H1. now subst.
Qed.

Lemma is_sorted_increasing b : increasing b -> is_sorted flt b = true.
Proof.
  intros H. assert (G : forall i, S i < length b -> flt (nth (S i) b NaN) (nth i b NaN) = false).
  { intros i Hi. pose proof (H i (S i) (Nat.le_succ_diag_r i) Hi) as E. unfold edge in E.
    rewrite fle_negb_lt in E.
    - now destruct (flt _ _).
    - intros C. rewrite C in E. simpl in E. discriminate.
    - intros C. rewrite C in E. destruct (nth i b NaN); discriminate. }
  clear H. induction b as [|x [|y r] IH]; try reflexivity.
  change (negb (flt y x) && is_sorted flt (y :: r) = true). assert (G0 : flt y x = false) by (apply (G 0); simpl; lia). rewrite G0.
  apply IH. intros i Hi. apply (G (S i)). simpl in Hi |- *. lia.
Qed.
Lemma increasing_num b : increasing b -> 2 <= length b -> forall i, i < length b -> is_num (edge b i).
Proof. intros H _ i Hi C. pose proof (H i i (le_n i) Hi) as E. rewrite C in E. discriminate. Qed.

(** *** the bucket of an element (general bins) *)
Definition closed_last (x last : fl) : bool := fle last x && almost_equal 1 x last.
(** [x] is counted in bin [i]: e_i <= x < e_{i+1}, or i is the last bin and x is at (or within half an epsilon above) the last edge *)
Definition in_bin (b : list fl) (i : nat) (x : fl) : bool :=
  fle (edge b i) x && flt x (edge b (S i))
  || (S (S i) =? length b) && closed_last x (edge b (S i)).

Lemma aeq_nan_num e : is_num e -> almost_equal 1 NaN e = false.
Proof. intros H. destruct e; try reflexivity; try (exfalso; now apply H). unfold almost_equal, fp_equal_predicate. simpl.
  now destruct (_ || _). Qed.

Lemma step_general_bucket b x : increasing b -> 2 <= length b ->
  exists o, (forall h, length h = length b - 1 -> step_general flt (almost_equal 1) b h x = Ok (bump h o)) /\
    (forall i, i < length b - 1 -> oeqb o i = in_bin b i x) /\ (forall i, o = Some i -> i < length b - 1).
Proof.
  intros Hs Hl.
  assert (HP : partitioned flt b x NaN).
  { intros i j Hij Hj H. apply fle_trans_lt with (nth i b NaN); auto. apply Hs; lia. }
  destruct (upper_bound_spec flt b x NaN HP) as [k [E [Hk [K1 K2]]]].
  assert (Hnum : forall i, i < length b -> is_num (nth i b NaN)) by (intros; now apply (increasing_num b)).
  assert (Hback : back_ub b = Ok (nth (length b - 1) b NaN)).
  { unfold back_ub, at_ub. destruct b as [|y r]; [simpl in Hl; lia|].
    destruct (nth_error (y :: r) (length (y :: r) - 1)) eqn:En; [now rewrite (nth_error_nth _ _ NaN En)|].
    apply nth_error_None in En. simpl in *; lia. }
  unfold step_general.
  destruct (Nat.eqb_spec k (length b)) as [Ek|Ek].
  - exists (if almost_equal 1 x (nth (length b - 1) b NaN) then Some (length b - 2) else None). split; [|split].
    + intros h Hh. rewrite E. cbn [bind]. rewrite Hback. destruct (Nat.eqb_spec k (length b)); [|lia]. cbn [bind].
      destruct (almost_equal _ _ _); [|reflexivity]. rewrite incr_back_bump by (intros ->; simpl in Hh; lia).
      now rewrite Hh, <- Nat.sub_add_distr.
    + intros i Hi. unfold in_bin, edge. rewrite (K1 (S i)) by lia. rewrite andb_false_r, orb_false_l.
      destruct (Nat.eqb_spec (S (S i)) (length b)) as [El|El].
      * replace (length b - 1) with (S i) by lia. unfold closed_last.
        destruct (almost_equal 1 x (nth (S i) b NaN)) eqn:Ea.
        -- cbn [oeqb]. replace (length b - 2) with i by lia. rewrite Nat.eqb_refl, andb_true_l, andb_true_r. symmetry.
           assert (Hx : is_num x).
           { intros ->. rewrite aeq_nan_num in Ea by (apply Hnum; lia). discriminate. }
           rewrite fle_negb_lt by (auto; apply Hnum; lia). now rewrite (K1 (S i)) by lia.
        -- simpl. now rewrite andb_false_r.
      * destruct (almost_equal _ _ _); simpl; [|reflexivity]. apply Nat.eqb_neq. lia.
    + intros i. destruct (almost_equal _ _ _); [|discriminate]. injection 1. lia.
  - exists (match k with 0 => None | S p => Some p end). split; [|split].
    + intros h Hh. rewrite E. cbn [bind]. destruct (Nat.eqb_spec k (length b)); [lia|].
      destruct k as [|p]; [reflexivity|].
      replace (0 <=? Z.of_nat (S p) - 1)%Z with true by (symmetry; apply Z.leb_le; lia).
      replace (Z.to_nat (Z.of_nat (S p) - 1)) with p by lia. apply incr_bump. lia.
    + intros i Hi. assert (Hx : flt x (nth k b NaN) = true) by (apply K2; lia).
      destruct (flt_not_nan _ _ Hx) as [Nx _]. unfold in_bin, edge.
      assert (EC : (S (S i) =? length b) && closed_last x (nth (S i) b NaN) = false).
      { destruct (Nat.eqb_spec (S (S i)) (length b)) as [El|_]; [|reflexivity]. simpl. unfold closed_last.
        rewrite fle_negb_lt by (auto; apply Hnum; lia). rewrite (K2 (S i)) by lia. reflexivity. }
      rewrite EC, orb_false_r. rewrite fle_negb_lt by (auto; apply Hnum; lia).
      destruct k as [|p]; simpl.
      * rewrite (K2 i) by lia. reflexivity.
      * destruct (Nat.eqb_spec p i) as [->|Hpi].
        -- rewrite (K1 i) by lia. rewrite (K2 (S i)) by lia. reflexivity.
        -- destruct (Nat.lt_ge_cases i p) as [L|L].
           ++ rewrite (K1 i), (K1 (S i)) by lia. reflexivity.
           ++ rewrite (K2 i) by lia. reflexivity.
    + intros i. destruct k; [discriminate|]. injection 1. lia.
Qed.

Lemma choice_list {A B} (R : A -> B -> Prop) (dflt : B) (xs : list A) (dec : forall x y : A, {x = y} + {x <> y}) :
  (forall x, exists o, R x o) -> exists f, forall x, In x xs -> R x (f x).
Proof.
  intros H. induction xs as [|x xs [f Hf]].
  - exists (fun _ => dflt). intros x [].
  - destruct (H x) as [o Ho]. exists (fun y => if dec y x then o else f y).
    intros y Hy. destruct (dec y x) as [->|N]; [exact Ho|]. destruct Hy as [E|Hy]; [now symmetry in E|]. now apply Hf.
Qed.
Lemma fl_dec (x y : fl) : {x = y} + {x <> y}.
Proof. decide equality. apply Qc_eq_dec. Qed.

Lemma count_ext_in {A} (p q : A -> bool) l : (forall x, In x l -> p x = q x) -> count p l = count q l.
Proof.
  unfold count. induction l as [|x l IH]; intros H; [reflexivity|]. simpl. rewrite (H x) by (now left).
  destruct (q x); simpl; rewrite IH; auto; intros; apply H; now right.
Qed.
Lemma nth_repeat0 n i : nth i (repeat 0 n) 0 = 0.
Proof. revert i; induction n; intros [|i]; simpl; auto. Qed.

Lemma loop_from_buckets b xs (f : list nat -> fl -> outcome (list nat)) :
  (forall x, exists o, (forall h, length h = length b - 1 -> f h x = Ok (bump h o)) /\
    (forall i, i < length b - 1 -> oeqb o i = in_bin b i x) /\ (forall i, o = Some i -> i < length b - 1)) ->
  exists h, loop f xs (repeat 0 (length b - 1)) = Ok h /\ length h = length b - 1 /\
    forall i, S i < length b -> nth_error h i = Some (count (in_bin b i) xs).
Proof.
  intros H. destruct (choice_list _ None xs fl_dec H) as [bk Hbk].
  destruct (loop_bump f bk (length b - 1) xs) with (h := repeat 0 (length b - 1)) as [h [E1 [E2 E3]]].
  - intros h x Hx Hh. now apply Hbk.
  - intros x i Hx Ei. now apply (Hbk x Hx).
  - apply repeat_length.
  - exists h. repeat split; auto. intros i Hi. rewrite (nth_error_nth' h 0) by lia. f_equal.
    rewrite E3 by lia. rewrite nth_repeat0. apply count_ext_in. intros x Hx. apply (Hbk x Hx). lia.
Qed.

Lemma hist_general xs b : increasing b -> 2 <= length b ->
  exists h, fhist false xs b = Ok h /\ length h = length b - 1 /\
    forall i, S i < length b -> nth_error h i = Some (count (in_bin b i) xs).
Proof.
  intros Hs Hl. unfold fhist, histogram. destruct (Nat.leb_spec (length b) 1); [lia|].
  unfold require. rewrite is_sorted_increasing by exact Hs.
  apply loop_from_buckets. intros x. now apply step_general_bucket.
Qed.

(** *** uniform bins *)
Definition uniform_edges (b0 step : Qc) (n : nat) : list fl := map (fun i => Fin (b0 + qn i * step)%Qc) (seq 0 n).
Lemma ue_length b0 s n : length (uniform_edges b0 s n) = n.
Proof. unfold uniform_edges. now rewrite map_length, seq_length. Qed.
Lemma ue_edge b0 s n i : i < n -> edge (uniform_edges b0 s n) i = Fin (b0 + qn i * s)%Qc.
Proof. intros H. unfold edge. apply nth_error_nth. unfold uniform_edges. now rewrite nth_error_map_seq. Qed.
Lemma fle_fin x y : fle (Fin x) (Fin y) = qleb x y.
Proof.
  unfold fle. simpl. destruct (qltb_spec x y), (qeqb_spec x y), (qleb_spec x y); auto; simpl; exfalso; subst; try qc_lra.
Qed.
Lemma ue_increasing b0 s n : (0 < s)%Qc -> increasing (uniform_edges b0 s n).
Proof.
  intros Hs i j Hij Hj. rewrite ue_length in Hj. rewrite !ue_edge by lia. rewrite fle_fin. apply qleb_le.
  apply qn_le in Hij. qc_nra.
Qed.
Lemma qltb_false x y : qltb x y = false <-> (y <= x)%Qc.
Proof. destruct (qltb_spec x y); split; intros; try discriminate; try reflexivity; first [qc_lra | exfalso; qc_lra]. Qed.
Lemma qleb_false x y : qleb x y = false <-> (y < x)%Qc.
Proof. destruct (qleb_spec x y); split; intros; try discriminate; try reflexivity; first [qc_lra | exfalso; qc_lra]. Qed.
Lemma bool_eq_iff b c : (b = true <-> c = true) -> b = c.
Proof. destruct b, c; intuition congruence. Qed.
Lemma pos_le s b0 q (i : nat) : (0 < s)%Qc -> (qn i <= (q - b0) / s)%Qc <-> (b0 + qn i * s <= q)%Qc.
Proof.
  intros Hs. assert (Hn : s <> 0%Qc) by (intros ->; qc_lra).
  assert (E : (q = b0 + (q - b0) / s * s)%Qc) by (field; exact Hn).
  set (p := ((q - b0) / s)%Qc) in *. clearbody p. split; intros H.
  - rewrite E. qc_nra.
  - rewrite E in H. destruct (Qclt_le_dec p (qn i)) as [L|L]; [exfalso; qc_nra|exact L].
Qed.
Lemma pos_lt s b0 q (i : nat) : (0 < s)%Qc -> ((q - b0) / s < qn i)%Qc <-> (q < b0 + qn i * s)%Qc.
Proof.
  intros Hs. pose proof (pos_le s b0 q i Hs) as [A B]. split; intros H.
  - destruct (Qclt_le_dec q (b0 + qn i * s)) as [L|L]; [exact L|]. apply B in L. exfalso; qc_lra.
  - destruct (Qclt_le_dec ((q - b0) / s) (qn i)) as [L|L]; [exact L|]. apply A in L. exfalso; qc_lra.
Qed.
Lemma qtrunc_spec p : (0 <= p)%Qc -> (qn (qtrunc p) <= p)%Qc /\ (p < qn (S (qtrunc p)))%Qc.
Proof.
  intros H. unfold qtrunc. destruct (qfloor_spec p) as [A B]. rewrite qn_S, qn_qz, Z2Nat.id by (now apply qfloor_nonneg).
  split; assumption.
Qed.

Lemma back_ub_edge b : b <> [] -> back_ub b = Ok (edge b (length b - 1)).
Proof.
  intros H. unfold back_ub, at_ub, edge. destruct b as [|y r]; [congruence|].
  destruct (nth_error (y :: r) (length (y :: r) - 1)) eqn:En; [now rewrite (nth_error_nth _ _ NaN En)|].
  apply nth_error_None in En. simpl in *; lia.
Qed.
Lemma ue_0 b0 s n : 1 <= n -> at_ub (uniform_edges b0 s n) 0 = Ok (Fin b0).
Proof.
  intros H. unfold at_ub, uniform_edges. rewrite nth_error_map_seq by lia. do 2 f_equal.
  change (qn 0) with 0%Qc. ring.
Qed.

Lemma step_uniform_bucket b0 s n x : (0 < s)%Qc -> 2 <= n -> let b := uniform_edges b0 s n in
  exists o, (forall h, length h = length b - 1 ->
      step_uniform f0 fsub fdiv fle (almost_equal 1) fofnat ftrunc b (Fin s) h x = Ok (bump h o)) /\
    (forall i, i < length b - 1 -> oeqb o i = in_bin b i x) /\ (forall i, o = Some i -> i < length b - 1).
Proof.
  intros Hs Hn b. assert (Hlen : length b = n) by apply ue_length.
  assert (Hsn : s <> 0%Qc) by (intros ->; qc_lra).
  assert (Hlast : back_ub b = Ok (Fin (b0 + qn (n - 1) * s)%Qc)).
  { rewrite back_ub_edge by (intros E; rewrite E in Hlen; simpl in Hlen; lia). rewrite Hlen. unfold b. now rewrite ue_edge by lia. }
  assert (H0 : at_ub b 0 = Ok (Fin b0)) by (apply ue_0; lia).
  assert (Hdiv : forall y, fdiv y (Fin s) = match y with Fin q => Fin (q / s)%Qc | o => o end).
  { intros [y| | |]; simpl; try reflexivity.
    - destruct (qeqb_spec s 0); [congruence|reflexivity].
    - destruct (qltb_spec s 0); [exfalso; qc_lra|reflexivity].
    - destruct (qltb_spec s 0); [exfalso; qc_lra|reflexivity]. }
  unfold step_uniform. rewrite Hlen.
  set (last := (b0 + qn (n - 1) * s)%Qc) in *.
  assert (Hcl : forall i, i < n - 1 -> (S (S i) =? length b) && closed_last x (edge b (S i)) =
                (S (S i) =? n) && closed_last x (Fin last)).
  { intros i Hi. rewrite Hlen. destruct (Nat.eqb_spec (S (S i)) n) as [E|]; [|reflexivity].
    unfold b. rewrite ue_edge by lia. unfold last. now replace (n - 1) with (S i) by lia. }
  (* elements beyond the last edge *)
  assert (Hover : forall x', x = x' -> (forall h : list nat, length h = n - 1 -> fle (fofnat (length h)) (fdiv (fsub x' (Fin b0)) (Fin s)) = true) ->
     fle (Fin last) x' = true -> (forall i, i < n -> flt x' (edge b i) = false) ->
     exists o, (forall h : list nat, length h = n - 1 ->
      (do first <- at_ub b 0;
       let pos := fdiv (fsub x first) (Fin s) in
       if fle (fofnat (length h)) pos
       then do last <- back_ub b; if almost_equal 1 x last then incr_back h else Ok h
       else if fle f0 pos then incr h (ftrunc pos) else Ok h) = Ok (bump h o)) /\
      (forall i, i < n - 1 -> oeqb o i = in_bin b i x) /\ (forall i, o = Some i -> i < n - 1)).
  { intros x' -> Hp Hle Hlt. exists (if almost_equal 1 x' (Fin last) then Some (n - 2) else None). split; [|split].
    - intros h Hh. rewrite H0. cbn [bind]. cbv zeta. rewrite Hp by exact Hh. rewrite Hlast. cbn [bind].
      destruct (almost_equal 1 x' (Fin last)); [|reflexivity].
      rewrite incr_back_bump by (intros ->; simpl in Hh; lia). do 3 f_equal. lia.
    - intros i Hi. unfold in_bin. rewrite (Hlt (S i)) by lia. rewrite andb_false_r, orb_false_l, Hcl by exact Hi.
      unfold closed_last. rewrite Hle, andb_true_l. destruct (almost_equal 1 x' (Fin last)); cbn [oeqb].
      + rewrite andb_true_r. apply bool_eq_iff. rewrite !Nat.eqb_eq. lia.
      + now rewrite andb_false_r.
    - intros i. destruct (almost_equal _ _ _); [|discriminate]. injection 1; lia. }
  destruct x as [q| | |].
  - destruct (Qclt_le_dec ((q - b0) / s) (qn (n - 1))) as [Hp|Hp].
    + destruct (Qclt_le_dec ((q - b0) / s) 0) as [Hneg|Hpos].
      * exists None. split; [|split; [|discriminate]].
        -- intros h Hh. rewrite H0. cbn [bind]. cbv zeta. rewrite Hdiv. change (fsub (Fin q) (Fin b0)) with (Fin (q - b0)%Qc). cbv iota.
           rewrite Hh. unfold fofnat. rewrite fle_fin. rewrite (proj2 (qleb_false _ _)) by exact Hp.
           unfold f0. rewrite fle_fin. rewrite (proj2 (qleb_false _ _)) by exact Hneg. reflexivity.
        -- intros i Hi. simpl oeqb. unfold in_bin. rewrite Hcl by exact Hi. unfold b. rewrite !ue_edge by lia.
           unfold closed_last. rewrite !fle_fin.
           assert (Hq : (q < b0)%Qc).
           { pose proof (proj1 (pos_lt s b0 q 0 Hs)) as G. change (qn 0) with 0%Qc in G. specialize (G Hneg). qc_lra. }
           rewrite !(proj2 (qleb_false _ _)).
           ++ now rewrite andb_false_r.
           ++ unfold last. pose proof (qn_nonneg (n - 1)). qc_nra.
           ++ pose proof (qn_nonneg i). qc_nra.
      * destruct (qtrunc_spec _ Hpos) as [T1 T2]. exists (Some (qtrunc ((q - b0) / s))).
        assert (Hj : qtrunc ((q - b0) / s) < n - 1) by (apply qn_lt; eapply Qcle_lt_trans; [exact T1|exact Hp]).
        split; [|split].
        -- intros h Hh. rewrite H0. cbn [bind]. cbv zeta. rewrite Hdiv. change (fsub (Fin q) (Fin b0)) with (Fin (q - b0)%Qc). cbv iota.
           rewrite Hh. unfold fofnat. rewrite fle_fin. rewrite (proj2 (qleb_false _ _)) by exact Hp.
           unfold f0. rewrite fle_fin. rewrite (proj2 (qleb_le _ _)) by exact Hpos. unfold ftrunc. apply incr_bump. lia.
        -- intros i Hi. cbn [oeqb]. unfold in_bin. rewrite Hcl by exact Hi. unfold b. rewrite !ue_edge by lia.
           unfold closed_last. rewrite !fle_fin, flt_fin.
           assert (Hl : qleb last q = false) by (apply qleb_false; unfold last; now apply pos_lt).
           rewrite Hl, andb_false_l, andb_false_r, orb_false_r. apply bool_eq_iff.
           rewrite andb_true_iff, qleb_le, qltb_lt, Nat.eqb_eq. rewrite <- pos_le, <- pos_lt by exact Hs.
           split.
           ++ intros <-. split; assumption.
           ++ intros [A B].
              assert (U1 : qtrunc ((q - b0) / s) < S i) by (apply qn_lt; eapply Qcle_lt_trans; [exact T1|exact B]).
              assert (U2 : i < S (qtrunc ((q - b0) / s))) by (apply qn_lt; eapply Qcle_lt_trans; [exact A|exact T2]). lia.
        -- injection 1; lia.
    + apply Hover with (Fin q); auto.
      * intros h Hh. rewrite Hdiv. change (fsub (Fin q) (Fin b0)) with (Fin (q - b0)%Qc). cbv iota. unfold fofnat. rewrite fle_fin, Hh.
        now apply qleb_le.
      * rewrite fle_fin. apply qleb_le. unfold last. now apply pos_le.
      * intros i Hi. unfold b. rewrite ue_edge by lia. rewrite flt_fin. apply qltb_false. apply pos_le; [exact Hs|].
        eapply Qcle_trans; [|exact Hp]. apply qn_le. lia.
  - apply Hover with PInf; auto.
    + intros h Hh. now rewrite Hdiv.
    + intros i Hi. unfold b. rewrite ue_edge by lia. reflexivity.
  - exists None. split; [|split; [|discriminate]].
    + intros h Hh. rewrite H0. cbn [bind]. cbv zeta. rewrite Hdiv. simpl. reflexivity.
    + intros i Hi. simpl oeqb. unfold in_bin. rewrite Hcl by exact Hi. unfold b. rewrite !ue_edge by lia. simpl.
      now rewrite andb_false_r.
  - exists None. split; [|split; [|discriminate]].
    + intros h Hh. rewrite H0. cbn [bind]. cbv zeta. rewrite Hdiv. simpl. reflexivity.
    + intros i Hi. simpl oeqb. unfold in_bin. rewrite Hcl by exact Hi. unfold b. rewrite !ue_edge by lia. simpl.
      now rewrite andb_false_r.
Qed.

Lemma hist_uniform xs b0 s n : (0 < s)%Qc -> 2 <= n -> let b := uniform_edges b0 s n in
  exists h, fhist true xs b = Ok h /\ length h = length b - 1 /\
    forall i, S i < length b -> nth_error h i = Some (count (in_bin b i) xs).
Proof.
  intros Hs Hn b. pose proof (ue_length b0 s n) as Hlen. fold b in Hlen.
  unfold fhist, histogram. destruct (Nat.leb_spec (length b) 1); [lia|].
  unfold require. rewrite is_sorted_increasing by (now apply ue_increasing).
  unfold b at 1. rewrite ue_0 by lia. cbn [bind].
  assert (H1 : at_ub b 1 = Ok (Fin (b0 + s)%Qc)).
  { unfold at_ub, b, uniform_edges. rewrite nth_error_map_seq by lia. do 2 f_equal. change (qn 1) with 1%Qc. ring. }
  rewrite H1. cbn [bind]. replace (fsub (Fin (b0 + s)%Qc) (Fin b0)) with (Fin s) by (simpl; f_equal; ring).
  cbv zeta. replace (flt f0 (Fin s)) with true by (symmetry; apply qltb_lt; exact Hs).
  apply loop_from_buckets. intros x. now apply step_uniform_bucket.
Qed.
Lemma list_eq_nth {A} (u v : list A) : length u = length v -> (forall i, i < length u -> nth_error u i = nth_error v i) -> u = v.
Proof.
  revert v; induction u as [|x u IH]; intros [|y v] H H0; simpl in *; try lia; auto.
  f_equal; [pose proof (H0 0 ltac:(lia)); now injection H1|]. apply IH; [lia|]. intros i Hi. apply (H0 (S i)). lia.
Qed.
Lemma hist_uniform_general xs b0 s n : (0 < s)%Qc -> 2 <= n ->
  fhist true xs (uniform_edges b0 s n) = fhist false xs (uniform_edges b0 s n).
Proof.
  intros Hs Hn. destruct (hist_uniform xs b0 s n Hs Hn) as [h [E [L H]]].
  destruct (hist_general xs (uniform_edges b0 s n)) as [h' [E' [L' H']]].
  - now apply ue_increasing.
  - rewrite ue_length. exact Hn.
  - rewrite E, E'. f_equal. rewrite ue_length in *. apply list_eq_nth; [lia|]. intros i Hi. rewrite H, H' by lia. reflexivity.
Qed.
