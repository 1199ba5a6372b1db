(** Order statistics: proofs about the first half of Stats.v *)
From Coq Require Import ZArith Permutation Sorted.
From Verif Require Import Base Functional FunctionalProofs Spec Numeric BaseFl FlFacts Equal EqualFacts RangeManips RangeFacts Stats.
Open Scope nat_scope.

(** *** Sorted permutations are unique for an antisymmetric order *)
Section Uniq.
Context {T : Type} (D : T -> Prop) (le : T -> T -> Prop).
Hypothesis antisym : forall x y, D x -> D y -> le x y -> le y x -> x = y.

Lemma sorted_perm_unique (l : list T) : forall l', Forall D l -> Permutation l l' ->
  StronglySorted le l -> StronglySorted le l' -> l = l'.
Proof.
  induction l as [|x l IH]; intros l' HD HP HS HS'.
  - symmetry. now apply Permutation_nil.
  - destruct l' as [|y l']; [apply Permutation_sym, Permutation_nil in HP; discriminate|].
    inversion HD; subst. inversion HS; subst. inversion HS'; subst.
    assert (Dy : D y).
    { assert (In y (x :: l)) by (eapply Permutation_in; [apply Permutation_sym; exact HP|now left]).
      rewrite Forall_forall in HD. now apply HD. }
    assert (x = y).
    { assert (Hx : In x (y :: l')) by (eapply Permutation_in; [exact HP|now left]).
      assert (Hy : In y (x :: l)) by (eapply Permutation_in; [apply Permutation_sym; exact HP|now left]).
      destruct Hx as [->|Hx]; [reflexivity|]. destruct Hy as [->|Hy]; [reflexivity|].
      rewrite Forall_forall in *. apply antisym; auto. }
    subst y. f_equal. apply IH; auto. now apply Permutation_cons_inv in HP.
Qed.

Lemma ssorted_app (a b : list T) : StronglySorted le a -> StronglySorted le b ->
  (forall x y, In x a -> In y b -> le x y) -> StronglySorted le (a ++ b).
Proof.
  induction a as [|x a IH]; intros HA HB HAB; simpl; [exact HB|]. inversion HA; subst. constructor.
  - apply IH; auto. intros; apply HAB; auto. now right.
  - rewrite Forall_app. split; [assumption|]. rewrite Forall_forall. intros y Hy. apply HAB; auto. now left.
Qed.
End Uniq.

(** *** The order on doubles *)
Definition fleP (x y : fl) : Prop := fle x y = true.
Lemma fleP_antisym x y : is_num x -> is_num y -> fleP x y -> fleP y x -> x = y.
Proof.
  unfold is_num, fleP. destruct x as [x| | |], y as [y| | |]; try congruence; try (vm_compute; congruence).
  intros _ _. rewrite !fle_negb_lt by (unfold is_num; discriminate). simpl.
  intros H1 H2. f_equal. apply negb_true_iff in H1, H2. now apply qabs_le_sym.
Qed.
Lemma fleP_lt x y : is_num x -> is_num y -> (fleP x y <-> flt y x = false).
Proof. intros Hx Hy. unfold fleP. rewrite fle_negb_lt by assumption. apply negb_true_iff. Qed.
Lemma fleP_total x y : is_num x -> is_num y -> fleP x y \/ fleP y x.
Proof.
  intros Hx Hy. rewrite !fleP_lt by assumption. destruct (flt y x) eqn:E; [right|now left].
  destruct (flt x y) eqn:E2; [|reflexivity]. 
  assert (H := swo_trans flt_swo x y x Hx Hy Hx E2 E). now rewrite (swo_irrefl flt_swo) in H.
Qed.
Lemma fleP_trans x y z : is_num x -> is_num y -> is_num z -> fleP x y -> fleP y z -> fleP x z.
Proof.
  intros Hx Hy Hz. rewrite !fleP_lt by assumption. intros H1 H2.
  apply (swo_negtrans flt_swo z y x); assumption.
Qed.
Lemma fleP_refl x : is_num x -> fleP x x.
Proof. intros H. rewrite fleP_lt by assumption. now apply (swo_irrefl flt_swo). Qed.

(** insertion sort: every NaN-free list has a sorted permutation, and std::nth_element's contract can be met *)
Fixpoint insert (x : fl) (l : list fl) : list fl :=
  match l with [] => [x] | y :: r => if flt y x then y :: insert x r else x :: l end.
Fixpoint isort (l : list fl) : list fl := match l with [] => [] | x :: r => insert x (isort r) end.
Lemma insert_perm x l : Permutation (x :: l) (insert x l).
Proof.
  induction l as [|y l IH]; simpl; [apply Permutation_refl|]. destruct (flt y x); [|apply Permutation_refl].
  eapply perm_trans; [apply perm_swap|]. now constructor.
Qed.
Lemma isort_perm l : Permutation l (isort l).
Proof. induction l as [|x l IH]; simpl; [constructor|]. eapply perm_trans; [constructor; exact IH|apply insert_perm]. Qed.
Lemma Forall_perm {A} (P : A -> Prop) l l' : Permutation l l' -> Forall P l -> Forall P l'.
Proof. intros HP H. rewrite Forall_forall in *. intros x Hx. apply H. eapply Permutation_in; [apply Permutation_sym; exact HP|exact Hx]. Qed.
Lemma insert_sorted x l : is_num x -> Forall is_num l -> StronglySorted fleP l -> StronglySorted fleP (insert x l).
Proof.
  intros Hx. induction l as [|y l IH]; intros HD HS; simpl; [repeat constructor|].
  inversion HD; subst. inversion HS; subst. destruct (flt y x) eqn:E.
  - constructor; [now apply IH|]. eapply Forall_perm; [apply insert_perm|]. constructor; [|assumption].
    destruct (fleP_total y x) as [T|T]; auto. rewrite fleP_lt in T by assumption. congruence.
  - assert (L : fleP x y) by (now apply fleP_lt). constructor; [constructor; assumption|].
    constructor; [exact L|]. rewrite Forall_forall in *. intros z Hz. apply (fleP_trans x y z); auto.
Qed.
Lemma isort_sorted l : Forall is_num l -> StronglySorted fleP (isort l).
Proof.
  induction l as [|x l IH]; intros H; simpl; [constructor|]. inversion H; subst. apply insert_sorted; auto.
  eapply Forall_perm; [apply isort_perm|assumption].
Qed.

(** *** Specification of the standard algorithm std::nth_element and of "s is a sorted version of a" *)
Definition nth_element_contract (f : nat -> list fl -> list fl) : Prop :=
  forall n v, Forall is_num v ->
    Permutation v (f n v) /\
    forall x, nth_error (f n v) n = Some x ->
      (forall y, In y (firstn n (f n v)) -> flt x y = false) /\
      (forall y, In y (skipn n (f n v)) -> flt y x = false).
Definition sorted_version (a s : list fl) : Prop := Permutation a s /\ StronglySorted fleP s.

Lemma sorted_version_unique a s1 s2 : Forall is_num a -> sorted_version a s1 -> sorted_version a s2 -> s1 = s2.
Proof.
  intros HD [P1 S1] [P2 S2]. apply (sorted_perm_unique is_num fleP fleP_antisym); auto.
  - eapply Forall_perm; eauto.
  - eapply perm_trans; [apply Permutation_sym; exact P1|exact P2].
Qed.
Lemma sorted_version_exists a : Forall is_num a -> exists s, sorted_version a s.
Proof. intros H. exists (isort a). split; [apply isort_perm|now apply isort_sorted]. Qed.

Lemma ssorted_split {T} (R : T -> T -> Prop) a b : StronglySorted R (a ++ b) ->
  StronglySorted R a /\ StronglySorted R b /\ (forall x y, In x a -> In y b -> R x y).
Proof.
  induction a as [|x a IH]; simpl; intros H; [repeat split; [constructor|assumption|contradiction]|].
  inversion H; subst. destruct (IH H2) as (A & B & C). rewrite Forall_app in H3. destruct H3 as [H3 H4].
  repeat split; auto; [now constructor|]. intros u v [->|Hu] Hv; [|now apply C].
  rewrite Forall_forall in H4. now apply H4.
Qed.

Lemma nth_element_contract_inhabited : nth_element_contract (fun _ v => isort v).
Proof.
  intros n v HD. split; [apply isort_perm|]. intros x Hx.
  pose proof (isort_sorted v HD) as HS. assert (HD' : Forall is_num (isort v)) by (eapply Forall_perm; [apply isort_perm|exact HD]).
  rewrite <- (firstn_skipn n (isort v)) in HS. apply ssorted_split in HS. destruct HS as (A & B & C).
  assert (Hs : exists r, skipn n (isort v) = x :: r).
  { revert Hx. generalize (isort v) as l. clear. induction n as [|n IH]; intros [|z l]; simpl; try discriminate.
    - intros [= ->]. eauto.
    - apply IH. }
  destruct Hs as (r & Hr). rewrite Hr in *. rewrite Forall_forall in HD'.
  assert (Ix : In x (isort v)) by (eapply nth_error_In; eauto).
  split.
  - intros y Hy. apply fleP_lt; [apply HD'; rewrite <- (firstn_skipn n (isort v)); apply in_or_app; now left|now apply HD'|].
    apply C; [exact Hy|now left].
  - intros y Hy. assert (Iy : In y (isort v)) by (rewrite <- (firstn_skipn n (isort v)), Hr; apply in_or_app; now right).
    apply fleP_lt; auto. inversion B; subst. destruct Hy as [->|Hy]; [apply fleP_refl; auto|].
    rewrite Forall_forall in H2. now apply H2.
Qed.

(** *** max_element / min_element *)
Lemma max_element_spec : forall r x, Forall is_num (x :: r) ->
  In (max_element flt x r) (x :: r) /\ forall y, In y (x :: r) -> fleP y (max_element flt x r).
Proof.
  induction r as [|z r IH]; intros x HD; simpl.
  - inversion HD; subst. split; [now left|]. intros y [->|[]]. now apply fleP_refl.
  - inversion HD as [|? ? Hx HD']; subst. inversion HD' as [|? ? Hz HDr]; subst.
    destruct (flt x z) eqn:E.
    + destruct (IH z HD') as [I1 I2]. split.
      * right. exact I1.
      * intros y [->|[->|Hy]]; [|apply I2; now left|apply I2; now right].
        apply (fleP_trans y z); auto; [|now apply fleP_lt; [assumption|assumption|destruct (flt z y) eqn:E2; [|reflexivity];
          assert (H := swo_trans flt_swo y z y Hx Hz Hx E E2); rewrite (swo_irrefl flt_swo) in H]|apply I2; now left].
        rewrite Forall_forall in HD'. apply HD'. exact I1.
    + assert (HDx : Forall is_num (x :: r)) by (constructor; assumption).
      destruct (IH x HDx) as [I1 I2]. split.
      * destruct I1 as [I1|I1]; [now left|now (right; right)].
      * intros y [->|[->|Hy]]; [apply I2; now left| |apply I2; now right].
        apply (fleP_trans y x); auto; [|now apply fleP_lt|apply I2; now left].
        rewrite Forall_forall in HDx. apply HDx. exact I1.
Qed.

Lemma min_element_spec : forall r x, Forall is_num (x :: r) ->
  In (min_element flt x r) (x :: r) /\ forall y, In y (x :: r) -> fleP (min_element flt x r) y.
Proof.
  induction r as [|z r IH]; intros x HD; simpl.
  - inversion HD; subst. split; [now left|]. intros y [->|[]]. now apply fleP_refl.
  - inversion HD as [|? ? Hx HD']; subst. inversion HD' as [|? ? Hz HDr]; subst.
    destruct (flt z x) eqn:E.
    + destruct (IH z HD') as [I1 I2]. split.
      * right. exact I1.
      * intros y [->|[->|Hy]]; [|apply I2; now left|apply I2; now right].
        apply (fleP_trans _ z); auto; [rewrite Forall_forall in HD'; apply HD'; exact I1|apply I2; now left|].
        apply fleP_lt; auto. destruct (flt y z) eqn:E2; [|reflexivity].
        assert (H := swo_trans flt_swo y z y Hx Hz Hx E2 E). now rewrite (swo_irrefl flt_swo) in H.
    + assert (HDx : Forall is_num (x :: r)) by (constructor; assumption).
      destruct (IH x HDx) as [I1 I2]. split.
      * destruct I1 as [I1|I1]; [now left|now (right; right)].
      * intros y [->|[->|Hy]]; [apply I2; now left| |apply I2; now right].
        apply (fleP_trans _ x); auto; [rewrite Forall_forall in HDx; apply HDx; exact I1|apply I2; now left|now apply fleP_lt].
Qed.

Lemma minmax_element_spec : forall r mn mx, Forall is_num (mn :: mx :: r) ->
  fst (minmax_element flt mn mx r) = min_element flt mn r /\
  snd (minmax_element flt mn mx r) = max_element flt mx r.
Proof.
  induction r as [|z r IH]; intros mn mx HD; simpl; [auto|].
  inversion HD as [|? ? H1 HD1]; subst. inversion HD1 as [|? ? H2 HD2]; subst. inversion HD2 as [|? ? H3 HD3]; subst.
  assert (E : (if flt z mx then mx else z) = (if flt mx z then z else mx)).
  { destruct (flt z mx) eqn:E1, (flt mx z) eqn:E2; try reflexivity.
    - assert (H := swo_trans flt_swo z mx z H3 H2 H3 E1 E2). now rewrite (swo_irrefl flt_swo) in H.
    - apply fleP_antisym; auto; now apply fleP_lt. }
  rewrite E. apply IH. constructor; [destruct (flt z mn); assumption|]. constructor; [destruct (flt mx z); assumption|assumption].
Qed.

(** C23 *)
Lemma amax_amin_ptp : forall a : list fl, a <> [] -> Forall is_num a ->
  (In (amax NaN flt a) a /\ forall y, In y a -> fleP y (amax NaN flt a)) /\
  (In (amin NaN flt a) a /\ forall y, In y a -> fleP (amin NaN flt a) y) /\
  ptp NaN flt fsub a = fsub (amax NaN flt a) (amin NaN flt a).
Proof.
  intros [|x r] Hne HD; [congruence|]. simpl amax. simpl amin. split; [now apply max_element_spec|].
  split; [now apply min_element_spec|]. unfold ptp.
  destruct (minmax_element_spec r x x) as [E1 E2]; [inversion HD; subst; now constructor|].
  destruct (minmax_element flt x x r) as [mn mx]. simpl in E1, E2. now rewrite E1, E2.
Qed.

(** *** the element selected by nth_element, and the maximum of the lower part *)
Lemma nth_element_selects f a s n : nth_element_contract f -> Forall is_num a -> sorted_version a s -> n < length a ->
  exists x, nth_error (f n a) n = Some x /\ nth_error s n = Some x /\
    (forall y r, firstn n (f n a) = y :: r -> nth_error s (n - 1) = Some (max_element flt y r)) /\
    length (firstn n (f n a)) = n.
Proof.
  intros HC HD HS Hn. destruct (HC n a HD) as [HP HX].
  assert (Hl : length (f n a) = length a) by (symmetry; now apply Permutation_length).
  destruct (nth_error (f n a) n) as [x|] eqn:Ex; [|apply nth_error_None in Ex; lia].
  destruct (HX x eq_refl) as [HL HR].
  assert (HD' : Forall is_num (f n a)) by (eapply Forall_perm; eauto).
  assert (Hsp : exists r, skipn n (f n a) = x :: r).
  { revert Ex. generalize (f n a) as l. clear. induction n as [|n IH]; intros [|z l]; simpl; try discriminate.
    - intros [= ->]. eauto.
    - apply IH. }
  destruct Hsp as [r Hr].
  set (lo := isort (firstn n (f n a))). set (hi := isort r).
  assert (Dlo : Forall is_num (firstn n (f n a))).
  { rewrite <- (firstn_skipn n (f n a)) in HD'. now apply Forall_app in HD'. }
  assert (Dx : is_num x /\ Forall is_num r).
  { rewrite <- (firstn_skipn n (f n a)), Hr in HD'. apply Forall_app in HD'. destruct HD' as [_ H]. inversion H; auto. }
  destruct Dx as [Dx Dr].
  assert (Llo : length lo = n).
  { unfold lo. rewrite <- (Permutation_length (isort_perm _)). rewrite firstn_length. lia. }
  assert (SV : sorted_version a (lo ++ x :: hi)).
  { split.
    - eapply perm_trans; [exact HP|]. rewrite <- (firstn_skipn n (f n a)) at 1. rewrite Hr.
      apply Permutation_app; [apply isort_perm|]. constructor. apply isort_perm.
    - apply ssorted_app.
      + now apply isort_sorted.
      + constructor; [now apply isort_sorted|]. apply (Forall_perm _ r); [apply isort_perm|].
        rewrite Forall_forall in *. intros y Hy. apply fleP_lt; auto. apply HR. rewrite Hr. now right.
      + intros u v Hu Hv.
        assert (Hu' : In u (firstn n (f n a))) by (eapply Permutation_in; [apply Permutation_sym, isort_perm|exact Hu]).
        assert (Du : is_num u) by (rewrite Forall_forall in Dlo; now apply Dlo).
        assert (Hux : fleP u x) by (apply fleP_lt; auto).
        destruct Hv as [<-|Hv]; [exact Hux|].
        assert (Hv' : In v r) by (eapply Permutation_in; [apply Permutation_sym, isort_perm|exact Hv]).
        assert (Dv : is_num v) by (rewrite Forall_forall in Dr; now apply Dr).
        apply (fleP_trans u x v); auto. apply fleP_lt; auto. apply HR. rewrite Hr. now right. }
  rewrite (sorted_version_unique a s _ HD HS SV).
  exists x. split; [reflexivity|]. split; [rewrite nth_error_app2 by lia; replace (n - length lo) with 0 by lia; reflexivity|].
  split; [|rewrite firstn_length; lia].
  intros y t Hyt.
  assert (Hn1 : 1 <= n) by (destruct n; [simpl in Hyt; discriminate|lia]).
  rewrite nth_error_app1 by lia.
  assert (HDyt : Forall is_num (y :: t)) by (rewrite <- Hyt; exact Dlo).
  destruct (max_element_spec t y HDyt) as [M1 M2]. set (M := max_element flt y t) in *.
  assert (Plo : Permutation (y :: t) lo) by (rewrite <- Hyt; apply isort_perm).
  assert (Slo : StronglySorted fleP lo) by (now apply isort_sorted).
  destruct (nth_error lo (n - 1)) as [z|] eqn:Ez; [|apply nth_error_None in Ez; lia].
  f_equal.
  assert (Iz : In z lo) by (eapply nth_error_In; eauto).
  assert (Iz' : In z (y :: t)) by (eapply Permutation_in; [apply Permutation_sym; exact Plo|exact Iz]).
  assert (IM : In M lo) by (eapply Permutation_in; [exact Plo|exact M1]).
  rewrite Forall_forall in HDyt.
  apply fleP_antisym; auto.
  (* z is the last element of the sorted list lo *)
  assert (Hlast : exists l0, lo = l0 ++ [z]).
  { clear -Ez Llo Hn1. clearbody lo. clear f a. revert n Ez Llo Hn1. induction lo as [|w lo IH]; intros n Ez Llo Hn1; [simpl in Llo; lia|].
    destruct lo as [|w' lo].
    - simpl in Llo. subst n. simpl in Ez. injection Ez as ->. now exists [].
    - destruct (IH (n - 1)) as [l0 H0]; [|simpl in *; lia|simpl in *; lia|].
      + simpl in Llo. destruct n as [|[|n]]; try lia. simpl in *. rewrite Nat.sub_0_r in *. exact Ez.
      + exists (w :: l0). simpl. f_equal. exact H0. }
  destruct Hlast as [l0 H0]. rewrite H0 in Slo, IM. apply ssorted_split in Slo. destruct Slo as (_ & _ & HH).
  apply in_app_or in IM. destruct IM as [IM|[<-|[]]]; [apply HH; [exact IM|now left]|apply fleP_refl; auto].
Qed.

(** C24 *)
Lemma median_spec f a s : nth_element_contract f -> Forall is_num a -> sorted_version a s -> a <> [] ->
  median NaN flt fadd fdiv (Fin (qz 2)) f a =
  Ok (if Nat.odd (length a) then nth (length a / 2) s NaN
      else fdiv (fadd (nth (length a / 2 - 1) s NaN) (nth (length a / 2) s NaN)) (Fin (qz 2))).
Proof.
  intros HC HD HS Hne. unfold median, median_inplace.
  assert (Hl : 1 <= length a) by (destruct a; [congruence|simpl; lia]).
  destruct (Nat.eqb_spec (length a) 0); [lia|].
  set (h := length a / 2).
  assert (Hh : h < length a) by (apply Nat.div_lt; lia).
  destruct (nth_element_selects f a s h HC HD HS Hh) as (x & E1 & E2 & E3 & E4).
  unfold at_ub. rewrite E1. cbn [bind].
  assert (Hx : nth h s NaN = x) by (now apply nth_error_nth).
  assert (Hodd : negb (length a mod 2 =? 0) = Nat.odd (length a)).
  { destruct (Nat.Even_or_Odd (length a)) as [[k Hk]|[k Hk]].
    - replace (Nat.odd (length a)) with false by (symmetry; rewrite Hk, <- Nat.negb_even, Nat.even_mul; reflexivity).
      rewrite Hk, Nat.mul_comm, Nat.mod_mul by lia. reflexivity.
    - replace (Nat.odd (length a)) with true
        by (symmetry; rewrite Hk, <- Nat.negb_even, Nat.even_add, Nat.even_mul; reflexivity).
      rewrite Hk, Nat.add_comm, Nat.mul_comm, Nat.mod_add by lia. reflexivity. }
  rewrite Hodd. destruct (Nat.odd (length a)) eqn:Eo; [now rewrite Hx|].
  assert (Hev : 1 <= h).
  { unfold h. destruct (length a) as [|[|k]] eqn:Ek; [lia|simpl in Eo; discriminate|].
    change 1 with (2 / 2). apply Nat.div_le_mono; lia. }
  destruct (firstn h (f h a)) as [|y r] eqn:Ef; [simpl in E4; lia|].
  rewrite (nth_error_nth _ _ NaN (E3 y r eq_refl)), Hx. reflexivity.
Qed.
