From Coq Require Import List Arith ZArith Reals Bool Permutation Sorted.
From Flocq Require Import Core.
From Verif Require Import Base Functional FunctionalProofs Equal EqualFacts Stats FloatArith FloatArithFacts FloatQuantile.
From Coq Require Import Lra Psatz Lia.
Import ListNotations.
Open Scope nat_scope.

(** std::nth_element: a rearrangement, nothing larger before position n, nothing smaller after it *)
Definition nth_contract (f : nat -> list R -> list R) : Prop := forall n v, n < length v ->
  Permutation v (f n v) /\ (forall x y, In x (firstn n (f n v)) -> nth_error (f n v) n = Some y -> (x <= y)%R) /\
  (forall x y, In x (skipn n (f n v)) -> nth_error (f n v) n = Some y -> (y <= x)%R).
(** s is v in ascending order *)
Definition ascending (v s : list R) : Prop := Permutation v s /\ forall i j, i <= j -> j < length s -> (nth i s 0 <= nth j s 0)%R.

Lemma asc_strong s : (forall i j, i <= j -> j < length s -> (nth i s 0 <= nth j s 0)%R) <-> StronglySorted Rle s.
Proof.
  split.
  - induction s as [|x s IH]; intros H; constructor.
    + apply IH. intros i j Hi Hj. apply (H (S i) (S j)); [lia|cbn; lia].
    + apply Forall_forall. intros y Hy. apply (In_nth _ _ 0%R) in Hy. destruct Hy as [k [Hk <-]]. apply (H 0 (S k)); [lia|cbn; lia].
  - induction 1 as [|x s Hs IH HF]; intros i j Hij Hj; [cbn in Hj; lia|]. destruct j as [|j]; [replace i with 0 by lia; cbn; lra|]. destruct i as [|i].
    + cbn. rewrite Forall_forall in HF. apply HF. apply nth_In. cbn in Hj. lia.
    + cbn. apply IH; cbn in Hj; lia.
Qed.
Lemma sorted_unique s : forall t, StronglySorted Rle s -> StronglySorted Rle t -> Permutation s t -> s = t.
Proof.
  induction s as [|x s IH]; intros t Hs Ht P; [apply Permutation_nil in P; now subst|].
  destruct t as [|y t]; [apply Permutation_sym, Permutation_nil in P; discriminate P|].
  inversion Hs as [|? ? Hs1 Fs]; subst. inversion Ht as [|? ? Ht1 Ft]; subst. rewrite Forall_forall in Fs, Ft.
  assert (E : x = y).
  { apply Rle_antisym.
    - assert (I : In y (x :: s)) by (apply (Permutation_in y (Permutation_sym P)); now left). destruct I as [-> |I]; [lra|now apply Fs].
    - assert (I : In x (y :: t)) by (apply (Permutation_in x P); now left). destruct I as [-> |I]; [lra|now apply Ft]. }
  subst y. f_equal. apply IH; auto. now apply Permutation_cons_inv in P.
Qed.
Fixpoint insert (x : R) (l : list R) : list R := match l with [] => [x] | y :: r => if Rle_dec x y then x :: l else y :: insert x r end.
Definition rsort (l : list R) : list R := fold_right insert [] l.
Lemma insert_perm x l : Permutation (x :: l) (insert x l).
Proof. induction l as [|y l IH]; cbn; [reflexivity|]. destruct (Rle_dec x y); [reflexivity|]. rewrite perm_swap. now constructor. Qed.
Lemma insert_sorted x l : StronglySorted Rle l -> StronglySorted Rle (insert x l).
Proof.
  induction 1 as [|y l Hl IH HF]; cbn; [constructor; [constructor|apply Forall_nil]|]. destruct (Rle_dec x y) as [H|H].
  - constructor; [now constructor|]. apply Forall_cons; [exact H|]. rewrite Forall_forall in *. intros z Hz. specialize (HF z Hz). lra.
  - constructor; [exact IH|]. rewrite Forall_forall in *. intros z Hz. apply (Permutation_in z (Permutation_sym (insert_perm x l))) in Hz. destruct Hz as [<- |Hz]; [lra|now apply HF].
Qed.
Lemma rsort_perm l : Permutation l (rsort l).
Proof. induction l as [|x l IH]; cbn; [reflexivity|]. rewrite <- insert_perm. now constructor. Qed.
Lemma rsort_sorted l : StronglySorted Rle (rsort l).
Proof. induction l as [|x l IH]; cbn; [constructor|now apply insert_sorted]. Qed.
Lemma strong_app a b : StronglySorted Rle a -> StronglySorted Rle b -> (forall x y, In x a -> In y b -> (x <= y)%R) -> StronglySorted Rle (a ++ b).
Proof.
  induction 1 as [|x a Ha IH HF]; intros Hb H; [exact Hb|]. cbn. constructor; [apply IH; [exact Hb|intros; apply H; [now right|assumption]]|].
  apply Forall_app. split; [exact HF|]. apply Forall_forall. intros y Hy. apply H; [now left|exact Hy].
Qed.
Lemma ascending_exists v : exists s, ascending v s.
Proof. exists (rsort v). split; [apply rsort_perm|]. apply asc_strong, rsort_sorted. Qed.

Lemma skipn_nth (r : list R) : forall n y, nth_error r n = Some y -> skipn n r = y :: skipn (S n) r.
Proof. induction r as [|z r IH]; intros [|n] y Ey; try discriminate Ey; [injection Ey as ->; reflexivity|]. cbn [nth_error] in Ey. exact (IH n y Ey). Qed.
Section Select.
Variables (f : nat -> list R -> list R) (v s : list R).
Hypothesis Hf : nth_contract f.
Hypothesis Hs : ascending v s.
Lemma len_eq : length v = length s. Proof. apply Permutation_length, Hs. Qed.
Lemma select n : n < length v -> nth_error (f n v) n = Some (nth n s 0%R) /\ Permutation (firstn n (f n v)) (firstn n s) /\ length (f n v) = length v.
Proof.
  intros Hn. destruct (Hf n v Hn) as (P & L & U). set (r := f n v) in *. assert (Lr : length r = length v) by (symmetry; now apply Permutation_length).
  destruct (nth_error r n) as [y|] eqn:Ey; [|apply nth_error_None in Ey; lia]. destruct Hs as [Ps As]. apply asc_strong in As.
  assert (Sp : skipn n r = y :: skipn (S n) r).
  { exact (skipn_nth r n y Ey). }
  assert (E : s = rsort (firstn n r) ++ y :: rsort (skipn (S n) r)).
  { apply sorted_unique; [exact As| |].
    - apply strong_app; [apply rsort_sorted| |].
      + constructor; [apply rsort_sorted|]. apply Forall_forall. intros x Hx. apply (Permutation_in x (Permutation_sym (rsort_perm _))) in Hx. apply U; [|reflexivity]. rewrite Sp. now right.
      + intros x z Hx Hz. apply (Permutation_in x (Permutation_sym (rsort_perm _))) in Hx. specialize (L x y Hx eq_refl). destruct Hz as [<- |Hz]; [exact L|].
        apply (Permutation_in z (Permutation_sym (rsort_perm _))) in Hz. assert (y <= z)%R by (apply U; [rewrite Sp; now right|reflexivity]). lra.
    - rewrite <- Ps, P. rewrite <- (firstn_skipn n r) at 1. rewrite Sp. apply Permutation_app; [apply rsort_perm|]. constructor. apply rsort_perm. }
  assert (Ln : length (rsort (firstn n r)) = n) by (rewrite <- (Permutation_length (rsort_perm _)), firstn_length; lia).
  split; [|split; [|exact Lr]].
  - rewrite E, app_nth2, Ln, Nat.sub_diag by lia. reflexivity.
  - rewrite E, firstn_app, Ln, Nat.sub_diag, firstn_O, app_nil_r. rewrite (firstn_all2 (rsort (firstn n r))) by lia. apply rsort_perm.
Qed.
Lemma max_spec l : forall x, (forall y, In y (x :: l) -> (y <= max_element Rlt_bool x l)%R) /\ In (max_element Rlt_bool x l) (x :: l).
Proof.
  induction l as [|z l IH]; intros x; cbn [max_element]; [split; [intros y [<- |[]]; lra|now left]|].
  destruct (Rlt_bool_spec x z) as [H|H].
  - destruct (IH z) as [A B]. split.
    + intros y [<- |Hy]; [|now apply A]. specialize (A z (or_introl eq_refl)). lra.
    + now right.
  - destruct (IH x) as [A B]. split.
    + intros y [<- |[<- |Hy]]; [apply A; now left| |apply A; now right]. specialize (A x (or_introl eq_refl)). lra.
    + destruct B as [<- |B]; [now left|right; now right].
Qed.
Lemma select_max n x r : 1 <= n -> n < length v -> firstn n (f n v) = x :: r -> max_element Rlt_bool x r = nth (n - 1) s 0%R.
Proof.
  intros H1 Hn E. destruct (select n Hn) as (_ & P & _). rewrite E in P. destruct (max_spec r x) as [A B]. destruct Hs as [Ps As]. pose proof len_eq as LE.
  assert (NI : forall k, k < n -> nth k (firstn n s) 0%R = nth k s 0%R).
  { intros k Hk. rewrite <- (firstn_skipn n s) at 2. rewrite app_nth1; [reflexivity|]. rewrite firstn_length. lia. }
  apply Rle_antisym.
  - apply (Permutation_in _ P) in B. apply (In_nth _ _ 0%R) in B. destruct B as [k [Hk E1]]. rewrite firstn_length in Hk. rewrite <- E1, NI by lia. apply As; lia.
  - apply A. apply (Permutation_in _ (Permutation_sym P)). rewrite <- NI by lia. apply nth_In. rewrite firstn_length. lia.
Qed.
Lemma firstn_cons n : 1 <= n -> n < length v -> exists x r, firstn n (f n v) = x :: r.
Proof. intros H1 Hn. destruct (select n Hn) as (_ & _ & L). destruct (firstn n (f n v)) as [|x r] eqn:E; [|now exists x, r]. apply (f_equal (@length R)) in E. rewrite firstn_length in E. cbn in E. lia. Qed.
End Select.

Section Facts.
Variables (u eta : R) (fmt : R -> Prop) (rnd : R -> R).
Hypothesis RD : rounding u eta fmt rnd.
Variables (near : R -> R -> bool) (nan : R) (f : nat -> list R -> list R).
Hypothesis near_refl : forall x, near x x = true.
Hypothesis Hf : nth_contract f.
Let Id := rd_id _ _ _ _ RD.
Let Mono := rd_mono _ _ _ _ RD.
Let F0 := rd_0 _ _ _ _ RD.

Lemma between a b x : fmt a -> fmt b -> (a <= x <= b)%R -> (a <= rnd x <= b)%R.
Proof. intros Fa Fb H. rewrite <- (Id _ Fa) at 1. rewrite <- (Id _ Fb). split; apply Mono; lra. Qed.
(** *** median *)
Lemma median_spec v s : ascending v s -> v <> [] -> let n := length v in
  r_median rnd nan f v = Ok (if Nat.odd n then nth (n / 2) s 0%R else rnd (rnd (nth (n / 2 - 1) s 0 + nth (n / 2) s 0) / 2)%R).
Proof.
  intros Hs Hv n. unfold r_median, median, median_inplace. assert (N : 1 <= n) by (unfold n; destruct v; [contradiction|cbn; lia]). fold n.
  destruct (Nat.eqb_spec n 0); [lia|]. pose proof (Nat.div_mod n 2 ltac:(lia)) as DM. pose proof (Nat.mod_upper_bound n 2 ltac:(lia)) as MB.
  assert (H2 : n / 2 < length v) by (fold n; lia). destruct (select f v s Hf Hs (n / 2) H2) as (E & _ & _). unfold at_ub. rewrite E. cbn [bind].
  destruct (Nat.eqb_spec (n mod 2) 0) as [Z|Z]; cbn [negb].
  - replace (Nat.odd n) with false by (symmetry; rewrite <- Nat.negb_even; replace (Nat.even n) with true; [reflexivity|symmetry; apply Nat.even_spec; exists (n / 2); lia]).
    destruct (firstn_cons f v s Hf Hs (n / 2) ltac:(lia) H2) as (x & r & Ex). rewrite Ex. rewrite (select_max f v s Hf Hs (n / 2) x r ltac:(lia) H2 Ex). reflexivity.
  - replace (Nat.odd n) with true by (symmetry; apply Nat.odd_spec; exists (n / 2); lia). reflexivity.
Qed.
Lemma median_between a b : fmt (2 * a)%R -> fmt (2 * b)%R -> fmt a -> fmt b -> (a <= b)%R -> (a <= rnd (rnd (a + b) / 2) <= b)%R.
Proof.
  intros A2 B2 A B H. assert (L : (2 * a <= rnd (a + b) <= 2 * b)%R). { apply between; auto; lra. }
  apply between; auto; lra.
Qed.

(** *** index of a quantile *)
Variable N : nat.
Hypothesis HN : forall k, k <= 2 * N -> fmt (INR k).
Lemma fmtZ z : (0 <= z <= 2 * Z.of_nat N)%Z -> fmt (IZR z).
Proof. intros H. replace (IZR z) with (INR (Z.to_nat z)) by (rewrite INR_IZR_INZ, Z2Nat.id by lia; reflexivity). apply HN. lia. Qed.
Lemma h_range q : (0 <= q <= 1)%R -> (0 <= fl_mul rnd q (fl_nat rnd N) <= INR N)%R.
Proof.
  intros Hq. unfold fl_mul, fl_nat. rewrite (Id (INR N)) by (apply HN; lia). pose proof (pos_INR N). apply between; [exact F0|apply HN; lia|nra].
Qed.
Lemma index_between m h : (0 <= h <= INR N)%R -> (IZR (Zfloor h) <= r_index rnd m h <= IZR (Zceil h))%R.
Proof.
  intros H. pose proof (Zfloor_lb h) as FL. pose proof (Zceil_ub h) as CU. destruct m; cbn [r_index]; try lra.
  - assert (Z0 : (0 <= Zfloor h)%Z) by (apply Zfloor_lub; lra). assert (Z1 : (Zceil h <= Z.of_nat N)%Z) by (apply Zceil_glb; rewrite <- INR_IZR_INZ; lra).
    assert (ZZ : (Zfloor h <= Zceil h)%Z) by (apply le_IZR; lra). apply IZR_le in ZZ as RZ.
    destruct (Znearest_DN_or_UP (fun x => negb (Z.even x)) h) as [-> | ->]; lra.
  - assert (Z0 : (0 <= Zfloor h)%Z) by (apply Zfloor_lub; lra). assert (Z1 : (Zceil h <= Z.of_nat N)%Z) by (apply Zceil_glb; rewrite <- INR_IZR_INZ; lra).
    assert (ZZ : (Zfloor h <= Zceil h)%Z) by (apply le_IZR; lra). apply IZR_le in ZZ as RZ. set (a := Zfloor h) in *. set (b := Zceil h) in *.
    assert (L : (2 * IZR a <= rnd (IZR a + IZR b) <= 2 * IZR b)%R).
    { rewrite <- !mult_IZR. apply between; [apply fmtZ; lia|apply fmtZ; lia|]. rewrite !mult_IZR. lra. }
    unfold fl_mul, fl_add. apply between; [apply fmtZ; lia|apply fmtZ; lia|lra].
Qed.

(** *** the quantile *)
Hypothesis F1 : fmt 1%R.
Lemma floor_ceil x : (IZR (Zfloor x) = x \/ (Zceil x = Zfloor x + 1)%Z)%R.
Proof. destruct (Req_dec (IZR (Zfloor x)) x) as [E|E]; [now left|right]. apply Zceil_floor_neq. exact E. Qed.
Lemma floor_nat h : (0 <= h <= INR N)%R -> (0 <= Zfloor h <= Zceil h)%Z /\ (Zceil h <= Z.of_nat N)%Z.
Proof.
  intros H. repeat split.
  - apply Zfloor_lub; lra.
  - apply le_IZR. pose proof (Zfloor_lb h). pose proof (Zceil_ub h). lra.
  - apply Zceil_glb. rewrite <- INR_IZR_INZ. lra.
Qed.
Lemma trunc_floor x : (0 <= x)%R -> r_trunc x = Z.to_nat (Zfloor x).
Proof. intros H. unfold r_trunc. now rewrite Ztrunc_floor. Qed.
(** The quantile as a function of the sorted data. *)
Lemma quantile_spec m v s q : ascending v s -> length v = S N -> 1 <= N -> (0 <= q <= 1)%R ->
  let h := fl_mul rnd q (fl_nat rnd N) in let h0 := r_index rnd m h in let k := Z.to_nat (Zfloor h0) in
  r_quantile rnd near nan f m v q = Ok (if near (IZR (ZnearestE h0)) h0 then nth k s 0%R
     else lerp_rounded rnd (nth k s 0%R) (nth (k + 1) s 0%R) (rnd (h0 - IZR (Zfloor h0)))%R)
  /\ (near (IZR (ZnearestE h0)) h0 = false -> Zfloor h0 = Zfloor h /\ Zceil h = (Zfloor h + 1)%Z) /\ (Zfloor h <= Zfloor h0 <= Zceil h)%Z /\ k <= N.
Proof.
  intros Hs Hv HN1 Hq h h0 k. pose proof (h_range q Hq) as Hh. fold h in Hh. pose proof (index_between m h Hh) as Hb. fold h0 in Hb. destruct (floor_nat h Hh) as [[Z0 Z1] Z2].
  assert (P0 : (0 <= h0)%R) by (apply IZR_le in Z0; lra).
  assert (K1 : (Zfloor h <= Zfloor h0)%Z) by (apply Zfloor_lub; lra). assert (K2 : (Zfloor h0 <= Zceil h)%Z). { apply le_IZR. pose proof (Zfloor_lb h0). lra. }
  assert (KN : k <= N) by (unfold k; lia).
  assert (NI : near (IZR (ZnearestE h0)) h0 = false -> Zfloor h0 = Zfloor h /\ Zceil h = (Zfloor h + 1)%Z).
  { intros E. assert (IZR (Zfloor h0) <> h0). { intros E1. assert (E2 : ZnearestE h0 = Zfloor h0) by (apply Znearest_imp; rewrite E1; unfold Rminus; rewrite Rplus_opp_r, Rabs_R0; lra). rewrite E2, E1, near_refl in E. discriminate E. }
    assert (L : (IZR (Zfloor h0) < h0)%R) by (pose proof (Zfloor_lb h0); lra).
    destruct (floor_ceil h) as [E1|E1].
    - exfalso. apply H. assert (Eh : h0 = IZR (Zfloor h)). { rewrite <- E1 in Hb at 2. rewrite Zceil_IZR in Hb. lra. } rewrite Eh, Zfloor_IZR. reflexivity.
    - split; [|exact E1]. assert (Zfloor h0 < Zceil h)%Z by (apply lt_IZR; lra). lia. }
  split; [|split; [exact NI|split; [split; assumption|exact KN]]].
  unfold r_quantile, require. rewrite !Rle_bool_true by lra. cbn [andb]. rewrite Hv. change (S N =? 0) with false. destruct (Nat.eqb_spec (S N) 1) as [E|_]; [lia|].
  replace (S N - 1) with N by lia. fold h. fold h0. rewrite (trunc_floor h0 P0). fold k. destruct (near (IZR (ZnearestE h0)) h0) eqn:E.
  - rewrite Nat.min_l by lia. destruct (select f v s Hf Hs k ltac:(lia)) as (E1 & _ & _). unfold at_ub. now rewrite E1.
  - destruct (NI eq_refl) as [Ea Eb]. assert (Kl : k + 1 <= N) by (unfold k; lia). rewrite Nat.min_l by lia. assert (Kv : k + 1 < length v) by lia.
    destruct (firstn_cons f v s Hf Hs (k + 1) ltac:(lia) Kv) as (x & r & Ex). rewrite Ex. destruct (select f v s Hf Hs (k + 1) Kv) as (E1 & _ & _). unfold at_ub. rewrite E1. cbn [bind].
    rewrite (select_max f v s Hf Hs (k + 1) x r ltac:(lia) Kv Ex). replace (k + 1 - 1) with k by lia. do 2 f_equal. unfold fl_sub. do 2 f_equal. rewrite INR_IZR_INZ. unfold k. rewrite Z2Nat.id by lia. reflexivity.
Qed.

Lemma asc_fmt v s k : ascending v s -> Forall fmt v -> k < length v -> fmt (nth k s 0%R).
Proof. intros [P _] HF Hk. rewrite Forall_forall in HF. apply HF. apply (Permutation_in _ (Permutation_sym P)). apply nth_In. rewrite <- (Permutation_length P). exact Hk. Qed.
Lemma quantile_between m v s q : ascending v s -> Forall fmt v -> length v = S N -> 1 <= N -> (0 <= q <= 1)%R ->
  let h := fl_mul rnd q (fl_nat rnd N) in
  exists x, r_quantile rnd near nan f m v q = Ok x /\ (nth (Z.to_nat (Zfloor h)) s 0 <= x <= nth (Z.to_nat (Zceil h)) s 0)%R.
Proof.
  intros Hs HF Hv H1 Hq h. destruct (quantile_spec m v s q Hs Hv H1 Hq) as (E & NI & K & KN). fold h in E, NI, K, KN. eexists. split; [exact E|].
  pose proof (h_range q Hq) as Hh. fold h in Hh. destruct (floor_nat h Hh) as [[Z0 Z1] Z2]. pose proof (Permutation_length (proj1 Hs)) as LS. pose proof (proj2 Hs) as As.
  destruct (near _ _) eqn:En.
  - split; apply As; lia.
  - destruct (NI eq_refl) as [Ea Eb]. rewrite Ea, Eb in *. replace (Z.to_nat (Zfloor h + 1)) with (Z.to_nat (Zfloor h) + 1) by lia. set (k := Z.to_nat (Zfloor h)) in *.
    assert (O : (nth k s 0 <= nth (k + 1) s 0)%R) by (apply As; lia).
    pose proof (index_between m h Hh) as Hb. rewrite Eb, plus_IZR in Hb.
    assert (T : (0 <= rnd (r_index rnd m h - IZR (Zfloor h)) <= 1)%R) by (apply between; [exact F0|exact F1|lra]).
    pose proof (lerp_between fmt rnd F0 F1 Id Mono _ _ _ (asc_fmt v s k Hs HF ltac:(lia)) (asc_fmt v s (k + 1) Hs HF ltac:(lia)) T) as B.
    rewrite Rmin_left, Rmax_right in B by exact O. exact B.
Qed.
Lemma nearest_int z : ZnearestE (IZR z) = z.
Proof. apply Znearest_imp. unfold Rminus. rewrite Rplus_opp_r, Rabs_R0. lra. Qed.
Lemma quantile_modes v s q : ascending v s -> length v = S N -> 1 <= N -> (0 <= q <= 1)%R ->
  let h := fl_mul rnd q (fl_nat rnd N) in
  r_quantile rnd near nan f LOWER v q = Ok (nth (Z.to_nat (Zfloor h)) s 0%R) /\
  r_quantile rnd near nan f HIGHER v q = Ok (nth (Z.to_nat (Zceil h)) s 0%R) /\
  r_quantile rnd near nan f NEAREST v q = Ok (nth (Z.to_nat (ZnearestE h)) s 0%R).
Proof.
  intros Hs Hv H1 Hq h. repeat split; rewrite (proj1 (quantile_spec _ v s q Hs Hv H1 Hq)); fold h; cbn [r_index]; rewrite nearest_int, near_refl, Zfloor_IZR; reflexivity.
Qed.
Lemma h_mono p q : (p <= q)%R -> (fl_mul rnd p (fl_nat rnd N) <= fl_mul rnd q (fl_nat rnd N))%R.
Proof. intros H. unfold fl_mul, fl_nat. apply Mono. rewrite (Id (INR N)) by (apply HN; lia). pose proof (pos_INR N). nra. Qed.
Lemma quantile_mono m v p q x y : m = LOWER \/ m = HIGHER \/ m = NEAREST -> length v = S N -> 1 <= N -> (0 <= p)%R -> (p <= q)%R -> (q <= 1)%R ->
  r_quantile rnd near nan f m v p = Ok x -> r_quantile rnd near nan f m v q = Ok y -> (x <= y)%R.
Proof.
  intros Hm Hv H1 H0 Hpq Hq1 Ex Ey. destruct (ascending_exists v) as [s Hs]. pose proof (quantile_modes v s p Hs Hv H1 ltac:(lra)) as Mp. pose proof (quantile_modes v s q Hs Hv H1 ltac:(lra)) as Mq. cbv zeta in Mp, Mq.
  pose proof (h_mono p q Hpq) as HM. destruct (floor_nat _ (h_range q ltac:(lra))) as [[Z0 Z1] Z2].
  set (a := fl_mul rnd p (fl_nat rnd N)) in *. set (b := fl_mul rnd q (fl_nat rnd N)) in *. pose proof (Permutation_length (proj1 Hs)) as LS. pose proof (proj2 Hs) as As.
  assert (NB : (ZnearestE b <= Zceil b)%Z) by (destruct (Znearest_DN_or_UP (fun t => negb (Z.even t)) b) as [E|E]; rewrite E; lia).
  destruct Mp as (P1 & P2 & P3), Mq as (Q1 & Q2 & Q3).
  destruct Hm as [-> |[-> | ->]].
  - rewrite P1 in Ex. rewrite Q1 in Ey. injection Ex as <-. injection Ey as <-. apply As; [|lia]. apply Zfloor_le in HM. lia.
  - rewrite P2 in Ex. rewrite Q2 in Ey. injection Ex as <-. injection Ey as <-. apply As; [|lia]. apply Zceil_le in HM. lia.
  - rewrite P3 in Ex. rewrite Q3 in Ey. injection Ex as <-. injection Ey as <-. apply As; [|lia]. pose proof (@Zrnd_le _ (valid_rnd_N (fun t => negb (Z.even t))) _ _ HM) as ZL. lia.
Qed.
Lemma quantile_ends m v s : ascending v s -> length v = S N -> 1 <= N ->
  r_quantile rnd near nan f m v 0%R = Ok (nth 0 s 0%R) /\ r_quantile rnd near nan f m v 1%R = Ok (nth N s 0%R).
Proof.
  intros Hs Hv H1.
  assert (A0 : fl_mul rnd 0 (fl_nat rnd N) = IZR 0) by (unfold fl_mul; rewrite Rmult_0_l; apply Id, F0).
  assert (A1 : fl_mul rnd 1 (fl_nat rnd N) = IZR (Z.of_nat N)) by (unfold fl_mul, fl_nat; rewrite Rmult_1_l, (Id (INR N)), (Id (INR N)) by (apply HN; lia); apply INR_IZR_INZ).
  assert (IX : forall z, (0 <= z <= Z.of_nat N)%Z -> r_index rnd m (IZR z) = IZR z).
  { intros z Hz. destruct m; cbn [r_index]; rewrite ?Zfloor_IZR, ?Zceil_IZR, ?nearest_int; try reflexivity.
    unfold fl_mul, fl_add. replace (IZR z + IZR z)%R with (IZR (2 * z)) by (rewrite mult_IZR; ring). rewrite (Id (IZR (2 * z))) by (apply fmtZ; lia).
    rewrite mult_IZR. replace (/ 2 * (2 * IZR z))%R with (IZR z) by field. apply Id, fmtZ. lia. }
  split.
  - rewrite (proj1 (quantile_spec m v s 0%R Hs Hv H1 ltac:(lra))), A0, IX by lia. rewrite nearest_int, near_refl, Zfloor_IZR. reflexivity.
  - rewrite (proj1 (quantile_spec m v s 1%R Hs Hv H1 ltac:(lra))), A1, IX by lia. rewrite nearest_int, near_refl, Zfloor_IZR, Nat2Z.id. reflexivity.
Qed.
Lemma asc_perm v w s : Permutation v w -> ascending v s -> ascending w s.
Proof. intros P [Q A]. split; [now rewrite <- P|exact A]. Qed.
Lemma position_err q : (0 <= q <= 1)%R -> (Rabs (fl_mul rnd q (fl_nat rnd N) - q * INR N) <= u * (q * INR N) + eta)%R.
Proof.
  intros Hq. unfold fl_mul, fl_nat. rewrite (Id (INR N)) by (apply HN; lia). eapply Rle_trans; [apply (rd_err _ _ _ _ RD)|]. rewrite Rabs_pos_eq; [lra|]. apply Rmult_le_pos; [lra|apply pos_INR].
Qed.
Lemma median_err a b : fmt a -> fmt b -> (Rabs (rnd (rnd (a + b) / 2) - (a + b) / 2) <= ((1 + u) ^ 2 - 1) * (Rabs (a + b) / 2) + eta)%R.
Proof.
  intros Fa Fb. pose proof (rd_add _ _ _ _ RD a b Fa Fb) as E1. set (t := rnd (a + b)) in *. pose proof (rd_err _ _ _ _ RD (t / 2)) as E2. pose proof (u_pos _ _ _ _ RD).
  assert (T : (Rabs t <= (1 + u) * Rabs (a + b))%R). { replace t with ((a + b) + (t - (a + b)))%R by ring. eapply Rle_trans; [apply Rabs_triang|]. lra. }
  assert (E3 : Rabs (t / 2) = (Rabs t / 2)%R). { unfold Rdiv. rewrite Rabs_mult, (Rabs_pos_eq (/ 2)) by lra. reflexivity. }
  assert (E4 : (Rabs (t / 2 - (a + b) / 2) <= u * Rabs (a + b) / 2)%R). { replace (t / 2 - (a + b) / 2)%R with ((t - (a + b)) * / 2)%R by field. rewrite Rabs_mult, (Rabs_pos_eq (/ 2)) by lra. lra. }
  replace (rnd (t / 2) - (a + b) / 2)%R with ((rnd (t / 2) - t / 2) + (t / 2 - (a + b) / 2))%R by ring. eapply Rle_trans; [apply Rabs_triang|].
  rewrite E3 in E2. assert (u * (Rabs t / 2) <= u * ((1 + u) * Rabs (a + b) / 2))%R by (apply Rmult_le_compat_l; lra). lra.
Qed.
Lemma percentile_ok m v p : (0 <= p <= 100)%R -> length v = S N -> 1 <= N -> Forall fmt v -> exists x, r_percentile rnd near nan f m v p = Ok x /\
  forall s, ascending v s -> (nth 0 s 0 <= x <= nth N s 0)%R.
Proof.
  intros Hp Hv H1 HF. assert (Q : (0 <= fl_quot rnd p 100 <= 1)%R) by (unfold fl_quot; apply between; [exact F0|exact F1|lra]).
  destruct (ascending_exists v) as [s0 Hs0]. destruct (quantile_between m v s0 _ Hs0 HF Hv H1 Q) as (x & E & B). exists x. split; [exact E|]. intros s Hs.
  assert (s = s0). { apply sorted_unique; [apply asc_strong, Hs|apply asc_strong, Hs0|]. rewrite <- (proj1 Hs). exact (proj1 Hs0). } subst s0.
  destruct (floor_nat _ (h_range _ Q)) as [[Z0 Z1] Z2]. pose proof (Permutation_length (proj1 Hs)) as LS. pose proof (proj2 Hs) as As.
  split; (eapply Rle_trans; [|apply B]) || (eapply Rle_trans; [apply B|]); apply As; lia.
Qed.
Lemma iqr_pos m v : length v = S N -> 1 <= N -> Forall fmt v -> near 1%R (3 / 4)%R = false -> fmt (1 / 4)%R -> fmt (3 / 4)%R -> fmt (INR N / 4)%R -> fmt (INR (N + 4) / 4)%R ->
  exists x, r_iqr rnd near nan f m v 25 75 = Ok x /\ (0 <= x)%R /\ forall s, ascending v s -> (x <= rnd (nth N s 0 - nth 0 s 0))%R.
Proof.
  intros Hv H1 HF Hn G1 G3 GN GM. unfold r_iqr.
  destruct (percentile_ok m v 25%R ltac:(lra) Hv H1 HF) as (x0 & E0 & B0). destruct (percentile_ok m v 75%R ltac:(lra) Hv H1 HF) as (x1 & E1 & B1). rewrite E0. cbn [bind]. rewrite E1. cbn [bind].
  exists (fl_sub rnd x1 x0). split; [reflexivity|]. destruct (ascending_exists v) as [s Hs]. pose proof (B0 s Hs) as B0s. pose proof (B1 s Hs) as B1s.
  assert (L : (x0 <= x1)%R).
  { unfold r_percentile in E0, E1. replace (fl_quot rnd 25 100) with (1 / 4)%R in E0 by (unfold fl_quot; replace (25 / 100)%R with (1 / 4)%R by field; symmetry; apply Id; exact G1).
    replace (fl_quot rnd 75 100) with (3 / 4)%R in E1 by (unfold fl_quot; replace (75 / 100)%R with (3 / 4)%R by field; symmetry; apply Id; exact G3).
    assert (h0E : fl_mul rnd (1 / 4) (fl_nat rnd N) = (INR N / 4)%R). { unfold fl_mul, fl_nat. rewrite (Id (INR N)) by (apply HN; lia). replace (1 / 4 * INR N)%R with (INR N / 4)%R by field. now apply Id. }
    destruct (Nat.eq_dec N 1) as [EN|EN].
    - assert (h1E : fl_mul rnd (3 / 4) (fl_nat rnd N) = (3 / 4)%R). { unfold fl_mul, fl_nat. rewrite (Id (INR N)) by (apply HN; lia). rewrite EN. cbn [INR]. rewrite Rmult_1_r. now apply Id. }
      pose proof (quantile_spec m v s (1 / 4)%R Hs Hv H1 ltac:(lra)) as S0. pose proof (quantile_spec m v s (3 / 4)%R Hs Hv H1 ltac:(lra)) as S1. cbv zeta in S0, S1. rewrite h0E in S0. rewrite h1E in S1. rewrite EN in S0. cbn [INR] in S0.
      destruct m; [exact (quantile_mono LOWER v (1 / 4)%R (3 / 4)%R x0 x1 ltac:(auto) Hv H1 ltac:(lra) ltac:(lra) ltac:(lra) E0 E1)
                  |exact (quantile_mono HIGHER v (1 / 4)%R (3 / 4)%R x0 x1 ltac:(auto) Hv H1 ltac:(lra) ltac:(lra) ltac:(lra) E0 E1)
                  |exact (quantile_mono NEAREST v (1 / 4)%R (3 / 4)%R x0 x1 ltac:(auto) Hv H1 ltac:(lra) ltac:(lra) ltac:(lra) E0 E1)| |].
      + assert (F4 : Zfloor (1 / 4) = 0%Z) by (apply Zfloor_imp; cbn; lra). assert (F34 : Zfloor (3 / 4) = 0%Z) by (apply Zfloor_imp; cbn; lra).
        assert (C4 : Zceil (1 / 4) = 1%Z) by (apply Zceil_imp; cbn; lra). assert (C34 : Zceil (3 / 4) = 1%Z) by (apply Zceil_imp; cbn; lra).
        assert (IE : r_index rnd MIDPOINT (1 / 4) = r_index rnd MIDPOINT (3 / 4)) by (cbn [r_index]; now rewrite F4, F34, C4, C34).
        destruct S0 as [S0 _], S1 as [S1 _]. rewrite IE in S0. rewrite S0 in E0. rewrite S1 in E1. injection E0 as <-. injection E1 as <-. lra.
      + cbn [r_index] in S0, S1. destruct S0 as [S0 _], S1 as [S1 _].
        assert (F4 : Zfloor (1 / 4) = 0%Z) by (apply Zfloor_imp; cbn; lra). assert (F34 : Zfloor (3 / 4) = 0%Z) by (apply Zfloor_imp; cbn; lra).
        assert (N34 : ZnearestE (3 / 4) = 1%Z) by (apply Znearest_imp; rewrite Rabs_left; cbn; lra).
        rewrite F4 in S0. rewrite F34, N34, Hn in S1. cbn [Z.to_nat Nat.add] in S0, S1. rewrite E0 in S0. rewrite E1 in S1. injection S0 as ->. injection S1 as ->.
        pose proof (Permutation_length (proj1 Hs)) as LS. pose proof (proj2 Hs 0 1 ltac:(lia) ltac:(lia)) as O.
        assert (Fa : fmt (nth 0 s 0%R)) by (apply (asc_fmt v s 0 Hs HF); lia). assert (Fb : fmt (nth 1 s 0%R)) by (apply (asc_fmt v s 1 Hs HF); lia).
        assert (T1 : rnd (3 / 4 - 0)%R = (3 / 4)%R) by (rewrite Rminus_0_r; now apply Id). rewrite T1.
        clear Hn. destruct (near _ _).
        * pose proof (lerp_between fmt rnd F0 F1 Id Mono _ _ (3 / 4)%R Fa Fb ltac:(lra)) as B. rewrite Rmin_left in B by exact O. apply B.
        * replace (rnd (1 / 4 - 0)%R) with (1 / 4)%R by (symmetry; rewrite Rminus_0_r; now apply Id). apply (lerp_mono fmt rnd F0 F1 Id Mono _ _ (1 / 4)%R (3 / 4)%R Fa Fb); (exact O || lra).
    - destruct (quantile_between m v s (1 / 4)%R Hs HF Hv H1 ltac:(lra)) as (y0 & Ey0 & By0). destruct (quantile_between m v s (3 / 4)%R Hs HF Hv H1 ltac:(lra)) as (y1 & Ey1 & By1).
      rewrite E0 in Ey0. injection Ey0 as <-. rewrite E1 in Ey1. injection Ey1 as <-. rewrite h0E in By0.
      assert (H2 : (2 <= INR N)%R) by (apply (le_INR 2); lia).
      assert (G : (INR N / 4 + 1 <= fl_mul rnd (3 / 4) (fl_nat rnd N))%R).
      { replace (INR N / 4 + 1)%R with (INR (N + 4) / 4)%R by (rewrite plus_INR; cbn [INR]; field). rewrite <- (Id _ GM). unfold fl_mul, fl_nat. rewrite (Id (INR N)) by (apply HN; lia). apply Mono. rewrite plus_INR. cbn [INR]. lra. }
      destruct (floor_nat _ (h_range (3 / 4)%R ltac:(lra))) as [[Z0 Z1] Z2]. set (h1 := fl_mul rnd (3 / 4) (fl_nat rnd N)) in *.
      assert (ZZ : (Zceil (INR N / 4) <= Zfloor h1)%Z).
      { destruct (floor_ceil (INR N / 4)%R) as [A|A].
        - rewrite <- A, Zceil_IZR. apply Zfloor_le. lra.
        - rewrite A. apply Zfloor_lub. rewrite plus_IZR. pose proof (Zfloor_lb (INR N / 4)%R). lra. }
      pose proof (Permutation_length (proj1 Hs)) as LS. assert (nth (Z.to_nat (Zceil (INR N / 4))) s 0 <= nth (Z.to_nat (Zfloor h1)) s 0)%R by (apply (proj2 Hs); lia). lra. }
  split.
  - unfold fl_sub. rewrite <- (Id 0%R F0). apply Mono. lra.
  - intros t Ht. specialize (B0 t Ht). specialize (B1 t Ht). unfold fl_sub. apply Mono. lra.
Qed.
End Facts.
