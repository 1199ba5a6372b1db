(** Proofs about the polynomial model over a field: division, derivative, integral, companion and Vandermonde matrices. *)
From Coq Require Import ZArith Ring Field.
From Verif Require Import Base Functional FunctionalProofs Spec SumLib Numeric Convolve ConvolveFacts Polynomial PolynomialFacts.
Open Scope nat_scope.

Section PolyField.
Context {T : Type} {rO rI : T} {radd rmul rsub : T -> T -> T} {ropp : T -> T} {rdiv : T -> T -> T} {rinv : T -> T}.
Hypothesis Fth : field_theory rO rI radd rmul rsub ropp rdiv rinv eq.
Add Field TFP : Fth.
Notation "a [+] b" := (radd a b) (at level 50, left associativity).
Notation "a [*] b" := (rmul a b) (at level 40, left associativity).
Notation "a [-] b" := (rsub a b) (at level 50, left associativity).
Notation "a [/] b" := (rdiv a b) (at level 40, left associativity).
Notation sum := (nsum rO radd).
Notation coef := (@coef T rO).
Notation cauchy := (@cauchy T rO radd rmul).
Notation evalf := (@evalf T rO rI radd rmul).
Notation pow := (rpow rI rmul).
Notation polyval := (polyval rO radd rmul).
Notation cprod := (@cprod T rO radd rmul).
Notation zadd := (@zadd T rO radd).
Let Rth : ring_theory rO rI radd rmul rsub ropp eq := F_R Fth.

(** *** division *)
Lemma div_inner_spec v d k cnt : forall tmp, k + cnt <= length tmp -> cnt <= length v ->
  exists r, div_inner rsub rmul v d k cnt tmp = Ok r /\ length r = length tmp /\
    forall j, coef r j = if (k <=? j) && (j <? k + cnt) then coef tmp j [-] d [*] coef v (j - k) else coef tmp j.
Proof.
  induction cnt as [|c IH]; intros tmp H1 H2; cbn [div_inner].
  - exists tmp. split; [reflexivity|]. split; [reflexivity|]. intros j. rewrite Nat.add_0_r.
    destruct (Nat.leb_spec k j), (Nat.ltb_spec j k); simpl; auto; lia.
  - rewrite (at_ub_coef (rO := rO)) by lia. cbn [bind]. rewrite (at_ub_coef (rO := rO)) by lia. cbn [bind].
    rewrite set_ub_ok by lia. cbn [bind].
    destruct (IH (upd tmp (k + c) (coef tmp (k + c) [-] d [*] coef v (k + c - k)))) as [r [E [L C]]]; rewrite ?upd_len; try lia.
    exists r. rewrite E. rewrite upd_len in L. split; [reflexivity|]. split; [exact L|]. intros j. rewrite C, upd_coef by lia.
    destruct (Nat.eqb_spec j (k + c)) as [->|N].
    + destruct (Nat.leb_spec k (k + c)), (Nat.ltb_spec (k + c) (k + c)), (Nat.ltb_spec (k + c) (k + S c)); cbn [andb]; try lia; reflexivity.
    + destruct (Nat.leb_spec k j), (Nat.ltb_spec j (k + c)), (Nat.ltb_spec j (k + S c)); cbn [andb]; auto; lia.
Qed.
Lemma div_outer_spec v n lc cnt : length v = S n -> coef v n = lc -> lc <> rO -> forall tmp, n + cnt <= length tmp ->
  exists r, div_outer rsub rmul v n (rI [/] lc) cnt tmp = Ok r /\ length r = length tmp /\
    (forall j, n + cnt <= j -> coef r j = coef tmp j) /\
    (forall j, j < n + cnt -> coef tmp j = (if j <? n then coef r j else rO) [+]
       sum (fun i => if i <=? j then coef r (n + i) [/] lc [*] coef v (j - i) else rO) cnt).
Proof.
  intros Hv Hlc Hnz. induction cnt as [|k IH]; intros tmp H; cbn [div_outer].
  - exists tmp. split; [reflexivity|]. split; [reflexivity|]. split; [reflexivity|]. intros j Hj.
    rewrite Nat.add_0_r in Hj. apply Nat.ltb_lt in Hj. rewrite Hj. simpl. ring.
  - rewrite (at_ub_coef (rO := rO)) by lia. cbn [bind].
    set (d := rI [/] lc [*] coef tmp (n + k)).
    destruct (div_inner_spec v d k n tmp) as [t1 [E1 [L1 C1]]]; try lia. rewrite E1. cbn [bind].
    destruct (IH t1) as [r [E [L [Chi Clo]]]]; [lia|]. exists r. split; [exact E|]. split; [lia|].
    assert (Ctop : forall j, n + k <= j -> coef t1 j = coef tmp j).
    { intros j Hj. rewrite C1. destruct (Nat.ltb_spec j (k + n)); [lia|]. now rewrite andb_false_r. }
    assert (Cr : coef r (n + k) = coef tmp (n + k)) by (rewrite Chi, Ctop; auto).
    split.
    + intros j Hj. rewrite Chi, Ctop by lia. reflexivity.
    + intros j Hj. cbn [nsum]. rewrite Cr. fold d.
      replace (coef tmp (n + k) [/] lc) with d by (unfold d; field; exact Hnz).
      destruct (Nat.eq_dec j (n + k)) as [->|N].
      * destruct (Nat.ltb_spec (n + k) n); [lia|]. destruct (Nat.leb_spec k (n + k)); [|lia].
        rewrite (sum_zero Rth).
        -- replace (n + k - k) with n by lia. rewrite Hlc. unfold d. field. exact Hnz.
        -- intros i Hi. destruct (Nat.leb_spec i (n + k)); [|reflexivity]. rewrite (coef_out v) by lia. ring.
      * specialize (Clo j ltac:(lia)). specialize (C1 j). rewrite Clo in C1.
        destruct (Nat.leb_spec k j), (Nat.ltb_spec j (k + n)); cbn [andb] in C1; try lia.
        -- replace (coef tmp j) with ((coef tmp j [-] d [*] coef v (j - k)) [+] d [*] coef v (j - k)) by ring. rewrite <- C1. ring.
        -- rewrite <- C1. ring.
Qed.
(** what polydiv returns, for every non-empty dividend and every divisor with a non-zero leading coefficient [lc] *)
Lemma polydiv_spec u v lc : u <> [] -> v <> [] -> coef v (length v - 1) = lc -> lc <> rO ->
  exists q r, polydiv rO rI rsub rmul rdiv u v = Ok (q, r) /\
    (2 <= length v -> length r < length v \/ length u < length v) /\
    zadd (cprod (if (2 <=? length v) && (length v <=? length u) then map (fun c => c [/] lc) q else q) v) r =
      u ++ repeat rO (if length u <? length v then length v - length u else 0) /\
    (length v <= length u -> length q = length u - length v + 1) /\
    length r = (if length v =? 1 then 1 else if length u <? length v then length u else length v - 1).
Proof.
  intros Hu Hv Hlc Hnz. assert (H0 : forall c : T, rO [/] lc = rO) by (intros; field; exact Hnz).
  assert (Lu : 1 <= length u) by (destruct u; simpl; [congruence|lia]).
  assert (Lv : 1 <= length v) by (destruct v; simpl; [congruence|lia]).
  unfold polydiv, require. destruct (Nat.eqb_spec (length u) 0) as [Z1|Z1]; [lia|]. destruct (Nat.eqb_spec (length v) 0) as [Z2|Z2]; [lia|]. cbn [negb].
  destruct (Nat.eqb_spec (length v) 1) as [E1|E1].
  - destruct v as [|v0 [|? ?]]; simpl in E1; try lia. rewrite (at_ub_coef (rO := rO)) by (simpl; lia). cbn [bind].
    change (coef [v0] (length [v0] - 1)) with v0 in Hlc. change (coef [v0] 0) with v0. subst lc.
    exists (map (fun x => x [/] v0) u), [rO]. rewrite transform1_map. split; [reflexivity|].
    split; [cbn [length]; lia|]. split; [|split; [intros _; rewrite map_length; cbn [length]; lia|reflexivity]].
    change (2 <=? length [v0]) with false. cbn [andb]. change (length [v0]) with 1.
    destruct (Nat.ltb_spec (length u) 1); [lia|]. cbn [repeat]. rewrite app_nil_r.
    apply (list_ext (rO := rO)).
    + rewrite zadd_length, cprod_length, map_length. cbn [length]. lia.
    + intros k _. rewrite (zadd_coef Rth), (cprod_coef Rth). unfold SumLib.cauchy.
      replace (coef [rO] k) with rO by (destruct k as [|[|?]]; reflexivity).
      rewrite (sum_window Rth _ k 1 (S k)).
      * cbn [nsum]. rewrite Nat.add_0_r, Nat.sub_diag. change (coef [v0] 0) with v0.
        rewrite coef_map by (apply H0; exact rO). field. exact Hnz.
      * lia.
      * intros i Hi. rewrite (coef_out [v0]) by (cbn [length]; lia). ring.
      * intros i Hi. lia.
  - destruct (Nat.ltb_spec (length u) (length v)) as [L|L].
    + exists [rO], u. split; [reflexivity|]. split; [lia|]. split; [|split; [lia|reflexivity]].
      destruct (Nat.leb_spec (length v) (length u)); [lia|]. rewrite andb_false_r.
      apply (list_ext (rO := rO)).
      * rewrite zadd_length, cprod_length, app_length, repeat_length. cbn [length]. lia.
      * intros k _. rewrite (zadd_coef Rth), (cprod_coef Rth). unfold SumLib.cauchy.
        rewrite (sum_zero Rth).
        -- rewrite coef_app, coef_repeat0. destruct (Nat.ltb_spec k (length u)); [ring|]. rewrite coef_out by lia. ring.
        -- intros i Hi. replace (coef [rO] i) with rO by (destruct i as [|[|?]]; reflexivity). ring.
    + unfold polydiv_impl. set (n := length v - 1) in *. rewrite (at_ub_coef (rO := rO)) by lia. cbn [bind]. rewrite Hlc.
      set (cnt := length u - 1 - n + 1).
      destruct (div_outer_spec v n lc cnt ltac:(lia) Hlc Hnz u) as [t [E [Lt [_ C]]]]; [lia|]. rewrite E. cbn [bind].
      exists (skipn n t), (firstn n t). split; [reflexivity|].
      assert (Lr : length (firstn n t) = n) by (rewrite firstn_length; lia).
      assert (Lq : length (skipn n t) = cnt) by (rewrite skipn_length; lia).
      split; [intros _; left; rewrite Lr; lia|].
      split; [|split; [intros _; rewrite Lq; lia|exact Lr]].
      destruct (Nat.leb_spec 2 (length v)); [|lia]. destruct (Nat.leb_spec (length v) (length u)); [|lia]. cbn [andb repeat]. rewrite app_nil_r.
      apply (list_ext (rO := rO)).
      * rewrite zadd_length, cprod_length, map_length, Lq, Lr. lia.
      * rewrite zadd_length, cprod_length, map_length, Lq, Lr. intros k Hk.
        rewrite (zadd_coef Rth), (cprod_coef Rth). rewrite (C k) by lia. rewrite coef_firstn.
        replace (cauchy (coef (map (fun c => c [/] lc) (skipn n t))) (coef v) k) with
          (sum (fun i => if i <=? k then coef t (n + i) [/] lc [*] coef v (k - i) else rO) cnt); [destruct (k <? n); ring|].
        unfold SumLib.cauchy.
        assert (Hc : forall i, coef (map (fun c => c [/] lc) (skipn n t)) i = coef t (n + i) [/] lc).
        { intros i. rewrite coef_map by (apply H0; exact rO). now rewrite coef_skipn. }
        destruct (Nat.le_gt_cases cnt (S k)) as [L2|L2].
        -- rewrite (sum_extend Rth _ cnt (S k)).
           ++ apply sum_ext. intros i Hi. rewrite Hc. destruct (Nat.leb_spec i k); [reflexivity|lia].
           ++ exact L2.
           ++ intros i Hi. rewrite coef_out by (rewrite map_length, Lq; lia). ring.
        -- rewrite (sum_extend Rth _ (S k) cnt).
           ++ apply sum_ext. intros i Hi. rewrite Hc. destruct (Nat.leb_spec i k); [reflexivity|lia].
           ++ lia.
           ++ intros i Hi. destruct (Nat.leb_spec i k); [lia|reflexivity].
Qed.
Lemma polyval_pad x P n : polyval x (P ++ repeat rO n) = polyval x P.
Proof.
  apply (polyval_coef_eq Rth). intros k. rewrite coef_app, coef_repeat0. destruct (Nat.ltb_spec k (length P)); [reflexivity|].
  symmetry. now apply coef_out.
Qed.

(** *** derivative: the factors are those of the descending coefficient order *)
Variable ofnat : nat -> T.
Definition deriv (P : list T) : list T := map (fun i => ofnat (S i) [*] coef P (S i)) (seq 0 (length P - 1)).
Lemma deriv_length P : length (deriv P) = length P - 1.
Proof. unfold deriv. now rewrite map_length, seq_length. Qed.
Lemma deriv_coef P i : coef (deriv P) i = if i <? length P - 1 then ofnat (S i) [*] coef P (S i) else rO.
Proof. unfold deriv. now rewrite coef_mapseq. Qed.
Lemma coef_rev P k : k < length P -> coef (rev P) k = coef P (length P - S k).
Proof. intros H. unfold SumLib.coef. now apply rev_nth. Qed.
Lemma polyder_once_spec P : P <> [] -> polyder_once rmul ofnat P = Ok (rev (deriv (rev P))).
Proof.
  intros HP. assert (1 <= length P) by (destruct P; simpl; [congruence|lia]).
  unfold polyder_once, require. destruct (Nat.eqb_spec (length P) 0); [lia|]. cbn [negb].
  rewrite (transform2_coef (rO := rO)) by (rewrite map_length, seq_length; lia). cbn [bind]. f_equal.
  apply (list_ext (rO := rO)).
  - rewrite firstn_length, map_length, seq_length, rev_length, deriv_length, rev_length. lia.
  - rewrite firstn_length, map_length, seq_length. intros k Hk. rewrite coef_firstn, coef_mapseq.
    destruct (Nat.ltb_spec k (length P - 1)); [|lia]. destruct (Nat.ltb_spec k (length P)); [|lia].
    rewrite coef_mapseq. destruct (Nat.ltb_spec k (length P)); [|lia].
    rewrite coef_rev by (rewrite deriv_length, rev_length; lia). rewrite deriv_length, deriv_coef, rev_length.
    destruct (Nat.ltb_spec (length P - 1 - S k) (length P - 1)); [|lia].
    rewrite coef_rev by lia. replace (S (length P - 1 - S k)) with (length P - 1 - k) by lia.
    replace (length P - S (length P - 1 - k)) with k by lia. ring.
Qed.
Fixpoint deriv_n (m : nat) (P : list T) : list T := match m with O => P | S k => deriv_n k (deriv P) end.
Lemma deriv_n_length m : forall P, length (deriv_n m P) = length P - m.
Proof. induction m as [|m IH]; intros P; simpl; [lia|]. rewrite IH, deriv_length. lia. Qed.
Lemma polyder_loop_spec m : forall P, m <= length P -> polyder_loop rmul ofnat m P = Ok (rev (deriv_n m (rev P))).
Proof.
  induction m as [|m IH]; intros P H; cbn [polyder_loop deriv_n]; [now rewrite rev_involutive|].
  rewrite polyder_once_spec by (destruct P; simpl in *; [lia|discriminate]). cbn [bind].
  rewrite IH by (rewrite rev_length, deriv_length, rev_length; lia). now rewrite rev_involutive.
Qed.
Lemma polyder_spec P m : polyder rmul ofnat P (Z.of_nat m) = Ok (rev (deriv_n m (rev P))).
Proof.
  unfold polyder, require. destruct (Z.leb_spec 0 (Z.of_nat m)); [|lia].
  destruct (Z.eqb_spec (Z.of_nat m) 0) as [E|E].
  - replace m with 0 by lia. simpl. now rewrite rev_involutive.
  - destruct (Z.leb_spec (Z.of_nat (length P)) (Z.of_nat m)) as [L|L].
    + f_equal. symmetry. apply length_zero_iff_nil. rewrite rev_length, deriv_n_length, rev_length. lia.
    + rewrite Nat2Z.id. apply polyder_loop_spec. lia.
Qed.
Lemma polyder_negative P m : (m < 0)%Z -> polyder rmul ofnat P m = RequireFail.
Proof. intros H. unfold polyder, require. destruct (Z.leb_spec 0 m); [lia|reflexivity]. Qed.

(** *** integral *)
Lemma polyint_fill_spec cnt : forall P, cnt < length P ->
  exists r, polyint_fill rdiv ofnat cnt P = Ok r /\ length r = length P /\
    forall j, coef r j = if (1 <=? j) && (j <=? cnt) then coef P (j - 1) [/] ofnat j else coef P j.
Proof.
  induction cnt as [|i IH]; intros P H; cbn [polyint_fill].
  - exists P. split; [reflexivity|]. split; [reflexivity|]. intros j.
    destruct (Nat.leb_spec 1 j), (Nat.leb_spec j 0); simpl; auto; lia.
  - rewrite (at_ub_coef (rO := rO)) by lia. cbn [bind]. rewrite set_ub_ok by lia. cbn [bind].
    destruct (IH (upd P (i + 1) (coef P i [/] ofnat (i + 1)))) as [r [E [L C]]]; rewrite ?upd_len; try lia.
    exists r. rewrite upd_len in L. split; [exact E|]. split; [exact L|]. intros j. rewrite C, !upd_coef by lia.
    destruct (Nat.eqb_spec j (i + 1)) as [->|N].
    + destruct (Nat.leb_spec 1 (i + 1)), (Nat.leb_spec (i + 1) i), (Nat.leb_spec (i + 1) (S i)); cbn [andb]; try lia.
      replace (i + 1 - 1) with i by lia. reflexivity.
    + destruct (Nat.eqb_spec (j - 1) (i + 1)), (Nat.leb_spec 1 j), (Nat.leb_spec j i), (Nat.leb_spec j (S i)); cbn [andb]; auto; lia.
Qed.
Definition antideriv (P : list T) : list T := rO :: map (fun i => coef P i [/] ofnat (S i)) (seq 0 (length P)).
Lemma polyint_once_spec P : polyint_once rO rdiv ofnat P = Ok (antideriv P).
Proof.
  unfold polyint_once. destruct (polyint_fill_spec (length P) (P ++ [rO])) as [r [E [L C]]]; [rewrite app_length; cbn [length]; lia|].
  rewrite app_length in L. cbn [length] in L. rewrite E. cbn [bind]. rewrite set_ub_ok by lia. f_equal.
  apply (list_ext (rO := rO)); rewrite upd_len; [unfold antideriv; cbn [length]; rewrite map_length, seq_length; lia|].
  intros k Hk. rewrite upd_coef, C by lia. destruct k as [|k]; [reflexivity|]. cbn [Nat.eqb].
  change (coef (antideriv P) (S k)) with (coef (map (fun i => coef P i [/] ofnat (S i)) (seq 0 (length P))) k).
  rewrite coef_mapseq, coef_app. destruct (Nat.leb_spec 1 (S k)), (Nat.leb_spec (S k) (length P)), (Nat.ltb_spec k (length P)); cbn [andb]; try lia.
  replace (S k - 1) with k by lia. destruct (Nat.ltb_spec k (length P)); [reflexivity|lia].
Qed.
Lemma polyint_array_spec P : polyint_once_array rO rdiv ofnat P = antideriv P.
Proof. unfold polyint_once_array, antideriv. f_equal. apply map_ext. intros i. now replace (i + 1) with (S i) by lia. Qed.
Fixpoint antideriv_n (m : nat) (P : list T) : list T := match m with O => P | S k => antideriv_n k (antideriv P) end.
Lemma polyint_loop_spec m : forall P, polyint_loop rO rdiv ofnat m P = Ok (antideriv_n m P).
Proof. induction m as [|m IH]; intros P; cbn [polyint_loop antideriv_n]; [reflexivity|]. rewrite polyint_once_spec. cbn [bind]. apply IH. Qed.
Lemma polyint_spec P m : P <> [] -> polyint rO rdiv ofnat P (Z.of_nat m) = Ok (antideriv_n m P).
Proof.
  intros H. unfold polyint, require. destruct (Nat.eqb_spec (length P) 0) as [E|E]; [destruct P; simpl in E; congruence|]. cbn [negb].
  destruct (Z.leb_spec 0 (Z.of_nat m)); [|lia]. destruct (Z.eqb_spec (Z.of_nat m) 0) as [E0|E0].
  - replace m with 0 by lia. reflexivity.
  - rewrite Nat2Z.id. apply polyint_loop_spec.
Qed.
Lemma deriv_antideriv P : (forall n, ofnat (S n) <> rO) -> deriv (antideriv P) = P.
Proof.
  intros H. apply (list_ext (rO := rO)); rewrite deriv_length; unfold antideriv; cbn [length]; rewrite map_length, seq_length; [lia|].
  intros k Hk. rewrite deriv_coef. cbn [length]. rewrite map_length, seq_length. destruct (Nat.ltb_spec k (S (length P) - 1)); [|lia].
  change (coef (rO :: map (fun i => coef P i [/] ofnat (S i)) (seq 0 (length P))) (S k)) with
    (coef (map (fun i => coef P i [/] ofnat (S i)) (seq 0 (length P))) k).
  rewrite coef_mapseq. destruct (Nat.ltb_spec k (length P)); [|lia]. field. apply H.
Qed.

(** *** Vandermonde matrix (list of columns) *)
Lemma vander_cols_spec x cnt : forall j, vander_cols rmul x (map (fun t => pow t j) x) cnt =
  Ok (map (fun k => map (fun t => pow t k) x) (seq (S j) cnt)).
Proof.
  induction cnt as [|cnt IH]; intros j; cbn [vander_cols seq map]; [reflexivity|].
  rewrite map2_ok by (now rewrite map_length). cbn [bind].
  replace (map (fun xy => fst xy [*] snd xy) (combine (map (fun t => pow t j) x) x)) with (map (fun t => pow t (S j)) x).
  - rewrite IH. reflexivity.
  - clear IH. induction x as [|y x IH]; [reflexivity|]. cbn [map combine fst snd]. rewrite IH. f_equal.
    change (pow y (S j)) with (y [*] pow y j). apply (Rmul_comm (F_R Fth)).
Qed.
Lemma polyvander_spec x deg : 1 <= deg ->
  polyvander rI rmul x (Z.of_nat deg) = Ok (map (fun j => map (fun t => pow t j) x) (seq 0 (S deg))).
Proof.
  intros H. unfold polyvander. destruct (Z.ltb_spec (Z.of_nat deg) 1); [lia|]. rewrite Nat2Z.id.
  assert (E : map (fun t => pow t 1) x = x) by (rewrite <- (map_id x) at 2; apply map_ext; intros t; simpl; ring).
  pose proof (vander_cols_spec x (deg - 1) 1) as V. rewrite E in V. rewrite V. cbn [bind].
  destruct deg as [|deg]; [lia|]. replace (S deg - 1) with deg by lia. cbn [seq map]. do 2 f_equal.
  - clear. induction x as [|y x IH]; [reflexivity|]. simpl. now rewrite IH.
  - f_equal. symmetry. exact E.
Qed.

(** *** companion matrix (list of rows): eigenvalues = roots *)
Definition entry (M : list (list T)) (i j : nat) : T := coef (nth i M []) j.
Lemma polycompanion_spec P : 2 <= length P -> let n := length P - 1 in
  exists M, polycompanion rO rI rdiv ropp P = Ok M /\ length M = n /\ (forall row, In row M -> length row = n) /\
    forall i j, i < n -> j < n -> entry M i j = if j =? n - 1 then ropp (coef P i) [/] coef P n else if i =? S j then rI else rO.
Proof.
  intros H n. unfold polycompanion. destruct (Nat.leb_spec (length P) 1); [lia|]. fold n.
  rewrite (at_ub_coef (rO := rO)) by (unfold n; lia). cbn [bind]. eexists. split; [reflexivity|].
  split; [now rewrite map_length, seq_length|]. split.
  - intros row Hr. apply in_map_iff in Hr. destruct Hr as (i & <- & _). now rewrite map_length, seq_length.
  - intros i j Hi Hj. unfold entry.
    set (f := fun i => map (fun j => if j =? n - 1 then ropp (nth i P rO) [/] coef P n else if i =? S j then rI else rO) (seq 0 n)).
    rewrite nth_indep with (d' := f 0) by (rewrite map_length, seq_length; exact Hi).
    rewrite (map_nth f), seq_nth by exact Hi. unfold f. rewrite coef_mapseq. destruct (Nat.ltb_spec j n); [reflexivity|lia].
Qed.
(** row vector w times matrix, component j *)
Definition vecmat (w : nat -> T) (M : list (list T)) (n j : nat) : T := sum (fun i => w i [*] entry M i j) n.
Lemma companion_eigen P lam M : 2 <= length P -> coef P (length P - 1) <> rO -> polycompanion rO rI rdiv ropp P = Ok M ->
  let n := length P - 1 in
  (polyval lam P = rO <-> exists w, (exists i, i < n /\ w i <> rO) /\ forall j, j < n -> vecmat w M n j = lam [*] w j).
Proof.
  intros H Hlc HM n. destruct (polycompanion_spec P H) as [M' [E [_ [_ C]]]]. rewrite HM in E. injection E as <-. fold n in C, Hlc.
  assert (Hn : 1 <= n) by (unfold n; lia).
  assert (V1 : forall w j, S j < n -> vecmat w M n j = w (S j)).
  { intros w j Hj. unfold vecmat. rewrite (sum_window Rth _ (S j) 1 n).
    - cbn [nsum]. rewrite Nat.add_0_r, C by lia. destruct (Nat.eqb_spec j (n - 1)); [lia|]. rewrite Nat.eqb_refl. ring.
    - lia.
    - intros i Hi. rewrite C by lia. destruct (Nat.eqb_spec j (n - 1)); [lia|]. destruct (Nat.eqb_spec i (S j)); [lia|]. ring.
    - intros i Hi. rewrite C by lia. destruct (Nat.eqb_spec j (n - 1)); [lia|]. destruct (Nat.eqb_spec i (S j)); [lia|]. ring. }
  assert (V2 : forall c, vecmat (fun i => c [*] pow lam i) M n (n - 1) =
                 ropp (c [*] sum (fun i => coef P i [*] pow lam i) n) [/] coef P n).
  { intros c. unfold vecmat.
    replace (ropp (c [*] sum (fun i => coef P i [*] pow lam i) n) [/] coef P n)
      with ((ropp c [/] coef P n) [*] sum (fun i => coef P i [*] pow lam i) n) by (field; exact Hlc).
    rewrite <- (sum_scale_l Rth). apply sum_ext. intros i Hi. rewrite C by lia. rewrite Nat.eqb_refl. field. exact Hlc. }
  assert (EP : polyval lam P = sum (fun i => coef P i [*] pow lam i) n [+] coef P n [*] pow lam n).
  { rewrite (polyval_len Rth lam P (S n)) by (unfold n; lia). reflexivity. }
  split.
  - intros R. exists (fun i => rI [*] pow lam i). split.
    + exists 0. split; [lia|]. simpl. intros Z. apply (F_1_neq_0 Fth). rewrite <- Z. ring.
    + intros j Hj. destruct (Nat.eq_dec j (n - 1)) as [->|N].
      * rewrite V2. rewrite EP in R.
        replace (sum (fun i => coef P i [*] pow lam i) n) with (ropp (coef P n [*] pow lam n)).
        -- replace n with (S (n - 1)) at 2 by lia. cbn [rpow]. field. exact Hlc.
        -- replace (sum (fun i => coef P i [*] pow lam i) n) with
             ((sum (fun i => coef P i [*] pow lam i) n [+] coef P n [*] pow lam n) [-] coef P n [*] pow lam n) by ring.
           rewrite R. ring.
      * rewrite V1 by lia. cbn [rpow]. ring.
  - intros (w & (i0 & Hi0 & Hw) & HE).
    assert (G : forall i, i < n -> w i = w 0 [*] pow lam i).
    { induction i as [|i IH]; intros Hi; [simpl; ring|]. rewrite <- (V1 w i) by lia. rewrite HE by lia. rewrite IH by lia. cbn [rpow]. ring. }
    assert (W0 : w 0 <> rO). { intros Z. apply Hw. rewrite G by exact Hi0. rewrite Z. ring. }
    specialize (HE (n - 1) ltac:(lia)).
    assert (HE2 : vecmat (fun i => w 0 [*] pow lam i) M n (n - 1) = lam [*] (w 0 [*] pow lam (n - 1))).
    { rewrite <- G by lia. rewrite <- HE. unfold vecmat. apply sum_ext. intros i Hi. now rewrite <- G by lia. }
    rewrite V2 in HE2. rewrite EP. replace (pow lam n) with (lam [*] pow lam (n - 1)) by (replace n with (S (n - 1)) at 2 by lia; reflexivity).
    set (S0 := sum (fun i => coef P i [*] pow lam i) n) in *. set (p := pow lam (n - 1)) in *. set (c := coef P n) in *. set (a := w 0) in *.
    transitivity ((a [*] S0 [+] c [*] (lam [*] (a [*] p))) [/] a); [field; exact W0|]. rewrite <- HE2. field. auto.
Qed.
End PolyField.
