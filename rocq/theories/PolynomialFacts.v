(** Proofs about the polynomial model over a commutative ring. *)
From Coq Require Import ZArith Ring.
From Verif Require Import Base Functional FunctionalProofs Spec SumLib Numeric Convolve ConvolveFacts Polynomial.
Open Scope nat_scope.

Section PolyRing.
Context {T : Type} {rO rI : T} {radd rmul rsub : T -> T -> T} {ropp : T -> T}.
Hypothesis Rth : ring_theory rO rI radd rmul rsub ropp eq.
Add Ring TRP : Rth.
Notation "a [+] b" := (radd a b) (at level 50, left associativity).
Notation "a [*] b" := (rmul a b) (at level 40, left associativity).
Notation "a [-] b" := (rsub a b) (at level 50, left associativity).
Notation sum := (nsum rO radd).
Notation coef := (@coef T rO).
Notation cauchy := (@cauchy T rO radd rmul).
Notation evalf := (@evalf T rO rI radd rmul).
Notation pow := (rpow rI rmul).
Notation polyval := (polyval rO radd rmul).
Notation cprod := (@cprod T rO radd rmul).
Notation zadd := (@zadd T rO radd).

(** *** polyval *)
Lemma polyval_cons x c P : polyval x (c :: P) = polyval x P [*] x [+] c.
Proof. unfold Polynomial.polyval. simpl. now rewrite fold_left_app. Qed.
Lemma polyval_eval x P : polyval x P = evalf (coef P) (length P) x.
Proof.
  induction P as [|c P IH]; [reflexivity|]. rewrite polyval_cons, IH. unfold SumLib.evalf.
  change (length (c :: P)) with (S (length P)). rewrite (sum_first Rth). rewrite <- (sum_scale_r Rth).
  rewrite (sum_ext (fun k => (coef P k [*] pow x k) [*] x) (fun k => coef (c :: P) (S k) [*] pow x (S k))).
  - change (coef (c :: P) 0) with c. change (pow x 0) with rI. ring.
  - intros k Hk. change (coef (c :: P) (S k)) with (coef P k). change (pow x (S k)) with (x [*] pow x k). ring.
Qed.
Lemma polyval_len x P n : length P <= n -> polyval x P = evalf (coef P) n x.
Proof.
  intros H. rewrite polyval_eval. unfold SumLib.evalf. symmetry. apply (sum_extend Rth); [exact H|].
  intros k Hk. rewrite coef_out by lia. ring.
Qed.
Lemma polyval_coef_eq x P Q : (forall k, coef P k = coef Q k) -> polyval x P = polyval x Q.
Proof.
  intros H. rewrite (polyval_len x P (Nat.max (length P) (length Q))), (polyval_len x Q (Nat.max (length P) (length Q))) by lia.
  unfold SumLib.evalf. apply sum_ext. intros; now rewrite H.
Qed.

(** *** copying *)
Lemma skipn_skipn_add (A : Type) (m n : nat) (l : list A) : skipn m (skipn n l) = skipn (n + m) l.
Proof. revert l. induction n as [|n IH]; intros l; [reflexivity|]. destruct l; [now rewrite !skipn_nil|]. simpl. apply IH. Qed.
Lemma copy_at_spec (src : list T) : forall dst pos, pos + length src <= length dst ->
  copy_at dst pos src = Ok (firstn pos dst ++ src ++ skipn (pos + length src) dst).
Proof.
  induction src as [|x r IH]; intros dst pos H; simpl.
  - rewrite Nat.add_0_r, firstn_skipn. reflexivity.
  - simpl in H. unfold set_ub. destruct (Nat.ltb_spec pos (length dst)); [|lia]. cbn [bind].
    assert (E : upd dst pos x = firstn pos dst ++ x :: skipn (S pos) dst).
    { clear -H0. revert pos H0. induction dst as [|y dst IH]; intros [|pos] H; simpl in *; try lia; [reflexivity|].
      rewrite IH by lia. reflexivity. }
    assert (L : length (firstn pos dst) = pos) by (rewrite firstn_length; lia).
    rewrite IH.
    + rewrite E. f_equal.
      rewrite (firstn_app (S pos)). rewrite L. replace (S pos - pos) with 1 by lia. rewrite firstn_all2 by lia. simpl firstn.
      rewrite <- app_assoc. f_equal. cbn [app]. do 2 f_equal.
      rewrite skipn_app, L. rewrite skipn_all2 by lia. cbn [app].
      replace (S pos + length r - pos) with (S (length r)) by lia. cbn [skipn].
      change (match dst with [] => [] | _ :: l => skipn pos l end) with (skipn (S pos) dst).
      rewrite skipn_skipn_add. f_equal. lia.
    + rewrite E, app_length. change (length (x :: skipn (S pos) dst)) with (S (length (skipn (S pos) dst))). rewrite L, skipn_length. lia.
Qed.
Lemma transform2_coef (op : T -> T -> T) (a b : list T) : length a <= length b ->
  transform2 op a b = Ok (map (fun i => op (coef a i) (coef b i)) (seq 0 (length a))).
Proof.
  revert b. induction a as [|x a IH]; intros [|y b] H; simpl in *; try lia; [reflexivity|reflexivity|].
  rewrite IH by lia. simpl. do 2 f_equal. rewrite <- seq_shift, map_map. reflexivity.
Qed.
Lemma coef_app a b k : coef (a ++ b) k = if k <? length a then coef a k else coef b (k - length a).
Proof.
  unfold SumLib.coef. destruct (Nat.ltb_spec k (length a)); [now apply app_nth1|now apply app_nth2].
Qed.
Lemma coef_skipn n a k : coef (skipn n a) k = coef a (n + k).
Proof.
  unfold SumLib.coef. revert n; induction a as [|x a IH]; intros [|n]; simpl; auto; destruct k; reflexivity.
Qed.
Lemma coef_firstn n a k : coef (firstn n a) k = if k <? n then coef a k else rO.
Proof.
  unfold SumLib.coef. revert n k; induction a as [|x a IH]; intros [|n] [|k]; simpl; auto; try (destruct (_ <? _); reflexivity).
  rewrite IH. reflexivity.
Qed.
Lemma coef_mapseq (f : nat -> T) n k : coef (map f (seq 0 n)) k = if k <? n then f k else rO.
Proof.
  destruct (Nat.ltb_spec k n).
  - apply (coef_list (rO := rO) (map f (seq 0 n)) n f eq_refl k H).
  - apply coef_out. now rewrite map_length, seq_length.
Qed.
Lemma coef_repeat0 n k : coef (repeat rO n) k = rO.
Proof. unfold SumLib.coef. apply nth_repeat. Qed.

(** *** addition, subtraction *)
Definition zsub (a b : list T) : list T := map (fun i => coef a i [-] coef b i) (seq 0 (Nat.max (length a) (length b))).
Lemma zsub_length a b : length (zsub a b) = Nat.max (length a) (length b).
Proof. unfold zsub. now rewrite map_length, seq_length. Qed.
Lemma zadd_length a b : length (zadd a b) = Nat.max (length a) (length b).
Proof. unfold ConvolveFacts.zadd. now rewrite map_length, seq_length. Qed.
Lemma zsub_coef a b k : coef (zsub a b) k = coef a k [-] coef b k.
Proof.
  unfold zsub. rewrite coef_mapseq. destruct (Nat.ltb_spec k (Nat.max (length a) (length b))); [reflexivity|].
  rewrite !coef_out by lia. ring.
Qed.
Lemma fill_two (P t s : list T) n : n = length t -> length t + length s = length P ->
  (do P' <- copy_at P 0 t; copy_at P' n s) = Ok (t ++ s).
Proof.
  intros -> H. rewrite copy_at_spec by lia. cbn [bind]. simpl firstn. simpl app. rewrite copy_at_spec.
  - f_equal. rewrite firstn_app, firstn_all, Nat.sub_diag. simpl firstn. rewrite app_nil_r. f_equal.
    rewrite skipn_all2; [apply app_nil_r|]. rewrite app_length, skipn_length. simpl. lia.
  - rewrite app_length, skipn_length. simpl. lia.
Qed.
Lemma polyadd_spec P Q : polyadd rO radd P Q = Ok (zadd P Q).
Proof.
  unfold polyadd, add_arrays. destruct (Nat.leb_spec (length P) (length Q)) as [L|L].
  - rewrite repeat_length. replace (length Q <? length P) with false by (symmetry; apply Nat.ltb_ge; lia).
    unfold require. rewrite Nat.leb_refl. rewrite transform2_coef by exact L. cbn [bind].
    rewrite fill_two by (rewrite ?map_length, ?seq_length, ?skipn_length, ?repeat_length; lia).
    f_equal. apply (list_ext (rO := rO)).
    + rewrite zadd_length, app_length, map_length, seq_length, skipn_length. lia.
    + intros k Hk. rewrite (zadd_coef Rth), coef_app, map_length, seq_length, coef_mapseq, coef_skipn.
      destruct (Nat.ltb_spec k (length P)); [reflexivity|]. rewrite (coef_out P) by lia. replace (length P + (k - length P)) with k by lia. ring.
  - replace (length Q <? length P) with true by (symmetry; apply Nat.ltb_lt; lia). rewrite repeat_length.
    unfold require. rewrite Nat.leb_refl. rewrite transform2_coef by lia. cbn [bind].
    rewrite fill_two by (rewrite ?map_length, ?seq_length, ?skipn_length, ?repeat_length; lia).
    f_equal. apply (list_ext (rO := rO)).
    + rewrite zadd_length, app_length, map_length, seq_length, skipn_length. lia.
    + intros k Hk. rewrite (zadd_coef Rth), coef_app, map_length, seq_length, coef_mapseq, coef_skipn.
      destruct (Nat.ltb_spec k (length Q)); [ring|]. rewrite (coef_out Q) by lia. replace (length Q + (k - length Q)) with k by lia. ring.
Qed.
Lemma polysub_spec P Q : polysub rO rsub ropp P Q = Ok (zsub P Q).
Proof.
  unfold polysub, sub_arrays. destruct (Nat.leb_spec (length P) (length Q)) as [L|L].
  - rewrite repeat_length. replace (length Q <? length P) with false by (symmetry; apply Nat.ltb_ge; lia).
    unfold require. rewrite Nat.leb_refl. rewrite transform2_coef by exact L. cbn [bind]. rewrite transform1_map.
    rewrite fill_two by (rewrite ?map_length, ?seq_length, ?skipn_length, ?repeat_length; lia).
    f_equal. assert (H0 : ropp rO = rO) by ring. apply (list_ext (rO := rO)).
    + rewrite zsub_length, app_length, !map_length, seq_length, skipn_length. lia.
    + intros k Hk. rewrite zsub_coef, coef_app, map_length, seq_length, coef_mapseq, (coef_map ropp) by exact H0. rewrite coef_skipn.
      destruct (Nat.ltb_spec k (length P)); [reflexivity|]. rewrite (coef_out P) by lia. replace (length P + (k - length P)) with k by lia. ring.
  - replace (length Q <? length P) with true by (symmetry; apply Nat.ltb_lt; lia). rewrite repeat_length.
    unfold require. rewrite Nat.leb_refl. rewrite transform2_coef by lia. cbn [bind].
    rewrite fill_two by (rewrite ?map_length, ?seq_length, ?skipn_length, ?repeat_length; lia).
    f_equal. apply (list_ext (rO := rO)).
    + rewrite zsub_length, app_length, map_length, seq_length, skipn_length. lia.
    + intros k Hk. rewrite zsub_coef, coef_app, map_length, seq_length, coef_mapseq, coef_skipn.
      destruct (Nat.ltb_spec k (length Q)); [ring|]. rewrite (coef_out Q) by lia. replace (length Q + (k - length Q)) with k by lia. ring.
Qed.
Lemma eval_zadd x P Q : polyval x (zadd P Q) = polyval x P [+] polyval x Q.
Proof.
  set (n := Nat.max (length P) (length Q)).
  rewrite (polyval_len x (zadd P Q) n), (polyval_len x P n), (polyval_len x Q n) by (rewrite ?zadd_length; lia).
  unfold SumLib.evalf. rewrite <- (sum_add Rth). apply sum_ext. intros k _. rewrite (zadd_coef Rth). ring.
Qed.
Lemma eval_zsub x P Q : polyval x (zsub P Q) = polyval x P [-] polyval x Q.
Proof.
  set (n := Nat.max (length P) (length Q)).
  rewrite (polyval_len x (zsub P Q) n), (polyval_len x P n), (polyval_len x Q n) by (rewrite ?zsub_length; lia).
  unfold SumLib.evalf. replace (sum _ n [-] sum _ n) with (sum (fun i => coef P i [*] pow x i) n [+] ropp (sum (fun i => coef Q i [*] pow x i) n)) by ring.
  rewrite <- (sum_opp Rth), <- (sum_add Rth). apply sum_ext. intros k _. rewrite zsub_coef. ring.
Qed.
Lemma zsub_zadd_opp P Q : zsub P Q = zadd P (map ropp Q).
Proof.
  assert (H0 : ropp rO = rO) by ring. apply (list_ext (rO := rO)).
  - rewrite zsub_length, zadd_length, map_length. reflexivity.
  - intros k _. rewrite zsub_coef, (zadd_coef Rth), (coef_map ropp) by exact H0. ring.
Qed.
Lemma eval_scale x P s : polyval x (map (fun c => c [*] s) P) = polyval x P [*] s.
Proof. induction P as [|c P IH]; [simpl; unfold Polynomial.polyval; simpl; ring|]. simpl map. rewrite !polyval_cons, IH. ring. Qed.

(** *** multiplication *)
Lemma polymul_spec P Q : P <> [] \/ Q <> [] -> polymul rO radd rmul P Q = Ok (cprod P Q).
Proof. apply (convolve_spec Rth). Qed.
Lemma eval_cprod x P Q : P <> [] \/ Q <> [] -> polyval x (cprod P Q) = polyval x P [*] polyval x Q.
Proof.
  intros H. rewrite !polyval_eval, cprod_length.
  rewrite <- (eval_cauchy Rth (coef P) (coef Q) x (length P) (length Q)).
  - unfold SumLib.evalf. apply sum_ext. intros k _. now rewrite (cprod_coef Rth).
  - intros; now apply coef_out.
  - intros; now apply coef_out.
  - destruct P, Q; simpl; try lia. destruct H; congruence.
Qed.
Lemma polymulx_spec P : polymulx rO P = Ok (rO :: P).
Proof.
  unfold polymulx. rewrite copy_at_spec by (rewrite repeat_length; lia). f_equal.
  replace (length P + 1) with (S (length P)) by lia. simpl. f_equal. rewrite skipn_all2; [apply app_nil_r|].
  rewrite repeat_length. lia.
Qed.
Lemma polymulx_rvalue_spec P : polymulx_rvalue rO P = rO :: P.
Proof. unfold polymulx_rvalue. rewrite rev_app_distr. simpl. now rewrite rev_involutive. Qed.

(** *** powers *)
Fixpoint ppow (P : list T) (n : nat) : list T := match n with O => [rI] | S m => cprod P (ppow P m) end.
Lemma cprod_ne P Q : P <> [] -> Q <> [] -> cprod P Q <> [].
Proof.
  intros H H0 E. apply (f_equal (@length T)) in E. rewrite cprod_length in E. destruct P, Q; simpl in E; try congruence. lia.
Qed.
Lemma ppow_ne P n : P <> [] -> ppow P n <> [].
Proof. intros H. induction n as [|n IH]; simpl; [discriminate|]. now apply cprod_ne. Qed.
Lemma ppow_add P m n : P <> [] -> ppow P (m + n) = cprod (ppow P m) (ppow P n).
Proof.
  intros H. induction m as [|m IH]; simpl; [now rewrite (cprod_1_l Rth)|].
  rewrite IH. symmetry. apply (cprod_assoc Rth); auto using ppow_ne.
Qed.
Lemma ppow_sq P n : P <> [] -> ppow (cprod P P) n = ppow P (n + n).
Proof.
  intros H. induction n as [|n IH]; [reflexivity|].
  replace (S n + S n) with (S (S (n + n))) by lia. simpl. rewrite IH. now apply (cprod_assoc Rth); auto using ppow_ne.
Qed.
Lemma ppow_1 P : ppow P 1 = P.
Proof. simpl. rewrite (cprod_comm Rth). apply (cprod_1_l Rth). Qed.
Lemma half_even n : n mod 2 = 0 -> n = n / 2 + n / 2.
Proof. intros H. pose proof (Nat.div_mod n 2). lia. Qed.
Lemma half_odd n : n mod 2 = 1 -> n = S (n / 2 + n / 2).
Proof. intros H. pose proof (Nat.div_mod n 2). lia. Qed.
Lemma mod2_cases n : n mod 2 = 0 \/ n mod 2 = 1.
Proof. pose proof (Nat.mod_upper_bound n 2). lia. Qed.
Lemma polypow_loop_spec fuel : forall n x y, n <= fuel -> 1 <= n -> x <> [] -> y <> [] ->
  exists x' y', polypow_loop rO radd rmul fuel n x y = Ok (x', y') /\ x' <> [] /\ y' <> [] /\ cprod x' y' = cprod (ppow x n) y.
Proof.
  induction fuel as [|f IH]; intros n x y Hn H1 Hx Hy; [lia|]. cbn [polypow_loop].
  destruct (Nat.ltb_spec 1 n) as [L|L].
  - assert (Hd : n / 2 < n) by (apply Nat.div_lt; lia). assert (Hd1 : 1 <= n / 2) by (apply Nat.div_le_lower_bound; lia).
    destruct (mod2_cases n) as [E|E]; rewrite E; cbn [Nat.eqb].
    + cbn [bind]. rewrite polymul_spec by auto. cbn [bind].
      destruct (IH (n / 2) (cprod x x) y) as [x' [y' [E1 [N1 [N2 E2]]]]]; auto using cprod_ne; try lia.
      exists x', y'. rewrite E1. repeat split; auto. rewrite E2, ppow_sq by exact Hx. now rewrite <- (half_even n E).
    + rewrite polymul_spec by auto. cbn [bind]. rewrite polymul_spec by auto. cbn [bind].
      destruct (IH (n / 2) (cprod x x) (cprod x y)) as [x' [y' [E1 [N1 [N2 E2]]]]]; auto using cprod_ne; try lia.
      exists x', y'. rewrite E1. repeat split; auto. rewrite E2, ppow_sq by exact Hx.
      rewrite (half_odd n E) at 3. simpl ppow.
      rewrite <- (cprod_assoc Rth) by auto using ppow_ne. f_equal. apply (cprod_comm Rth).
  - exists x, y. assert (n = 1) by lia. subst n. now rewrite ppow_1.
Qed.
Lemma polypow_spec P n : P <> [] -> polypow rO rI radd rmul P n = Ok (ppow P n).
Proof.
  intros H. unfold polypow. destruct (Nat.eqb_spec n 0) as [->|H0]; [reflexivity|].
  destruct (Nat.eqb_spec n 1) as [->|H1]; [now rewrite ppow_1|].
  destruct (Nat.eqb_spec (length P) 0) as [E|E]; [destruct P; simpl in E; congruence|].
  destruct (polypow_loop_spec n n P [rI]) as [x [y [E1 [N1 [N2 E2]]]]]; auto; try lia; try discriminate.
  rewrite E1. cbn [bind]. rewrite polymul_spec by auto. f_equal. rewrite E2, (cprod_comm Rth). apply (cprod_1_l Rth).
Qed.
Lemma polypow_array_spec fuel : forall n P, n <= fuel -> P <> [] -> polypow_array rO rI radd rmul fuel n P = Ok (ppow P n).
Proof.
  induction fuel as [|f IH]; intros n P Hn H; [replace n with 0 by lia; reflexivity|]. cbn [polypow_array].
  destruct (Nat.eqb_spec n 0) as [->|H0]; [reflexivity|].
  destruct (Nat.eqb_spec n 1) as [->|H1]; [now rewrite ppow_1|].
  rewrite polymul_spec by auto. cbn [bind]. assert (Hd : n / 2 < n) by (apply Nat.div_lt; lia).
  destruct (mod2_cases n) as [E|E]; rewrite E; cbn [Nat.eqb].
  - rewrite IH by (auto using cprod_ne; lia). rewrite ppow_sq by exact H. now rewrite <- (half_even n E).
  - assert (E3 : (n - 1) / 2 = n / 2).
    { rewrite (half_odd n E) at 1. replace (S (n / 2 + n / 2) - 1) with (n / 2 * 2) by lia. apply Nat.div_mul. lia. }
    rewrite E3, IH by (auto using cprod_ne; lia). cbn [bind]. rewrite ppow_sq by exact H. rewrite polymul_spec by auto.
    f_equal. change (cprod P (ppow P (n / 2 + n / 2))) with (ppow P (S (n / 2 + n / 2))). f_equal. symmetry. now apply half_odd.
Qed.
Lemma eval_ppow x P n : P <> [] -> polyval x (ppow P n) = pow (polyval x P) n.
Proof.
  intros H. induction n as [|n IH]; simpl; [unfold Polynomial.polyval; simpl; ring|]. rewrite eval_cprod by auto. now rewrite IH.
Qed.
Lemma ppow_length P n : P <> [] -> length (ppow P n) = n * (length P - 1) + 1.
Proof.
  intros H. assert (1 <= length P) by (destruct P; simpl; [congruence|lia]).
  induction n as [|n IH]; [reflexivity|]. simpl ppow. rewrite cprod_length, IH. simpl. lia.
Qed.

(** *** class operators *)
Lemma upd_coef (v : list T) i x k : i < length v -> coef (upd v i x) k = if k =? i then x else coef v k.
Proof.
  unfold SumLib.coef. revert i k; induction v as [|y v IH]; intros [|i] [|k] H; simpl in *; try lia; auto. apply IH. lia.
Qed.
Lemma upd_len (v : list T) i x : length (upd v i x) = length v.
Proof. revert i; induction v as [|y v IH]; intros [|i]; simpl; auto. Qed.
Lemma set_ub_ok (v : list T) i x : i < length v -> set_ub v i x = Ok (upd v i x).
Proof. intros H. unfold set_ub. destruct (Nat.ltb_spec i (length v)); [reflexivity|lia]. Qed.
Lemma sub_range_spec rhs cnt : forall p pos, pos + cnt <= length p -> pos + cnt <= length rhs ->
  exists r, sub_range rsub p rhs pos cnt = Ok r /\ length r = length p /\
    forall k, coef r k = if (pos <=? k) && (k <? pos + cnt) then coef p k [-] coef rhs k else coef p k.
Proof.
  induction cnt as [|cnt IH]; intros p pos H1 H2; cbn [sub_range].
  - exists p. split; [reflexivity|]. split; [reflexivity|]. intros k. rewrite Nat.add_0_r.
    destruct (Nat.leb_spec pos k), (Nat.ltb_spec k pos); simpl; auto; lia.
  - rewrite (at_ub_coef (rO := rO)) by lia. cbn [bind]. rewrite (at_ub_coef (rO := rO)) by lia. cbn [bind].
    rewrite set_ub_ok by lia. cbn [bind].
    destruct (IH (upd p pos (coef p pos [-] coef rhs pos)) (S pos)) as [r [E [L C]]]; rewrite ?upd_len; try lia.
    exists r. rewrite E. split; [reflexivity|]. rewrite upd_len in L. split; [exact L|]. intros k. rewrite C.
    rewrite upd_coef by lia.
    destruct (Nat.eqb_spec k pos) as [->|N].
    + destruct (Nat.leb_spec (S pos) pos); [lia|]. simpl. rewrite Nat.leb_refl.
      destruct (Nat.ltb_spec pos (pos + S cnt)); [reflexivity|lia].
    + destruct (Nat.leb_spec (S pos) k), (Nat.leb_spec pos k), (Nat.ltb_spec k (S pos + cnt)), (Nat.ltb_spec k (pos + S cnt)); simpl; auto; lia.
Qed.
Lemma neg_range_spec rhs cnt : forall p pos, pos + cnt <= length p -> pos + cnt <= length rhs ->
  exists r, neg_range ropp p rhs pos cnt = Ok r /\ length r = length p /\
    forall k, coef r k = if (pos <=? k) && (k <? pos + cnt) then ropp (coef rhs k) else coef p k.
Proof.
  induction cnt as [|cnt IH]; intros p pos H1 H2; cbn [neg_range].
  - exists p. split; [reflexivity|]. split; [reflexivity|]. intros k. rewrite Nat.add_0_r.
    destruct (Nat.leb_spec pos k), (Nat.ltb_spec k pos); simpl; auto; lia.
  - rewrite (at_ub_coef (rO := rO)) by lia. cbn [bind]. rewrite set_ub_ok by lia. cbn [bind].
    destruct (IH (upd p pos (ropp (coef rhs pos))) (S pos)) as [r [E [L C]]]; rewrite ?upd_len; try lia.
    exists r. rewrite E. split; [reflexivity|]. rewrite upd_len in L. split; [exact L|]. intros k. rewrite C.
    rewrite upd_coef by lia.
    destruct (Nat.eqb_spec k pos) as [->|N].
    + destruct (Nat.leb_spec (S pos) pos); [lia|]. simpl. rewrite Nat.leb_refl.
      destruct (Nat.ltb_spec pos (pos + S cnt)); [reflexivity|lia].
    + destruct (Nat.leb_spec (S pos) k), (Nat.leb_spec pos k), (Nat.ltb_spec k (S pos + cnt)), (Nat.ltb_spec k (pos + S cnt)); simpl; auto; lia.
Qed.
Lemma class_resize_coef v n k : coef (class_resize rO v n) k = if k <? n then coef v k else rO.
Proof.
  unfold class_resize. rewrite coef_app, firstn_length, coef_firstn.
  destruct (Nat.ltb_spec k (Nat.min n (length v))), (Nat.ltb_spec k n); try lia; auto.
  - rewrite coef_repeat0. symmetry. apply coef_out. lia.
  - apply coef_repeat0.
Qed.
Lemma class_resize_length v n : length (class_resize rO v n) = n.
Proof. unfold class_resize. rewrite app_length, firstn_length, repeat_length. lia. Qed.
Lemma degree_gtb_ne (a b : list T) : a <> [] -> b <> [] -> degree_gtb a b = (length b <? length a).
Proof. intros H1 H2. unfold degree_gtb. destruct a, b; try congruence. reflexivity. Qed.
Lemma poly_minus_assign_spec p rhs : p <> [] -> rhs <> [] -> poly_minus_assign rO rsub ropp p rhs = Ok (zsub p rhs).
Proof.
  intros Hp Hr. unfold poly_minus_assign. rewrite degree_gtb_ne by assumption.
  destruct (Nat.ltb_spec (length p) (length rhs)) as [L|L].
  - destruct (sub_range_spec rhs (length p) (class_resize rO p (length rhs)) 0) as [p2 [E2 [L2 C2]]]; rewrite ?class_resize_length; try lia.
    rewrite E2. cbn [bind]. rewrite class_resize_length in *.
    destruct (neg_range_spec rhs (length rhs - length p) p2 (length p)) as [p3 [E3 [L3 C3]]]; try lia.
    rewrite E3. f_equal. apply (list_ext (rO := rO)); [rewrite zsub_length; lia|]. intros k Hk.
    rewrite zsub_coef, C3, C2, class_resize_coef.
    destruct (Nat.leb_spec (length p) k), (Nat.ltb_spec k (length p + (length rhs - length p))), (Nat.ltb_spec k (0 + length p)),
      (Nat.ltb_spec k (length rhs)); cbn [andb Nat.leb]; try lia; try reflexivity.
    rewrite (coef_out p) by lia. ring.
  - destruct (sub_range_spec rhs (length rhs) p 0) as [p2 [E2 [L2 C2]]]; try lia. rewrite E2. f_equal.
    apply (list_ext (rO := rO)); [rewrite zsub_length; lia|]. intros k Hk. rewrite zsub_coef, C2. cbn [andb Nat.leb].
    destruct (Nat.ltb_spec k (0 + length rhs)); [reflexivity|]. rewrite (coef_out rhs) by lia. ring.
Qed.
Lemma transform_into_spec src : forall v pos, pos + length src <= length v ->
  exists r, transform_into radd src v pos = Ok r /\ length r = length v /\
    forall k, coef r k = if (pos <=? k) && (k <? pos + length src) then coef src (k - pos) [+] coef v k else coef v k.
Proof.
  induction src as [|x src IH]; intros v pos H; cbn [transform_into].
  - exists v. split; [reflexivity|]. split; [reflexivity|]. intros k. simpl. rewrite Nat.add_0_r.
    destruct (Nat.leb_spec pos k), (Nat.ltb_spec k pos); simpl; auto; lia.
  - simpl in H. rewrite (at_ub_coef (rO := rO)) by lia. cbn [bind]. rewrite set_ub_ok by lia. cbn [bind].
    destruct (IH (upd v pos (x [+] coef v pos)) (S pos)) as [r [E [L C]]]; rewrite ?upd_len; try lia.
    exists r. rewrite E. split; [reflexivity|]. rewrite upd_len in L. split; [exact L|]. intros k. rewrite C.
    rewrite upd_coef by lia. simpl length.
    destruct (Nat.eqb_spec k pos) as [->|N].
    + destruct (Nat.leb_spec (S pos) pos); [lia|]. cbn [andb]. rewrite Nat.leb_refl.
      destruct (Nat.ltb_spec pos (pos + S (length src))); [|lia]. rewrite Nat.sub_diag. reflexivity.
    + destruct (Nat.leb_spec (S pos) k), (Nat.leb_spec pos k), (Nat.ltb_spec k (S pos + length src)), (Nat.ltb_spec k (pos + S (length src))); cbn [andb]; auto; try lia.
      replace (k - pos) with (S (k - S pos)) by lia. reflexivity.
Qed.
Lemma poly_plus_assign_spec p rhs : p <> [] -> rhs <> [] -> poly_plus_assign rO radd p rhs = Ok (zadd p rhs).
Proof.
  intros Hp Hr. unfold poly_plus_assign. rewrite degree_gtb_ne by assumption.
  destruct (Nat.ltb_spec (length p) (length rhs)) as [L|L].
  - destruct (Nat.ltb_spec (length rhs) (length p)); [lia|].
    destruct (transform_into_spec (firstn (length p) rhs) (class_resize rO p (length rhs)) 0) as [p2 [E2 [L2 C2]]];
      rewrite ?class_resize_length, ?firstn_length; try lia.
    rewrite E2. cbn [bind]. rewrite class_resize_length in *.
    rewrite copy_at_spec by (rewrite skipn_length; lia). f_equal. apply (list_ext (rO := rO)).
    + rewrite zadd_length, !app_length, firstn_length, !skipn_length. lia.
    + intros k Hk. rewrite (zadd_coef Rth), !coef_app, firstn_length, coef_firstn, !skipn_length, !coef_skipn, C2, class_resize_coef, firstn_length, coef_firstn.
      replace (Nat.min (length p) (length p2)) with (length p) by lia.
      replace (Nat.min (length p) (length rhs)) with (length p) by lia.
      rewrite Nat.sub_0_r, Nat.add_0_l.
      destruct (Nat.ltb_spec k (length p)).
      * cbn [Nat.leb andb]. destruct (Nat.ltb_spec k (length rhs)); [|lia]. ring.
      * assert (Hk2 : k < length rhs).
        { rewrite !app_length, firstn_length, !skipn_length in Hk. lia. }
        destruct (Nat.ltb_spec (k - length p) (length rhs - length p)); [|lia].
        rewrite (coef_out p) by lia. replace (length p + (k - length p)) with k by lia. ring.
  - destruct (transform_into_spec rhs p 0) as [p2 [E2 [L2 C2]]]; try lia. rewrite E2. f_equal.
    apply (list_ext (rO := rO)); [rewrite zadd_length; lia|]. intros k Hk. rewrite (zadd_coef Rth), C2. cbn [andb Nat.leb].
    rewrite Nat.sub_0_r. destruct (Nat.ltb_spec k (0 + length rhs)); [ring|]. rewrite (coef_out rhs) by lia. ring.
Qed.

(** *** roots *)
Lemma fromroots_loop_spec roots : forall P, P <> [] ->
  exists R, fromroots_loop rO rsub rmul ropp roots P = Ok R /\ length R = length P + length roots /\
    coef R (length R - 1) = coef P (length P - 1) /\
    forall x, polyval x R = bigop rmul (polyval x P) (map (fun r => x [-] r) roots).
Proof.
  induction roots as [|r rs IH]; intros P HP; cbn [fromroots_loop].
  - exists P. split; [reflexivity|]. split; [simpl; lia|]. split; [reflexivity|]. reflexivity.
  - unfold poly_scale_assign. rewrite transform1_map, polymulx_rvalue_spec.
    rewrite poly_minus_assign_spec; [|discriminate|destruct P; simpl; congruence]. cbn [bind].
    set (Q := zsub (rO :: P) (map (fun c => c [*] r) P)).
    assert (LQ : length Q = S (length P)) by (unfold Q; rewrite zsub_length, map_length; cbn [length]; lia).
    destruct (IH Q) as [R [E [L [C V]]]].
    { intros C. rewrite C in LQ. discriminate. }
    exists R. split; [exact E|]. split; [rewrite L, LQ; simpl; lia|]. split.
    + rewrite C, LQ. replace (S (length P) - 1) with (length P) by lia. unfold Q. rewrite zsub_coef.
      rewrite (coef_out (map _ _)) by (rewrite map_length; lia).
      destruct P as [|c P']; [congruence|]. simpl length. replace (S (length P') - 1) with (length P') by lia.
      unfold SumLib.coef. simpl nth. ring.
    + intros x. rewrite V. simpl map. simpl bigop.
      assert (EQ : polyval x Q = (x [-] r) [*] polyval x P).
      { unfold Q. rewrite eval_zsub, polyval_cons, eval_scale. ring. }
      rewrite EQ. generalize (map (fun r0 => x [-] r0) rs) as l. intros l. induction l as [|y l IHl]; simpl; [reflexivity|]. rewrite IHl. ring.
Qed.
Lemma polyfromroots_spec roots : exists R, polyfromroots rO rI rsub rmul ropp roots = Ok R /\ length R = length roots + 1 /\
  coef R (length roots) = rI /\ forall x, polyval x R = bigop rmul rI (map (fun r => x [-] r) roots).
Proof.
  destruct (fromroots_loop_spec roots [rI]) as [R [E [L [C V]]]]; [discriminate|].
  exists R. split; [exact E|]. simpl in L. split; [lia|]. split.
  - replace (length roots) with (length R - 1) by lia. rewrite C. reflexivity.
  - intros x. rewrite V. f_equal. unfold Polynomial.polyval. simpl. ring.
Qed.
End PolyRing.
