(** Proofs about the direct convolution. *)
From Coq Require Import ZArith Ring.
From Verif Require Import Base Functional FunctionalProofs Spec SumLib Convolve.
Open Scope nat_scope.

Section Conv.
Context {T : Type} {rO rI : T} {radd rmul rsub : T -> T -> T} {ropp : T -> T}.
Hypothesis Rth : ring_theory rO rI radd rmul rsub ropp eq.
Add Ring TRC : Rth.
Notation "a [+] b" := (radd a b) (at level 50, left associativity).
Notation "a [*] b" := (rmul a b) (at level 40, left associativity).
Notation sum := (nsum rO radd).
Notation coef := (@coef T rO).
Notation cauchy := (@cauchy T rO radd rmul).

Lemma at_ub_coef a i : i < length a -> at_ub a i = Ok (coef a i).
Proof. intros H. unfold at_ub. now rewrite (nth_error_nth' a rO H). Qed.

Lemma conv_inner_spec a v i cnt : forall j acc,
  (forall k, k < cnt -> j + k < length a /\ j + k <= i /\ i - (j + k) < length v) ->
  conv_inner radd rmul a v (Z.of_nat i) (Z.of_nat j) cnt acc =
  Ok (acc [+] sum (fun k => coef a (j + k) [*] coef v (i - (j + k))) cnt).
Proof.
  induction cnt as [|cnt IH]; intros j acc H; cbn [conv_inner]; [simpl; f_equal; ring|].
  destruct (H 0 ltac:(lia)) as [A [B C]]. rewrite Nat.add_0_r in *.
  rewrite Nat2Z.id, at_ub_coef by exact A. cbn [bind].
  replace (Z.to_nat (Z.of_nat i - Z.of_nat j)) with (i - j) by lia. rewrite at_ub_coef by exact C. cbn [bind].
  replace (Z.of_nat j + 1)%Z with (Z.of_nat (S j)) by lia. rewrite IH.
  - f_equal. rewrite (sum_first Rth). rewrite Nat.add_0_r.
    rewrite (sum_ext (fun k => coef a (S j + k) [*] coef v (i - (S j + k)))
                     (fun k => coef a (j + S k) [*] coef v (i - (j + S k)))); [ring|].
    intros k Hk. do 2 f_equal; [lia|f_equal; lia].
  - intros k Hk. specialize (H (S k) ltac:(lia)). lia.
Qed.

Lemma conv_elem_spec a v i : length v <= length a -> i + 1 < length a + length v ->
  conv_elem rO radd rmul a v (Z.of_nat i) = Ok (cauchy (coef a) (coef v) i).
Proof.
  intros Hl Hi. unfold conv_elem. set (n := length a) in *. set (m := length v) in *.
  set (jmn := if (m =? 0) then i + 1 else i - (m - 1)).
  assert (E1 : (if (Z.of_nat m - 1 <=? Z.of_nat i)%Z then (Z.of_nat i - (Z.of_nat m - 1))%Z else 0%Z) = Z.of_nat jmn).
  { unfold jmn. destruct (Nat.eqb_spec m 0), (Z.leb_spec (Z.of_nat m - 1) (Z.of_nat i)); lia. }
  rewrite E1.
  set (jmx := Nat.min i (n - 1)).
  assert (E2 : (if (Z.of_nat i <? Z.of_nat n - 1)%Z then Z.of_nat i else (Z.of_nat n - 1)%Z) = Z.of_nat jmx).
  { unfold jmx. destruct (Z.ltb_spec (Z.of_nat i) (Z.of_nat n - 1)); lia. }
  rewrite E2. set (cnt := Z.to_nat (Z.of_nat jmx - Z.of_nat jmn + 1)).
  assert (Hc : cnt = S jmx - jmn) by (unfold cnt; lia).
  rewrite conv_inner_spec.
  - f_equal. unfold SumLib.cauchy.
    destruct (Nat.eqb_spec m 0) as [Em|Em].
    + replace cnt with 0 by (rewrite Hc; unfold jmn, jmx; destruct (Nat.eqb_spec m 0); lia).
      simpl (sum _ 0). rewrite (sum_zero Rth _ (S i)); [ring|]. intros k Hk. rewrite (coef_out v) by (fold m; lia). ring.
    + assert (Hj : jmn = i - (m - 1)) by (unfold jmn; destruct (Nat.eqb_spec m 0); lia).
      rewrite (sum_window Rth (fun k => coef a k [*] coef v (i - k)) jmn cnt (S i)).
      * ring.
      * unfold jmx in Hc. lia.
      * intros k Hk. rewrite (coef_out v) by (fold m; lia). ring.
      * intros k Hk. rewrite (coef_out a) by (fold n; unfold jmx in Hc; lia). ring.
  - intros k Hk. assert (Hj : m <> 0 -> jmn = i - (m - 1)) by (unfold jmn; destruct (Nat.eqb_spec m 0); lia).
    assert (Hj0 : m = 0 -> jmn = i + 1) by (unfold jmn; destruct (Nat.eqb_spec m 0); lia).
    unfold jmx in Hc. fold n m. destruct (Nat.eq_dec m 0); [specialize (Hj0 ltac:(assumption))|specialize (Hj ltac:(assumption))]; lia.
Qed.

Lemma conv_outer_spec a v cnt : length v <= length a -> forall i, i + cnt < length a + length v ->
  conv_outer rO radd rmul a v (Z.of_nat i) cnt = Ok (map (cauchy (coef a) (coef v)) (seq i cnt)).
Proof.
  intros Hl. induction cnt as [|cnt IH]; intros i Hi; cbn [conv_outer]; [reflexivity|].
  rewrite conv_elem_spec by lia. cbn [bind]. replace (Z.of_nat i + 1)%Z with (Z.of_nat (S i)) by lia.
  rewrite IH by lia. reflexivity.
Qed.

(** the Cauchy product as a list *)
Definition cprod (a v : list T) : list T := map (cauchy (coef a) (coef v)) (seq 0 (length a + length v - 1)).

Lemma impl_spec a v : length v <= length a -> 1 <= length a ->
  direct_convolve_impl rO radd rmul (length a + length v - 1) a v = Ok (cprod a v).
Proof.
  intros Hl H1. unfold direct_convolve_impl. unfold require.
  replace (Z.of_nat (length a + length v - 1) =? Z.of_nat (length a) + Z.of_nat (length v) - 1)%Z with true
    by (symmetry; apply Z.eqb_eq; lia).
  change 0%Z with (Z.of_nat 0). rewrite conv_outer_spec by lia. reflexivity.
Qed.
Lemma cprod_comm a v : cprod a v = cprod v a.
Proof. unfold cprod. rewrite (Nat.add_comm (length a)). apply map_ext. intros k. apply (cauchy_comm Rth). Qed.
Lemma convolve_spec a v : a <> [] \/ v <> [] -> convolve rO radd rmul a v = Ok (cprod a v).
Proof.
  intros H. unfold convolve, direct_convolve.
  destruct (Nat.eqb_spec (length a + length v) 0) as [E|E].
  { destruct a, v; simpl in E; try lia; destruct H; congruence. }
  destruct (Nat.leb_spec (length v) (length a)).
  - apply impl_spec; lia.
  - rewrite cprod_comm, (Nat.add_comm (length a)). apply impl_spec; lia.
Qed.
Lemma cprod_length a v : length (cprod a v) = length a + length v - 1.
Proof. unfold cprod. now rewrite map_length, seq_length. Qed.
Lemma cprod_coef a v k : coef (cprod a v) k = cauchy (coef a) (coef v) k.
Proof.
  destruct (Nat.lt_ge_cases k (length a + length v - 1)) as [L|L].
  - apply (coef_list (rO := rO) (cprod a v) (length a + length v - 1)); auto.
  - rewrite coef_out by (rewrite cprod_length; exact L). symmetry. unfold SumLib.cauchy. apply (sum_zero Rth).
    intros i Hi. destruct (Nat.lt_ge_cases i (length a)) as [A|A].
    + rewrite (coef_out v) by lia. ring.
    + rewrite (coef_out a) by lia. ring.
Qed.
Lemma cprod_assoc a b c : a <> [] -> b <> [] -> c <> [] -> cprod (cprod a b) c = cprod a (cprod b c).
Proof.
  intros Ha Hb Hc. assert (1 <= length a /\ 1 <= length b /\ 1 <= length c) by (destruct a, b, c; simpl; try congruence; lia).
  apply (list_ext (rO := rO)); rewrite !cprod_length; [lia|]. intros k Hk. rewrite !cprod_coef.
  etransitivity; [apply cauchy_ext; intros; [apply cprod_coef|reflexivity]|]. rewrite (cauchy_assoc Rth).
  apply cauchy_ext; intros; [reflexivity|]. symmetry. apply cprod_coef.
Qed.
Lemma cprod_1_l a : cprod [rI] a = a.
Proof.
  apply (list_ext (rO := rO)); rewrite cprod_length; simpl; [lia|]. intros k Hk. rewrite cprod_coef. unfold SumLib.cauchy.
  rewrite (sum_first Rth). rewrite Nat.sub_0_r. rewrite (sum_zero Rth _ k).
  - unfold SumLib.coef at 1. simpl. ring.
  - intros i Hi. rewrite (coef_out [rI]) by (simpl; lia). ring.
Qed.
(** delayed unit impulse: shifts *)
Lemma cprod_impulse a d : a <> [] -> cprod (repeat rO d ++ [rI]) a = repeat rO d ++ a.
Proof.
  intros Ha. assert (1 <= length a) by (destruct a; simpl; [congruence|lia]).
  apply (list_ext (rO := rO)); rewrite cprod_length, !app_length, !repeat_length; simpl length; [lia|]. intros k Hk.
  rewrite cprod_coef. unfold SumLib.cauchy.
  assert (Hc : forall i, coef (repeat rO d ++ [rI]) i = if i =? d then rI else rO).
  { intros i. unfold SumLib.coef. destruct (Nat.lt_ge_cases i d) as [L|L].
    - rewrite app_nth1 by (now rewrite repeat_length). rewrite nth_repeat. destruct (Nat.eqb_spec i d); [lia|reflexivity].
    - rewrite app_nth2; rewrite repeat_length; [|exact L]. destruct (Nat.eqb_spec i d) as [->|N].
      + now rewrite Nat.sub_diag.
      + destruct (i - d) as [|[|j]] eqn:E; try lia; reflexivity. }
  rewrite (sum_ext _ (fun i => (if i =? d then rI else rO) [*] coef a (k - i))) by (intros; now rewrite Hc).
  destruct (Nat.lt_ge_cases k d) as [L|L].
  - rewrite (sum_zero Rth). { unfold SumLib.coef. rewrite app_nth1 by (now rewrite repeat_length). symmetry. apply nth_repeat. }
    intros i Hi. destruct (Nat.eqb_spec i d); [lia|ring].
  - rewrite (sum_window Rth _ d 1 (S k)).
    + simpl. rewrite Nat.add_0_r, Nat.eqb_refl. unfold SumLib.coef. rewrite app_nth2 by (now rewrite repeat_length).
      rewrite repeat_length. ring.
    + lia.
    + intros i Hi. destruct (Nat.eqb_spec i d); [lia|ring].
    + intros i Hi. destruct (Nat.eqb_spec i d); [lia|ring].
Qed.
(** bilinearity, on equal lengths (operands zipped element-wise) *)
Definition zadd (a b : list T) : list T := map (fun i => coef a i [+] coef b i) (seq 0 (Nat.max (length a) (length b))).
Lemma zadd_coef a b k : coef (zadd a b) k = coef a k [+] coef b k.
Proof.
  destruct (Nat.lt_ge_cases k (Nat.max (length a) (length b))) as [L|L].
  - apply (coef_list (rO := rO) (zadd a b) (Nat.max (length a) (length b)) (fun i => coef a i [+] coef b i)); auto.
  - rewrite !coef_out; try lia; [ring|]. unfold zadd. rewrite map_length, seq_length. exact L.
Qed.
Lemma cprod_add_l a b v : length a = length b ->
  cprod (zadd a b) v = zadd (cprod a v) (cprod b v).
Proof.
  intros Hl. assert (Hz : length (zadd a b) = length a) by (unfold zadd; rewrite map_length, seq_length; lia).
  apply (list_ext (rO := rO)).
  - rewrite cprod_length, Hz. unfold zadd. rewrite map_length, seq_length, !cprod_length. lia.
  - intros k _. rewrite zadd_coef, !cprod_coef. rewrite <- (cauchy_add_l Rth). apply cauchy_ext; intros; [apply zadd_coef|reflexivity].
Qed.
Lemma coef_map f a k : f rO = rO -> coef (map f a) k = f (coef a k).
Proof. intros H. unfold SumLib.coef. rewrite <- H at 1. apply map_nth. Qed.
Lemma cprod_scale_l c a v : cprod (map (rmul c) a) v = map (rmul c) (cprod a v).
Proof.
  assert (H0 : c [*] rO = rO) by ring.
  apply (list_ext (rO := rO)).
  - rewrite map_length, !cprod_length, map_length. reflexivity.
  - intros k _. rewrite coef_map by exact H0. rewrite !cprod_coef, <- (cauchy_scale_l Rth).
    apply cauchy_ext; intros; [now apply coef_map|reflexivity].
Qed.

(** correlate *)
Lemma correlate_spec (conj : T -> T) a v k : a <> [] -> v <> [] -> conj rO = rO -> k < length a + length v - 1 ->
  exists r, correlate rO radd rmul conj a v = Ok r /\ length r = length a + length v - 1 /\
    coef r k = sum (fun n => (if length v - 1 <=? n + k then coef a (n + k - (length v - 1)) else rO) [*] conj (coef v n)) (length v).
Proof.
  intros Ha Hv Hc Hk. unfold correlate. rewrite transform1_map.
  assert (Hm : map conj (rev v) <> []).
  { intros E. apply map_eq_nil in E. apply (f_equal (@rev T)) in E. rewrite rev_involutive in E. simpl in E. congruence. }
  rewrite convolve_spec by (now right). eexists. split; [reflexivity|].
  set (w := map conj (rev v)). assert (Lw : length w = length v) by (unfold w; now rewrite map_length, rev_length).
  split; [rewrite cprod_length, Lw; reflexivity|].
  rewrite cprod_coef. assert (Hcw : forall i, i < length v -> coef w i = conj (coef v (length v - 1 - i))).
  { intros i Hi. unfold w. rewrite coef_map by exact Hc. f_equal. unfold SumLib.coef. rewrite rev_nth by exact Hi. f_equal. lia. }
  rewrite (cauchy_comm Rth). unfold SumLib.cauchy.
  (* sum over i <= k of w_i a_{k-i}; substitute n = m-1-i *)
  set (m := length v) in *. assert (1 <= m) by (unfold m; destruct v; simpl; [congruence|lia]).
  rewrite (sum_rev Rth _ m).
  transitivity (sum (fun i => (if i <=? k then coef a (k - i) else rO) [*] coef w i) m).
  - destruct (Nat.le_gt_cases (S k) m) as [L|L].
    + rewrite (sum_extend Rth (fun i => (if i <=? k then coef a (k - i) else rO) [*] coef w i) (S k) m).
      * apply sum_ext. intros i Hi. destruct (Nat.leb_spec i k); [ring|lia].
      * exact L.
      * intros i Hi. destruct (Nat.leb_spec i k); [lia|ring].
    + rewrite (sum_extend Rth _ m (S k)).
      * apply sum_ext. intros i Hi. destruct (Nat.leb_spec i k); [ring|lia].
      * lia.
      * intros i Hi. rewrite (coef_out w) by (rewrite Lw; lia). ring.
  - apply sum_ext. intros i Hi. rewrite Hcw by exact Hi.
    destruct (Nat.leb_spec i k), (Nat.leb_spec (m - 1) (m - 1 - i + k)); try lia; [|reflexivity].
    do 2 f_equal. lia.
Qed.
End Conv.
