(** The dimension of a quantity type determines and is determined by its exponent vector. *)
From Verif Require Import Base Arith ArithFacts ArithFacts2 ArithNewton ArithValue Quantity QuantityFacts DimFacts UnitsSpec.
From Coq Require Import ZArith Znumtheory Lia List QArith Qreals Reals Lra.
Open Scope nat_scope.
Set Implicit Arguments.

(** ** More fuel gives the same answer *)
Lemma is_prime_loop_mono f f' n d r : f <= f' -> is_prime_loop f n d = Some r -> is_prime_loop f' n d = Some r.
Proof.
  revert f' d. induction f as [|f IH]; intros f' d Hf; [discriminate|]. destruct f' as [|f']; [lia|]. cbn [is_prime_loop].
  destruct (imul d d); auto. destruct (_ <=? n)%Z; auto. destruct (_ || _); auto. apply IH. lia.
Qed.
Lemma is_prime_mono f f' n r : f <= f' -> is_prime f n = Some r -> is_prime f' n = Some r.
Proof. intros Hf. unfold is_prime. destruct (_ || _); auto. destruct (_ || _); auto. apply is_prime_loop_mono, Hf. Qed.
Lemma next_prime_loop_mono f f' g g' a r : f <= f' -> g <= g' ->
  next_prime_loop f g a = Some r -> next_prime_loop f' g' a = Some r.
Proof.
  revert f' a. induction f as [|f IH]; intros f' a Hf Hg; [discriminate|]. destruct f' as [|f']; [lia|]. cbn [next_prime_loop].
  destruct (is_prime g (a + 1)) as [o|] eqn:E; [|discriminate]. rewrite (is_prime_mono _ Hg E).
  destruct o as [[|]| | |]; auto. apply IH; lia.
Qed.
Lemma next_prime_mono f f' a r : f <= f' -> next_prime f a = Some r -> next_prime f' a = Some r.
Proof. intros Hf. unfold next_prime. apply next_prime_loop_mono; exact Hf. Qed.
Lemma prime_list_from_mono f f' k : forall a r, f <= f' -> prime_list_from f k a = Some r -> prime_list_from f' k a = Some r.
Proof.
  induction k as [|k IH]; intros a r Hf; cbn [prime_list_from]; auto.
  destruct (next_prime f a) as [o|] eqn:E; [|discriminate]. rewrite (next_prime_mono _ Hf E). destruct o as [p| | |]; auto.
  destruct (prime_list_from f k p) as [o|] eqn:E2; [|discriminate]. rewrite (IH _ _ Hf E2). auto.
Qed.
Lemma prime_list_mono f f' N a r : f <= f' -> prime_list f N a = Some r -> prime_list f' N a = Some r.
Proof.
  intros Hf. unfold prime_list. destruct N as [|k]; auto.
  destruct (prime_list_from f k a) as [o|] eqn:E2; [|discriminate]. rewrite (prime_list_from_mono _ _ Hf E2). auto.
Qed.

Definition ids : list Z := [1; 2; 3; 5; 7; 11; 13; 17; 19; 23; 29]%Z.

Lemma prime_list_ids fuel r : prime_list fuel 11 1 = Some r -> r = Ok ids.
Proof.
  intros H. assert (K : prime_list 40 11 1 = Some (Ok ids)) by (vm_compute; reflexivity).
  apply (@prime_list_mono _ (Nat.max fuel 40)) in H; [|lia].
  apply (@prime_list_mono _ (Nat.max fuel 40)) in K; [|lia]. congruence.
Qed.

Lemma base_dimension_ids fuel I d : base_dimension fuel 11 I = Some d -> I <= 10 /\ d = RR (nth I ids 1%Z) 1 1.
Proof.
  unfold base_dimension. destruct (prime_list fuel 11 1) as [o|] eqn:E; [|discriminate].
  rewrite (prime_list_ids _ E). destruct (nth_error ids I) as [p|] eqn:N; [|discriminate].
  intros H. assert (L : I <= 10).
  { assert (I < length ids) by (apply nth_error_Some; congruence). unfold ids in *. cbn in *. lia. }
  split; [exact L|]. assert (d = mk_rr p 1 1) as -> by congruence. clear H E.
  rewrite <- (nth_error_nth _ _ 1%Z N). do 11 (destruct I as [|I]; [reflexivity|]). lia.
Qed.

(** ** The logarithm of the dimension *)
Definition lvec (e : expo) : R := qlsum (map (fun i => (nth i ids 1%Z, e i)) (seq 1 10)).

Lemma qlsum_lin (g : nat -> Z) (l : list nat) (e f h : expo) (x y : R) :
  (forall i, Q2R (h i) = x * Q2R (e i) + y * Q2R (f i))%R ->
  qlsum (map (fun i => (g i, h i)) l) =
    (x * qlsum (map (fun i => (g i, e i)) l) + y * qlsum (map (fun i => (g i, f i)) l))%R.
Proof.
  intros H. induction l as [|i l IH]; cbn [map qlsum fold_right fst snd]; [ring|].
  fold (qlsum (map (fun i => (g i, h i)) l)). fold (qlsum (map (fun i => (g i, e i)) l)). fold (qlsum (map (fun i => (g i, f i)) l)).
  rewrite IH, H. ring.
Qed.
Lemma lvec_lin (e f h : expo) (x y : R) : (forall i, Q2R (h i) = x * Q2R (e i) + y * Q2R (f i))%R ->
  lvec h = (x * lvec e + y * lvec f)%R.
Proof. apply qlsum_lin. Qed.

Lemma ln_div x y : (0 < x)%R -> (0 < y)%R -> (ln (x / y) = ln x - ln y)%R.
Proof. intros Hx Hy. unfold Rdiv. rewrite ln_mult, ln_Rinv; auto. apply Rinv_0_lt_compat. exact Hy. Qed.

Lemma ln_pow' x n : (0 < x)%R -> (ln (x ^ n) = INR n * ln x)%R.
Proof. intros Hx. rewrite <- Rpower_pow by assumption. unfold Rpower. apply ln_exp. Qed.

Lemma lvec_unit I : I <= 10 -> lvec (unit_vec I) = ln (IZR (nth I ids 1%Z)).
Proof.
  intros H. unfold lvec, unit_vec.
  assert (Q0 : Q2R 0 = 0%R) by (unfold Q2R; cbn; lra). assert (Q1 : Q2R 1 = 1%R) by (unfold Q2R; cbn; lra).
  unfold qlsum. do 11 (destruct I as [|I]; [cbn [map seq fold_right Nat.eqb fst snd nth ids]; rewrite ?Q0, ?Q1, ?ln_1; ring|]). lia.
Qed.

Lemma dim_of_val fuel roots u e : dim_of fuel roots u e ->
  uty_wf u /\ ln (rr_val (u_dim u)) = lvec e /\ (roots = false -> rr_root (u_dim u) = 1%Z /\ forall i, exists z, (e i == inject_Z z)%Q).
Proof.
  induction 1 as [I s o u HI Ws Wo HB|a b c e f _ [Wa [La Ia]] _ [Wb [Lb Ib]] H|a b c e f _ [Wa [La Ia]] _ [Wb [Lb Ib]] H
    |a c e _ [Wa [La Ia]] H|n a c e _ [Wa [La Ia]] H|k a c e HR Hk _ [Wa [La Ia]] H|a b c e f _ [Wa [La Ia]] _ [Wb [Lb Ib]] H].
  - unfold base_quantity in HB. destruct (base_dimension fuel 11 I) as [d|] eqn:E; [|discriminate].
    injection HB as <-. destruct (base_dimension_ids _ _ E) as [_ Hd]. cbn [u_dim].
    assert (Wd : rr_wf d).
    { rewrite Hd. do 11 (destruct I as [|I]; [repeat split; reflexivity|]). lia. }
    split; [repeat split; try apply Wd; try apply Ws; exact Wo|]. split.
    + rewrite rr_val_root1 by (try exact Wd; rewrite Hd; reflexivity). rewrite Hd. cbn [rr_num rr_den].
      rewrite lvec_unit by exact HI. f_equal. lra.
    + intros _. split; [rewrite Hd; reflexivity|]. intros i. unfold unit_vec. destruct (Nat.eqb i I); [exists 1%Z|exists 0%Z]; reflexivity.
  - destruct (ty_mul_val fuel Wa Wb H) as [Wc [_ [_ [Vd _]]]]. split; [exact Wc|]. split.
    + rewrite Vd, ln_mult, La, Lb by apply rr_val_pos. rewrite (@lvec_lin e f (fun i => (e i + f i)%Q) 1 1); [ring|]. intros i. rewrite Q2R_plus. ring.
    + intros F. destruct (Ia F) as [Ra Za]. destruct (Ib F) as [Rb Zb]. split.
      * unfold ty_mul in H. destruct (ratio_eqb _ _); [|discriminate]. destruct (rr_multiply_root1_some fuel _ _ Ra Rb) as [z [E R]].
        rewrite E in H. destruct (rr_multiply fuel (u_scale a) (u_scale b)); [|discriminate]. injection H as <-. exact R.
      * intros i. destruct (Za i) as [x Hx]. destruct (Zb i) as [y Hy]. exists (x + y)%Z. rewrite inject_Z_plus, Hx, Hy. reflexivity.
  - destruct (ty_div_val fuel Wa Wb H) as [Wc [_ [_ [Vd _]]]]. split; [exact Wc|]. split.
    + rewrite Vd, ln_div, La, Lb by apply rr_val_pos. rewrite (@lvec_lin e f (fun i => (e i - f i)%Q) 1 (-1)); [ring|]. intros i. rewrite Q2R_minus. ring.
    + intros F. destruct (Ia F) as [Ra Za]. destruct (Ib F) as [Rb Zb]. split.
      * unfold ty_div, rr_divide in H. destruct (ratio_eqb _ _); [|discriminate].
        destruct (rr_multiply_root1_some fuel (u_dim a) (mk_rr (rr_den (u_dim b)) (rr_num (u_dim b)) (rr_root (u_dim b))) Ra Rb) as [z [E R]].
        rewrite E in H. destruct (rr_multiply fuel (u_scale a) _); [|discriminate]. injection H as <-. exact R.
      * intros i. destruct (Za i) as [x Hx]. destruct (Zb i) as [y Hy]. exists (x - y)%Z.
        unfold Zminus. rewrite inject_Z_plus, inject_Z_opp, Hx, Hy. reflexivity.
  - destruct (ty_inv_val fuel Wa H) as [Wc [_ [Vd _]]]. split; [exact Wc|]. split.
    + rewrite Vd, ln_Rinv, La by apply rr_val_pos. rewrite (@lvec_lin e e (fun i => (- e i)%Q) (-1) 0); [ring|]. intros i. rewrite Q2R_opp. ring.
    + intros F. destruct (Ia F) as [Ra Za]. split.
      * unfold ty_inv, rr_divide in H.
        destruct (rr_multiply_root1_some fuel one_rr (mk_rr (rr_den (u_dim a)) (rr_num (u_dim a)) (rr_root (u_dim a))) eq_refl Ra) as [z [E R]].
        rewrite E in H. destruct (rr_multiply fuel one_rr _) in H; [|discriminate]. injection H as <-. exact R.
      * intros i. destruct (Za i) as [x Hx]. exists (- x)%Z. rewrite inject_Z_opp, Hx. reflexivity.
  - destruct (ty_pow_val fuel n Wa H) as [Wc [_ [Vd _]]]. split; [exact Wc|]. split.
    + rewrite Vd, ln_pow', La by apply rr_val_pos. rewrite (@lvec_lin e e (fun i => (inject_Z (Z.of_nat n) * e i)%Q) (INR n) 0); [ring|]. intros i. rewrite Q2R_mult.
      unfold Q2R at 1. cbn [inject_Z Qnum Qden]. rewrite <- INR_IZR_INZ. lra.
    + intros F. destruct (Ia F) as [Ra Za]. split.
      * unfold ty_pow in H. destruct (rr_power fuel (u_dim a) n) as [d|] eqn:E; [|discriminate].
        destruct (rr_power fuel (u_scale a) n); [|discriminate]. injection H as <-. cbn [u_dim].
        clear - E Ra. revert d E. induction n as [|n IH]; cbn [rr_power]; intros d E.
        { assert (d = mk_rr 1 1 1) as -> by congruence. reflexivity. }
        destruct (rr_power fuel (u_dim a) n) as [y|]; [|discriminate]. specialize (IH y eq_refl).
        destruct (rr_multiply_root1_some fuel (u_dim a) y Ra IH) as [z [Ez Rz]]. congruence.
      * intros i. destruct (Za i) as [x Hx]. exists (Z.of_nat n * x)%Z. rewrite inject_Z_mult, Hx. reflexivity.
  - destruct (ty_root_val fuel Wa Hk H) as [Wc [_ [Vd _]]]. split; [exact Wc|]. split; [|congruence].
    rewrite Vd. unfold Rpower. rewrite ln_exp, La. rewrite (@lvec_lin e e (fun i => (e i / inject_Z k)%Q) (/ IZR k) 0); [ring|]. intros i.
    rewrite Q2R_div by (unfold Qeq; cbn; lia). unfold Q2R at 2. cbn [inject_Z Qnum Qden]. unfold Rdiv. rewrite Rinv_1, Rmult_1_r. ring.
  - destruct (ty_common_val fuel Wa Wb H) as [Wc [D1 [D2 _]]]. split; [exact Wc|]. rewrite D2. split; [exact La|exact Ia].
Qed.

Lemma lvec_inj e f : lvec e = lvec f -> same_expo e f.
Proof.
  intros H. assert (Z0 : lvec (fun i => (e i - f i)%Q) = 0%R).
  { rewrite (@lvec_lin e f _ 1 (-1)); [rewrite H; ring|]. intros i. rewrite Q2R_minus. ring. }
  unfold lvec in Z0. apply ln_primes_indep_Q in Z0.
  - rewrite Forall_map, Forall_forall in Z0. intros i Hi. specialize (Z0 i). cbn [snd] in Z0.
    specialize (Z0 ltac:(apply in_seq; lia)).
    setoid_replace (e i) with ((e i - f i) + f i)%Q by ring. rewrite Z0. ring.
  - rewrite Forall_map, Forall_forall. intros i Hi. apply in_seq in Hi. cbn [fst].
    assert (B : forall p, In p [2; 3; 5; 7; 11; 13; 17; 19; 23; 29]%Z -> prime p).
    { intros p Hp. assert (E : exists fuel, is_prime fuel p = Some (Ok true) /\ (2 <= p < is_prime_limit)%Z).
      { exists 40. cbn [In] in Hp. unfold is_prime_limit. repeat (destruct Hp as [<-|Hp]; [split; [vm_compute; reflexivity|lia]|]). destruct Hp. }
      destruct E as [fuel [E R]]. destruct (prime_dec p) as [P|P]; [exact P|].
      exfalso. destruct (@is_prime_correct p R (Nat.max fuel (Z.to_nat p)) ltac:(lia)) as [r [Er Hr]].
      apply (@is_prime_mono _ (Nat.max fuel (Z.to_nat p))) in E; [|lia]. rewrite E in Er. injection Er as <-. tauto. }
    apply B. assert (C : i = 1 \/ i = 2 \/ i = 3 \/ i = 4 \/ i = 5 \/ i = 6 \/ i = 7 \/ i = 8 \/ i = 9 \/ i = 10) by lia.
    repeat (destruct C as [->|C]; [cbn; tauto|]). subst i. cbn. tauto.
  - rewrite map_map. cbn [fst]. cbn. repeat constructor; cbn; intuition discriminate.
Qed.
Lemma lvec_ext e f : same_expo e f -> lvec e = lvec f.
Proof.
  intros H. unfold lvec, qlsum. assert (G : forall l, (forall i, In i l -> 1 <= i <= 10) ->
    qlsum (map (fun i => (nth i ids 1%Z, e i)) l) = qlsum (map (fun i => (nth i ids 1%Z, f i)) l)).
  { induction l as [|i l IH]; intros Hl; [reflexivity|]. unfold qlsum. cbn [map fold_right fst snd].
    fold (qlsum (map (fun i => (nth i ids 1%Z, e i)) l)). fold (qlsum (map (fun i => (nth i ids 1%Z, f i)) l)).
    rewrite IH by (intros j Hj; apply Hl; right; exact Hj). rewrite (Qeq_eqR _ _ (H i (Hl i (or_introl eq_refl)))). reflexivity. }
  apply G. intros i Hi. apply in_seq in Hi. lia.
Qed.
