From Verif Require Import Base Arith.
From Coq Require Import ZArith Znumtheory Zpow_facts Lia List Permutation.
Open Scope nat_scope.
Set Implicit Arguments.

Lemma imul_ok a b : (- imax - 1 <= a * b <= imax)%Z -> imul a b = Ok (a * b)%Z.
Proof.
  intros [H1 H2]. unfold imul.
  rewrite (proj2 (Z.leb_le _ _) H1), (proj2 (Z.leb_le _ _) H2). reflexivity.
Qed.

(** ** power *)
Lemma ipower_pos a p : ct_power_pos 1%Z Z.mul a p = (a ^ Zpos p)%Z.
Proof.
  induction p; cbn [ct_power_pos].
  - rewrite IHp. rewrite Pos2Z.inj_xI. rewrite Z.pow_add_r, Z.pow_1_r by lia.
    replace (2 * Zpos p)%Z with (Zpos p + Zpos p)%Z by lia. rewrite Z.pow_add_r by lia. ring.
  - rewrite IHp. rewrite Pos2Z.inj_xO.
    replace (2 * Zpos p)%Z with (Zpos p + Zpos p)%Z by lia. rewrite Z.pow_add_r by lia. ring.
  - rewrite Z.pow_1_r. ring.
Qed.
Lemma ipower_eq a n : (0 <= n)%Z -> ipower a n = (a ^ n)%Z.
Proof.
  intros H. unfold ipower, ct_power. destruct n; [reflexivity|apply ipower_pos|lia].
Qed.
Lemma ipower_abs a n : ipower a n = (a ^ Z.abs n)%Z.
Proof. unfold ipower, ct_power. destruct n; [reflexivity|apply ipower_pos|apply ipower_pos]. Qed.

Lemma ct_log2_spec n : (1 <= n)%Z -> (n < 2 ^ Z.of_nat (ct_log2 n))%Z.
Proof.
  intros H. destruct n as [|p|p]; try lia. unfold ct_log2. clear H.
  induction p; cbn [ct_log2_pos].
  - rewrite Nat2Z.inj_add, Z.pow_add_r by lia. change (2 ^ Z.of_nat 1)%Z with 2%Z. lia.
  - rewrite Nat2Z.inj_add, Z.pow_add_r by lia. change (2 ^ Z.of_nat 1)%Z with 2%Z. lia.
  - reflexivity.
Qed.
Lemma ct_log2_le n : (1 <= n)%Z -> (2 ^ (Z.of_nat (ct_log2 n) - 1) <= n)%Z.
Proof.
  intros H. destruct n as [|p|p]; try lia. unfold ct_log2. clear H.
  assert (P : forall q, (1 <= ct_log2_pos q)%nat) by (destruct q; cbn; lia).
  induction p; cbn [ct_log2_pos].
  - specialize (P p). replace (Z.of_nat (1 + ct_log2_pos p) - 1)%Z with (1 + (Z.of_nat (ct_log2_pos p) - 1))%Z by lia.
    rewrite Z.pow_add_r by lia. change (2 ^ 1)%Z with 2%Z. lia.
  - specialize (P p). replace (Z.of_nat (1 + ct_log2_pos p) - 1)%Z with (1 + (Z.of_nat (ct_log2_pos p) - 1))%Z by lia.
    rewrite Z.pow_add_r by lia. change (2 ^ 1)%Z with 2%Z. lia.
  - reflexivity.
Qed.

(** ** Products of prime powers *)
Definition fprod (F : list (Z * Z)) : Z := fold_right (fun f acc => (fst f ^ snd f * acc)%Z) 1%Z F.

Lemma fprod_app F G : fprod (F ++ G) = (fprod F * fprod G)%Z.
Proof. induction F; cbn [app]; [unfold fprod; cbn [fold_right]; ring|]. unfold fprod in *. cbn [fold_right]. rewrite IHF. ring. Qed.

Definition good_factor (f : Z * Z) : Prop := prime (fst f) /\ (1 <= snd f)%Z.

Lemma fprod_big F : Forall good_factor F -> (2 ^ Z.of_nat (length F) <= fprod F)%Z.
Proof.
  induction 1 as [|[p k] F [Hp Hk] _ IH]; cbn [fprod fold_right length]; [lia|]. fold (fprod F).
  rewrite Nat2Z.inj_succ, Z.pow_succ_r by lia. cbn in Hp, Hk.
  pose proof (prime_ge_2 _ Hp). cbn [fst snd].
  assert (2 <= p ^ k)%Z.
  { replace k with (Z.succ (k - 1)) by lia. rewrite Z.pow_succ_r by lia.
    assert (0 < p ^ (k - 1))%Z by (apply Z.pow_pos_nonneg; lia). nia. }
  assert (0 < 2 ^ Z.of_nat (length F))%Z by (apply Z.pow_pos_nonneg; lia). nia.
Qed.

(** ** append *)
Lemma pf_append_new F n p : Forall (fun f => fst f <> 0%Z /\ fst f <> p) F -> (1 <= n)%nat ->
  pf_append (F ++ repeat (0%Z, 0%Z) n) p = Ok ((F ++ [(p, 1%Z)]) ++ repeat (0%Z, 0%Z) (n - 1)).
Proof.
  intros H Hn. destruct n as [|n]; [lia|]. replace (S n - 1)%nat with n by lia.
  induction H as [|[q k] F [H1 H2] _ IH]; cbn [app repeat pf_append].
  - reflexivity.
  - cbn in H1, H2. apply Z.eqb_neq in H1, H2. rewrite H1, H2. cbn [repeat app] in IH. rewrite IH. reflexivity.
Qed.
Lemma pf_append_old F R p k : Forall (fun f => fst f <> 0%Z /\ fst f <> p) F -> p <> 0%Z ->
  pf_append ((F ++ [(p, k)]) ++ R) p = Ok ((F ++ [(p, (k + 1)%Z)]) ++ R).
Proof.
  intros H Hp. induction H as [|[q j] F [H1 H2] _ IH]; cbn [app pf_append].
  - apply Z.eqb_neq in Hp. rewrite Hp, Z.eqb_refl. reflexivity.
  - cbn in H1, H2. apply Z.eqb_neq in H1, H2. rewrite H1, H2. rewrite IH. reflexivity.
Qed.

(** ** The factorisation loop *)
Definition no_div_below (z n : Z) : Prop := forall d, (2 <= d < z)%Z -> ~ (d | n)%Z.

Lemma no_div_prime z n : no_div_below z n -> (2 <= z)%Z -> (z | n)%Z -> prime z.
Proof.
  intros H Hz D. apply prime_alt. split; [lia|]. intros d Hd Dd.
  apply (H d); [lia|]. eapply Z.divide_trans; eauto.
Qed.
Lemma no_div_prime_big z n : no_div_below z n -> (2 <= z)%Z -> (n < z * z)%Z -> (1 < n)%Z -> prime n.
Proof.
  intros H Hz B Hn. apply prime_alt. split; [lia|]. intros d Hd [e E].
  assert (1 < e)%Z by nia.
  destruct (Z_lt_le_dec d z).
  - apply (H d); [lia|]. exists e; lia.
  - apply (H e); [nia|]. exists d; lia.
Qed.

(** The factors found so far, [z] and the remaining [num]. *)
Record pf_inv (n z num : Z) (F : list (Z * Z)) : Prop := {
  pi_good : Forall good_factor F;
  pi_sorted : forall i j, (i < j < length F)%nat -> (fst (nth i F (0, 0)) < fst (nth j F (0, 0)))%Z;
  pi_le : Forall (fun f => (fst f <= z)%Z) F;
  pi_prod : (fprod F * num = n)%Z;
  pi_nodiv : no_div_below z num }.

Definition pf_table (n : Z) (F : list (Z * Z)) : list (Z * Z) :=
  F ++ repeat (0%Z, 0%Z) (ct_log2 n - length F).

Lemma pf_room n F num : (1 <= n)%Z -> Forall good_factor F -> (fprod F * num = n)%Z -> (2 <= num)%Z ->
  (S (length F) < ct_log2 n)%nat.
Proof.
  intros Hn HF HP H2. pose proof (fprod_big HF). pose proof (ct_log2_spec Hn).
  assert (Z.of_nat (S (length F)) < Z.of_nat (ct_log2 n))%Z; [|lia].
  apply (Z.pow_lt_mono_r_iff 2); [lia|lia|].
  rewrite Nat2Z.inj_succ, Z.pow_succ_r by lia. nia.
Qed.

Lemma sorted_app_last F p k : 
  (forall i j, (i < j < length F)%nat -> (fst (nth i F (0, 0)) < fst (nth j F (0, 0)))%Z) ->
  Forall (fun f => (fst f < p)%Z) F ->
  forall i j, (i < j < length (F ++ [(p, k)]))%nat ->
    (fst (nth i (F ++ [(p, k)]) (0, 0)) < fst (nth j (F ++ [(p, k)]) (0, 0)))%Z.
Proof.
  intros H HF i j. rewrite app_length. cbn [length]. intros L.
  rewrite (app_nth1 F) by lia.
  destruct (Nat.eq_dec j (length F)) as [->|].
  - rewrite app_nth2, Nat.sub_diag by lia. cbn. rewrite Forall_forall in HF. apply HF. apply nth_In. lia.
  - rewrite app_nth1 by lia. apply H. lia.
Qed.

(** Either the last factor is [z], or every factor is below [z]. *)
Lemma pf_inv_last n z num F : pf_inv n z num F ->
  Forall (fun f => (fst f < z)%Z) F \/
  exists G k, F = G ++ [(z, k)] /\ Forall (fun f => (fst f < z)%Z) G.
Proof.
  intros [HG HS HL _ _].
  destruct F as [|f F'] eqn:EF; [left; constructor|].
  destruct (@exists_last _ (f :: F')) as [G [[p k] E]]; [discriminate|].
  rewrite E in *. 
  assert (Q : Forall (fun f => (fst f < p)%Z) G).
  { rewrite Forall_forall. intros x Hx. destruct (In_nth _ _ (0%Z, 0%Z) Hx) as [i [Hi Ei]].
    specialize (HS i (length G)). rewrite app_length in HS. cbn [length] in HS.
    assert (HS' := HS ltac:(lia)). rewrite app_nth1 in HS' by lia.
    rewrite app_nth2, Nat.sub_diag in HS' by lia. rewrite Ei in HS'. exact HS'. }
  apply Forall_app in HL. destruct HL as [HL1 HL2]. inversion HL2; subst. cbn in H1.
  destruct (Z.eq_dec p z) as [->|].
  - right. exists G, k. auto.
  - left. apply Forall_app. split.
    + eapply Forall_impl; [|exact Q]. cbn. intros. lia.
    + constructor; [cbn; lia|constructor].
Qed.

Lemma good_ne0 F p : Forall good_factor F -> Forall (fun f => (fst f < p)%Z) F ->
  Forall (fun f => fst f <> 0%Z /\ fst f <> p) F.
Proof.
  intros H1 H2. rewrite Forall_forall in *. intros x Hx. specialize (H1 x Hx). specialize (H2 x Hx).
  destruct H1 as [H1 _]. apply prime_ge_2 in H1. lia.
Qed.

Lemma pf_append_any n z num q F : (1 <= n)%Z -> (2 <= num)%Z -> pf_inv n z num F ->
  prime q -> (z <= q)%Z ->
  exists F', pf_append (pf_table n F) q = Ok (pf_table n F') /\
    Forall good_factor F' /\
    (forall i j, (i < j < length F')%nat -> (fst (nth i F' (0, 0)) < fst (nth j F' (0, 0)))%Z) /\
    Forall (fun f => (fst f <= q)%Z) F' /\ (fprod F' = fprod F * q)%Z.
Proof.
  intros Hn H2 I Pq Hzq. pose proof (pf_inv_last I) as L. destruct I as [HG HS HL HP HN].
  assert (Hq := prime_ge_2 _ Pq).
  assert (Room := pf_room Hn HG HP H2).
  assert (C : Forall (fun f => (fst f < q)%Z) F \/
              exists G k, F = G ++ [(q, k)] /\ Forall (fun f => (fst f < q)%Z) G).
  { destruct L as [L|[G [k [E L]]]].
    - left. eapply Forall_impl; [|exact L]. cbn. intros; lia.
    - destruct (Z.eq_dec z q) as [<-|].
      + right. eauto.
      + left. subst F. apply Forall_app. split.
        * eapply Forall_impl; [|exact L]. cbn. intros; lia.
        * constructor; [cbn; lia|constructor]. }
  destruct C as [C|[G [k [E C]]]].
  - exists (F ++ [(q, 1%Z)]). unfold pf_table.
    rewrite pf_append_new; [|apply good_ne0; assumption|lia].
    split; [rewrite app_length; cbn [length]; do 3 f_equal; lia|].
    split; [apply Forall_app; split; [exact HG|constructor; [split; [exact Pq|cbn; lia]|constructor]]|].
    split; [apply sorted_app_last; assumption|].
    split.
    + apply Forall_app; split; [eapply Forall_impl; [|exact C]; cbn; intros; lia|].
      constructor; [cbn; lia|constructor].
    + rewrite fprod_app. unfold fprod at 2. cbn [fold_right fst snd]. rewrite Z.pow_1_r. ring.
  - subst F. exists (G ++ [(q, (k + 1)%Z)]). unfold pf_table.
    apply Forall_app in HG. destruct HG as [HG1 HG2]. inversion HG2 as [|? ? [_ Hk] _]; subst. cbn in Hk.
    rewrite pf_append_old; [|apply good_ne0; assumption|lia].
    split; [rewrite !app_length; reflexivity|].
    split; [apply Forall_app; split; [exact HG1|constructor; [split; [exact Pq|cbn; lia]|constructor]]|].
    split.
    { apply sorted_app_last; [|assumption]. intros i j Lij.
      specialize (HS i j). rewrite app_length in HS. cbn [length] in HS.
      rewrite !app_nth1 in HS by lia. apply HS. lia. }
    split.
    + apply Forall_app; split; [eapply Forall_impl; [|exact C]; cbn; intros; lia|].
      constructor; [cbn; lia|constructor].
    + rewrite !fprod_app. unfold fprod at 2 4. cbn [fold_right fst snd]. rewrite Z.pow_add_r, Z.pow_1_r by lia. ring.
Qed.

(** Largest value whose square fits in intmax_t. *)
Definition isqrt_imax : Z := 3037000499%Z.
Lemma isqrt_imax_spec : (isqrt_imax * isqrt_imax <= imax < (isqrt_imax + 1) * (isqrt_imax + 1))%Z.
Proof. split; [discriminate|reflexivity]. Qed.

Lemma imul_square z : (0 <= z <= isqrt_imax)%Z -> imul z z = Ok (z * z)%Z.
Proof. intros H. apply imul_ok. pose proof isqrt_imax_spec. nia. Qed.

(** Number of loop iterations is at most the sum of the increments of z and the divisions. *)
Lemma pf_loop_correct n : (1 <= n < isqrt_imax * isqrt_imax)%Z ->
  forall fuel z num F, pf_inv n z num F -> (2 <= z)%Z -> (1 <= num)%Z -> (z <= n + 1)%Z ->
  (z <= isqrt_imax)%Z ->
  (2 * num - z + n + 1 <= Z.of_nat fuel)%Z ->
  exists F', pf_loop fuel z num (pf_table n F) = Some (Ok (pf_table n F')) /\
    Forall good_factor F' /\
    (forall i j, (i < j < length F')%nat -> (fst (nth i F' (0, 0)) < fst (nth j F' (0, 0)))%Z) /\
    fprod F' = n.
Proof.
  intros Hn. induction fuel as [|fuel IH]; intros z num F I Hz Hnum Hzn Hzi Hf; [lia|].
  cbn [pf_loop]. rewrite imul_square by lia.
  assert (Hnn : (num <= n)%Z).
  { pose proof (fprod_big (pi_good I)). pose proof (pi_prod I).
    assert (0 < 2 ^ Z.of_nat (length F))%Z by (apply Z.pow_pos_nonneg; lia). nia. }
  destruct (Z.leb_spec (z * z) num) as [L|L].
  - destruct (Z.eqb_spec (Z.rem num z) 0) as [E|E].
    + rewrite Z.rem_mod_nonneg in E by lia. apply Z.mod_divide in E; [|lia].
      assert (Pz := no_div_prime (pi_nodiv I) Hz E).
      destruct (@pf_append_any n z num z F) as [F' [A [B [C [D P]]]]]; [lia|nia|exact I|exact Pz|lia|].
      rewrite A. rewrite Z.quot_div_nonneg by lia.
      assert (Dq : (num = z * (num / z))%Z) by (apply Z_div_exact_full_2; [lia|apply Z.mod_divide; [lia|exact E]]).
      apply IH; try nia.
      constructor; auto.
      * rewrite P. pose proof (pi_prod I). nia.
      * intros d Hd Dd. apply (pi_nodiv I Hd). rewrite Dq. apply Z.divide_mul_r. exact Dd.
    + rewrite Z.rem_mod_nonneg in E by lia.
      apply IH; try nia.
      destruct I as [I1 I2 I3 I4 I5]. constructor; auto.
      * eapply Forall_impl; [|exact I3]. cbn; intros; lia.
      * intros d Hd Dd. destruct (Z.eq_dec d z) as [->|].
        -- apply Z.mod_divide in Dd; lia.
        -- apply (I5 d); [lia|exact Dd].
  - destruct (Z.ltb_spec 1 num).
    + assert (Pn := no_div_prime_big (pi_nodiv I) Hz L H).
      assert (z <= num)%Z.
      { destruct (Z_lt_le_dec num z); [|lia]. exfalso.
        apply (pi_nodiv I (d := num)); [lia|apply Z.divide_refl]. }
      destruct (@pf_append_any n z num num F) as [F' [A [B [C [D P]]]]]; [lia|lia|exact I|exact Pn|lia|].
      exists F'. rewrite A. split; [reflexivity|]. repeat split; auto. rewrite P. apply (pi_prod I).
    + assert (num = 1)%Z by lia. subst num. exists F. destruct I as [I1 I2 I3 I4 I5].
      repeat split; auto. lia.
Qed.

Lemma imul_inv a b c : imul a b = Ok c -> c = (a * b)%Z.
Proof. unfold imul. destruct (_ && _)%Z; congruence. Qed.

(** Whatever the fuel, a returned table is a factorisation. *)
Lemma pf_loop_sound n t : (1 <= n)%Z ->
  forall fuel z num F, pf_inv n z num F -> (2 <= z)%Z -> (1 <= num)%Z ->
  pf_loop fuel z num (pf_table n F) = Some (Ok t) ->
  exists F', t = pf_table n F' /\ Forall good_factor F' /\
    (forall i j, (i < j < length F')%nat -> (fst (nth i F' (0, 0)) < fst (nth j F' (0, 0)))%Z) /\
    fprod F' = n.
Proof.
  intros Hn. induction fuel as [|fuel IH]; intros z num F I Hz Hnum; [discriminate|].
  cbn [pf_loop]. destruct (imul z z) as [zz| | |] eqn:EM; try discriminate. apply imul_inv in EM. subst zz.
  destruct (Z.leb_spec (z * z) num) as [L|L].
  - destruct (Z.eqb_spec (Z.rem num z) 0) as [E|E].
    + rewrite Z.rem_mod_nonneg in E by lia. apply Z.mod_divide in E; [|lia].
      assert (Pz := no_div_prime (pi_nodiv I) Hz E).
      destruct (@pf_append_any n z num z F) as [F' [A [B [C [D P]]]]]; [lia|nia|exact I|exact Pz|lia|].
      rewrite A. rewrite Z.quot_div_nonneg by lia.
      assert (Dq : (num = z * (num / z))%Z) by (apply Z_div_exact_full_2; [lia|apply Z.mod_divide; [lia|exact E]]).
      apply IH; try nia.
      constructor; auto.
      * rewrite P. pose proof (pi_prod I). nia.
      * intros d Hd Dd. apply (pi_nodiv I Hd). rewrite Dq. apply Z.divide_mul_r. exact Dd.
    + rewrite Z.rem_mod_nonneg in E by lia.
      apply IH; try nia.
      destruct I as [I1 I2 I3 I4 I5]. constructor; auto.
      * eapply Forall_impl; [|exact I3]. cbn; intros; lia.
      * intros d Hd Dd. destruct (Z.eq_dec d z) as [->|].
        -- apply Z.mod_divide in Dd; lia.
        -- apply (I5 d); [lia|exact Dd].
  - destruct (Z.ltb_spec 1 num).
    + assert (Pn := no_div_prime_big (pi_nodiv I) Hz L H).
      assert (z <= num)%Z.
      { destruct (Z_lt_le_dec num z); [|lia]. exfalso.
        apply (pi_nodiv I (d := num)); [lia|apply Z.divide_refl]. }
      destruct (@pf_append_any n z num num F) as [F' [A [B [C [D P]]]]]; [lia|lia|exact I|exact Pn|lia|].
      rewrite A. intros Et. exists F'. split; [congruence|]. repeat split; auto. rewrite P. apply (pi_prod I).
    + assert (num = 1)%Z by lia. subst num. intros Et. exists F. destruct I as [I1 I2 I3 I4 I5].
      split; [congruence|]. repeat split; auto. lia.
Qed.

Lemma pf_inv_init n : pf_inv n 2 n [].
Proof.
  constructor.
  - constructor.
  - intros i j Hij. cbn in Hij. lia.
  - constructor.
  - unfold fprod. cbn [fold_right]. lia.
  - intros d Hd. lia.
Qed.

Lemma prime_factors_sound n fuel t : (1 <= n)%Z -> prime_factors fuel n = Some (Ok t) ->
  exists F, t = pf_table n F /\ Forall good_factor F /\
    (forall i j, (i < j < length F)%nat -> (fst (nth i F (0, 0)) < fst (nth j F (0, 0)))%Z) /\
    fprod F = n.
Proof.
  intros Hn H. apply (@pf_loop_sound n t Hn fuel 2 n []); [apply pf_inv_init|lia|lia|].
  unfold pf_table. cbn [length app]. rewrite Nat.sub_0_r. exact H.
Qed.

(** A prime too close to the end of the intmax_t range: z * z overflows. *)
Lemma pf_loop_overflow n fuel : forall z t, prime n -> (isqrt_imax * isqrt_imax <= n)%Z -> (2 <= z <= isqrt_imax + 1)%Z ->
  (isqrt_imax + 1 - z < Z.of_nat fuel)%Z -> pf_loop fuel z n t = Some UB.
Proof.
  induction fuel as [|fuel IH]; intros z t P Hn Hz Hf; [lia|]. cbn [pf_loop].
  destruct (Z.eq_dec z (isqrt_imax + 1)) as [->|].
  - reflexivity.
  - rewrite imul_square by lia.
    destruct (Z.leb_spec (z * z) n); [|unfold isqrt_imax in *; nia].
    destruct (Z.eqb_spec (Z.rem n z) 0) as [E|E].
    + exfalso. rewrite Z.rem_mod_nonneg in E by lia. apply Z.mod_divide in E; [|lia].
      apply prime_alt in P. destruct P as [_ P]. apply (P z); [|exact E].
      unfold isqrt_imax in *. nia.
    + apply IH; auto; lia.
Qed.

Lemma prime_factors_correct n : (1 <= n < isqrt_imax * isqrt_imax)%Z ->
  forall fuel, (3 * n <= Z.of_nat fuel)%Z ->
  exists F, prime_factors fuel n = Some (Ok (pf_table n F)) /\
    Forall good_factor F /\
    (forall i j, (i < j < length F)%nat -> (fst (nth i F (0, 0)) < fst (nth j F (0, 0)))%Z) /\
    fprod F = n /\ (length F <= ct_log2 n)%nat.
Proof.
  intros Hn fuel Hf. unfold prime_factors.
  destruct (@pf_loop_correct n Hn fuel 2 n []) as [F [A [B [C D]]]]; try (unfold isqrt_imax; lia).
  - constructor.
    + constructor.
    + intros i j Hij. cbn in Hij. lia.
    + constructor.
    + unfold fprod. cbn [fold_right]. lia.
    + intros d Hd. lia.
  - exists F. unfold pf_table in A at 1. cbn [length app] in A. rewrite Nat.sub_0_r in A.
    rewrite A. repeat split; auto.
    pose proof (fprod_big B). rewrite D in H. pose proof (@ct_log2_spec n ltac:(lia)).
    assert (Z.of_nat (length F) < Z.of_nat (ct_log2 n))%Z; [|lia].
    apply (Z.pow_lt_mono_r_iff 2); lia.
Qed.

(** ** Unique factorisation *)
Lemma fprod_pos F : Forall good_factor F -> (0 < fprod F)%Z.
Proof.
  intros H. pose proof (fprod_big H). assert (0 < 2 ^ Z.of_nat (length F))%Z by (apply Z.pow_pos_nonneg; lia). lia.
Qed.

Lemma prime_div_fprod p F : prime p -> Forall good_factor F -> (p | fprod F)%Z -> In p (map fst F).
Proof.
  intros Pp. induction 1 as [|[q k] F [Hq Hk] _ IH]; unfold fprod; cbn [fold_right map].
  - intros D. apply Z.divide_1_r_nonneg in D; [|pose proof (prime_ge_2 _ Pp); lia].
    pose proof (prime_ge_2 _ Pp). lia.
  - fold (fprod F). intros D. apply prime_mult in D; [|exact Pp]. cbn [fst snd] in *.
    destruct D as [D|D]; [left|right; auto].
    symmetry. apply (prime_power_prime p q k); try assumption. lia.
Qed.

Lemma sorted_NoDup F :
  (forall i j, (i < j < length F)%nat -> (fst (nth i F (0, 0)) < fst (nth j F (0, 0)))%Z) -> NoDup (map fst F).
Proof.
  intros H. apply (NoDup_nth _ (fst (0%Z, 0%Z))). intros i j Hi Hj E. rewrite map_length in *.
  rewrite !map_nth in E.
  destruct (Nat.lt_trichotomy i j) as [L|[L|L]]; [|exact L|].
  - specialize (H i j). lia.
  - specialize (H j i). lia.
Qed.

(** Splitting off the powers of one prime. *)
Lemma fprod_split p k F : Forall good_factor F -> NoDup (map fst F) -> In (p, k) F ->
  exists r, fprod F = (p ^ k * r)%Z /\ ~ (p | r)%Z.
Proof.
  intros G ND I. apply in_split in I. destruct I as [A [B E]]. subst F.
  apply Forall_app in G. destruct G as [GA GB]. inversion GB as [|? ? [Pp _] GB']; subst. cbn in Pp.
  exists (fprod A * fprod B)%Z. split.
  - rewrite fprod_app. unfold fprod at 2. cbn [fold_right fst snd]. fold (fprod B). ring.
  - intros D. apply prime_mult in D; [|exact Pp]. rewrite map_app in ND. cbn [map fst] in ND.
    apply NoDup_remove_2 in ND. apply ND, in_or_app.
    destruct D as [D|D]; [left|right]; apply prime_div_fprod; assumption.
Qed.

Lemma prime_pow_split p m : prime p -> (1 <= m)%Z -> exists f s, (0 <= f)%Z /\ (m = p ^ f * s)%Z /\ ~ (p | s)%Z /\ (1 <= s)%Z.
Proof.
  intros Pp. pose proof (prime_ge_2 _ Pp) as P2.
  assert (A : forall n m, (m <= Z.of_nat n)%Z -> (1 <= m)%Z ->
     exists f s, (0 <= f)%Z /\ (m = p ^ f * s)%Z /\ ~ (p | s)%Z /\ (1 <= s)%Z).
  { induction n as [|n IH]; intros a Ha H1; [lia|].
    destruct (Zdivide_dec p a) as [[q E]|ND].
    - destruct (IH q) as [f [s [Hf [Es [Hs H1s]]]]]; [nia|nia|].
      exists (f + 1)%Z, s. split; [lia|]. split; [|auto].
      rewrite Z.pow_add_r, Z.pow_1_r by lia. subst a q. ring.
    - exists 0%Z, a. split; [lia|]. split; [rewrite Z.pow_0_r; lia|auto]. }
  intros H. apply (A (Z.to_nat m)); lia.
Qed.

Lemma prime_pow_unique p a b r s : prime p -> (0 <= a)%Z -> (0 <= b)%Z ->
  (p ^ a * r = p ^ b * s)%Z -> ~ (p | r)%Z -> ~ (p | s)%Z -> a = b.
Proof.
  intros Pp. pose proof (prime_ge_2 _ Pp) as P2.
  assert (A : forall a b r s, (0 <= a)%Z -> (a < b)%Z -> (p ^ a * r = p ^ b * s)%Z -> (p | r)%Z).
  { intros a' b' r' s' Ha Hb E. replace b' with (a' + (1 + (b' - a' - 1)))%Z in E by lia.
    rewrite Z.pow_add_r in E by lia. rewrite <- Z.mul_assoc in E.
    assert (0 < p ^ a')%Z by (apply Z.pow_pos_nonneg; lia).
    apply Z.mul_cancel_l in E; [|lia]. rewrite E. rewrite Z.pow_add_r, Z.pow_1_r by lia.
    exists (p ^ (b' - a' - 1) * s')%Z. ring. }
  intros Ha Hb E N1 N2. destruct (Z.lt_trichotomy a b) as [L|[L|L]]; [|exact L|]; exfalso.
  - apply N1. apply (A a b r s); assumption.
  - apply N2. apply (A b a s r); auto.
Qed.

Lemma prime_ndiv_pow p s k : prime p -> ~ (p | s)%Z -> (0 <= k)%Z -> ~ (p | s ^ k)%Z.
Proof.
  intros Pp N Hk. revert k Hk. apply (natlike_ind (fun k => ~ (p | s ^ k)%Z)).
  - intros D. rewrite Z.pow_0_r in D. pose proof (prime_ge_2 _ Pp).
    apply Z.divide_1_r_nonneg in D; lia.
  - intros k Hk IH D. rewrite Z.pow_succ_r in D by lia. apply prime_mult in D; [|exact Pp]. tauto.
Qed.

(** ** is_exact_root / compute_root *)
Definition root_prod (F : list (Z * Z)) (k : Z) : Z := fprod (map (fun f => (fst f, (snd f / k)%Z)) F).

Lemma is_exact_root_table n F k : (1 <= k)%Z -> Forall good_factor F ->
  is_exact_root (pf_table n F) k = true <-> forall f, In f F -> (k | snd f)%Z.
Proof.
  intros Hk G. unfold is_exact_root, pf_table. rewrite forallb_app, andb_true_iff, !forallb_forall.
  split.
  - intros [H _] f Hf. specialize (H f Hf). apply Z.eqb_eq in H.
    rewrite Forall_forall in G. destruct (G f Hf) as [_ G2].
    rewrite Z.rem_mod_nonneg in H by lia. apply Z.mod_divide; [lia|exact H].
  - intros H. split.
    + intros f Hf. apply Z.eqb_eq. rewrite Forall_forall in G. destruct (G f Hf) as [_ G2].
      rewrite Z.rem_mod_nonneg by lia. apply Z.mod_divide; [lia|auto].
    + intros f Hf. apply repeat_spec in Hf. subst f. reflexivity.
Qed.

Lemma compute_root_table n F k : (1 <= k)%Z -> Forall good_factor F ->
  compute_root (pf_table n F) k = root_prod F k.
Proof.
  intros Hk G. unfold compute_root, pf_table, root_prod. rewrite fold_left_app.
  assert (A : forall m acc, fold_left (fun res f => (res * ipower (fst f) (Z.quot (snd f) k))%Z)
     (repeat (0%Z, 0%Z) m) acc = acc).
  { induction m; intros acc; [reflexivity|]. cbn [repeat fold_left fst snd].
    rewrite Z.quot_0_l by lia. cbn [ipower ct_power]. rewrite Z.mul_1_r. apply IHm. }
  rewrite A.
  assert (B : forall acc, fold_left (fun res f => (res * ipower (fst f) (Z.quot (snd f) k))%Z) F acc =
     (acc * fprod (map (fun f => (fst f, (snd f / k)%Z)) F))%Z).
  { induction G as [|[p e] F [Hp He] _ IH]; intros acc; unfold fprod; cbn [fold_left map fold_right fst snd].
    - ring.
    - fold (fprod (map (fun f => (fst f, (snd f / k)%Z)) F)). rewrite IH. cbn in He.
      rewrite Z.quot_div_nonneg by lia. rewrite ipower_eq by (apply Z.div_pos; lia). ring. }
  rewrite B. ring.
Qed.

Lemma root_prod_pow F k : (1 <= k)%Z -> Forall good_factor F -> (forall f, In f F -> (k | snd f)%Z) ->
  (root_prod F k ^ k = fprod F)%Z.
Proof.
  intros Hk G D. unfold root_prod. induction G as [|[p e] F [Hp He] _ IH].
  - cbn. rewrite Z.pow_1_l by lia. reflexivity.
  - cbn [map]. unfold fprod. cbn [fold_right fst snd]. fold (fprod (map (fun f => (fst f, (snd f / k)%Z)) F)).
    fold (fprod F). rewrite Z.pow_mul_l, IH by (intros f Hf; apply D; right; exact Hf).
    cbn in He. f_equal. rewrite <- Z.pow_mul_r by (try apply Z.div_pos; lia).
    f_equal. destruct (D (p, e) (or_introl eq_refl)) as [q E]. cbn in E. subst e.
    rewrite Z.div_mul by lia. ring.
Qed.
Lemma root_prod_pos F k : (1 <= k)%Z -> Forall good_factor F -> (1 <= root_prod F k)%Z.
Proof.
  intros Hk G. unfold root_prod. induction G as [|[p e] F [Hp He] _ IH]; [cbn; lia|].
  cbn [map]. unfold fprod. cbn [fold_right fst snd]. fold (fprod (map (fun f => (fst f, (snd f / k)%Z)) F)).
  pose proof (prime_ge_2 _ Hp). cbn in *. assert (0 < p ^ (e / k))%Z; [|nia].
  apply Z.pow_pos_nonneg; [lia|apply Z.div_pos; lia].
Qed.

Lemma exact_root_iff F k : (1 <= k)%Z -> Forall good_factor F -> NoDup (map fst F) ->
  (forall f, In f F -> (k | snd f)%Z) <-> exists m, (1 <= m)%Z /\ (fprod F = m ^ k)%Z.
Proof.
  intros Hk G ND. split.
  - intros D. exists (root_prod F k). split; [apply root_prod_pos; assumption|].
    symmetry. apply root_prod_pow; assumption.
  - intros [m [Hm E]] [p e] Hf. cbn [snd].
    assert (Gf := proj1 (Forall_forall _ _) G _ Hf). destruct Gf as [Pp He]. cbn in Pp, He.
    destruct (fprod_split p e G ND Hf) as [r [Er Nr]].
    destruct (prime_pow_split Pp Hm) as [f [s [Hf0 [Em [Ns H1s]]]]].
    exists f.
    assert (e = f * k)%Z; [|lia].
    apply (@prime_pow_unique p e (f * k) r (s ^ k)); try assumption; try nia.
    + rewrite <- Er, E, Em, Z.pow_mul_l, Z.pow_mul_r by lia. reflexivity.
    + apply prime_ndiv_pow; auto; lia.
Qed.

Lemma pow_root_inj k a b : (1 <= k)%Z -> (1 <= a)%Z -> (1 <= b)%Z -> (a ^ k = b ^ k)%Z -> a = b.
Proof.
  intros Hk Ha Hb E. apply (Z.pow_inj_l a b k); lia.
Qed.
