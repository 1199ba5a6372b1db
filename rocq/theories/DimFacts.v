(** Unique factorisation over the reals: logarithms of distinct primes are linearly independent over Q. *)
From Verif Require Import Base Arith ArithFacts ArithFacts2 ArithNewton ArithValue Quantity QuantityFacts.
From Coq Require Import ZArith Znumtheory Zpow_facts Lia List QArith Qreals Reals Lra.
Open Scope nat_scope.
Set Implicit Arguments.

Definition pprod (F : list (Z * Z)) : Z := fold_right (fun f acc => (fst f ^ snd f * acc)%Z) 1%Z F.

Lemma pprod_pos F : Forall (fun f => prime (fst f) /\ (0 <= snd f)%Z) F -> (0 < pprod F)%Z.
Proof.
  induction 1 as [|[p k] F [Hp Hk] _ IH]; cbn [pprod fold_right fst snd] in *; [lia|]. fold (pprod F).
  pose proof (prime_ge_2 _ Hp). pose proof (Z.pow_pos_nonneg p k). nia.
Qed.

Lemma pprod_ndiv q F : prime q -> Forall (fun f => prime (fst f) /\ (0 <= snd f)%Z) F -> ~ In q (map fst F) ->
  ~ (q | pprod F)%Z.
Proof.
  intros Hq. induction 1 as [|[p k] F [Hp Hk] _ IH]; cbn [pprod fold_right map fst snd] in *; intros NI D.
  - apply Z.divide_1_r in D. pose proof (prime_ge_2 _ Hq). lia.
  - fold (pprod F) in *. apply prime_mult in D; [|exact Hq]. destruct D as [D|D].
    + apply NI. left. symmetry. apply (prime_power_prime q p k); assumption.
    + apply IH; [|exact D]. intros HI. apply NI. right. exact HI.
Qed.

(** Σ z ln p over a list of (p, z). *)
Definition lsum (F : list (Z * Z)) : R := fold_right (fun f acc => (IZR (snd f) * ln (IZR (fst f)) + acc)%R) 0%R F.

Lemma ln_pprod F : Forall (fun f => prime (fst f) /\ (0 <= snd f)%Z) F -> ln (IZR (pprod F)) = lsum F.
Proof.
  induction 1 as [|[p k] F [Hp Hk] HF IH]; cbn [pprod lsum fold_right fst snd] in *; [exact ln_1|].
  fold (pprod F). fold (lsum F). pose proof (prime_ge_2 _ Hp). pose proof (pprod_pos HF).
  rewrite mult_IZR, ln_mult, IH.
  - f_equal. rewrite IZR_pow_Rpower by lia. unfold Rpower. apply ln_exp.
  - apply IZR_pos, Z.pow_pos_nonneg; lia.
  - apply IZR_pos. assumption.
Qed.

Lemma ln_primes_indep_Z F : Forall (fun f => prime (fst f)) F -> NoDup (map fst F) -> lsum F = 0%R ->
  Forall (fun f => snd f = 0%Z) F.
Proof.
  intros HP ND HS.
  set (A := map (fun f => (fst f, Z.max (snd f) 0)) F). set (B := map (fun f => (fst f, Z.max (- snd f) 0)) F).
  assert (GA : Forall (fun f => prime (fst f) /\ (0 <= snd f)%Z) A).
  { apply Forall_map. eapply Forall_impl; [|exact HP]. cbn. intros f Hf. split; [exact Hf|lia]. }
  assert (GB : Forall (fun f => prime (fst f) /\ (0 <= snd f)%Z) B).
  { apply Forall_map. eapply Forall_impl; [|exact HP]. cbn. intros f Hf. split; [exact Hf|lia]. }
  assert (EL : (lsum A - lsum B = lsum F)%R).
  { unfold A, B. clear. induction F as [|[p z] F IH]; cbn [map lsum fold_right fst snd]; [lra|].
    fold (lsum F). fold (lsum (map (fun f => (fst f, Z.max (snd f) 0)) F)). fold (lsum (map (fun f => (fst f, Z.max (- snd f) 0)) F)).
    rewrite <- IH. replace (IZR z) with (IZR (Z.max z 0) - IZR (Z.max (- z) 0))%R; [ring|].
    rewrite <- minus_IZR. f_equal. lia. }
  assert (EP : pprod A = pprod B).
  { apply eq_IZR. apply ln_inv; try (apply IZR_pos, pprod_pos; assumption). rewrite !ln_pprod by assumption. lra. }
  apply Forall_forall. intros f Hf. destruct (in_split _ _ Hf) as [F1 [F2 ->]].
  destruct f as [p z]. cbn [snd]. rewrite map_app in ND. cbn [map fst] in ND. apply NoDup_remove_2 in ND.
  apply Forall_app in HP. destruct HP as [HP1 HP2]. inversion HP2 as [|? ? Pp HP3]; subst. cbn in Pp.
  assert (SPL : forall g, (forall y, 0 <= g y)%Z -> exists r, (pprod (map (fun f => (fst f, g (snd f))) (F1 ++ (p, z) :: F2)) = p ^ g z * r)%Z /\ ~ (p | r)%Z).
  { intros g Hg. exists (pprod (map (fun f => (fst f, g (snd f))) (F1 ++ F2))). split.
    - clear. induction F1 as [|[q y] F1 IH]; cbn [app map pprod fold_right fst snd]; [reflexivity|].
      unfold pprod in IH. rewrite IH. ring.
    - apply pprod_ndiv; [exact Pp| |].
      + apply Forall_map. cbn. apply Forall_app. split; (eapply Forall_impl; [|eassumption]); cbn; auto.
      + rewrite map_map. cbn. rewrite map_app. exact ND. }
  destruct (SPL (fun y => Z.max y 0) ltac:(intros; lia)) as [r [Er Nr]].
  destruct (SPL (fun y => Z.max (- y) 0) ltac:(intros; lia)) as [s [Es Ns]].
  fold A in Er. fold B in Es. rewrite EP, Es in Er.
  assert (Z.max (- z) 0 = Z.max z 0)%Z; [|lia].
  apply (@prime_pow_unique p _ _ s r); try assumption; try lia.
Qed.

Definition qlsum (F : list (Z * Q)) : R := fold_right (fun f acc => (Q2R (snd f) * ln (IZR (fst f)) + acc)%R) 0%R F.

(** A common denominator. *)
Lemma common_den (F : list (Z * Q)) : exists (N : Z) (zs : list Z), (0 < N)%Z /\ length zs = length F /\
  Forall2 (fun f z => (Q2R (snd f) * IZR N = IZR z)%R) F zs.
Proof.
  induction F as [|[p q] F [N [zs [HN [HL HF]]]]].
  - exists 1%Z, []. split; [lia|]. split; [reflexivity|constructor].
  - exists (Zpos (Qden q) * N)%Z, ((Qnum q * N)%Z :: map (Z.mul (Zpos (Qden q))) zs).
    split; [lia|]. split; [cbn; rewrite map_length; congruence|]. constructor.
    + cbn [snd]. unfold Q2R. rewrite !mult_IZR. field. apply not_0_IZR. lia.
    + clear HL HN. induction HF as [|[p' q'] z F zs E _ IH]; [constructor|]. cbn [map snd]. constructor; [|exact IH].
      cbn [snd] in *. rewrite !mult_IZR, <- E. ring.
Qed.

Lemma Q2R_0 q : Q2R q = 0%R -> (q == 0)%Q.
Proof. intros H. apply eqR_Qeq. rewrite H. unfold Q2R. cbn. lra. Qed.

Lemma ln_primes_indep_Q F : Forall (fun f => prime (fst f)) F -> NoDup (map fst F) -> qlsum F = 0%R ->
  Forall (fun f => snd f == 0)%Q F.
Proof.
  intros HP ND HS. destruct (common_den F) as [N [zs [HN [HL HF]]]].
  set (G := combine (map fst F) zs).
  assert (EG : (qlsum F * IZR N = lsum G)%R).
  { unfold G. clear HP ND HS HL. induction HF as [|[p q] z F zs E _ IH]; cbn [map combine qlsum lsum fold_right fst snd]; [ring|].
    fold (qlsum F). fold (lsum (combine (map fst F) zs)). rewrite <- IH. cbn [snd] in E. rewrite <- E. ring. }
  rewrite HS, Rmult_0_l in EG.
  assert (FG : map fst G = map fst F).
  { unfold G. clear - HL. revert zs HL. induction F as [|f F IH]; intros [|z zs]; cbn; try discriminate; [reflexivity|]. intros H. injection H as H. f_equal. auto. }
  assert (ZG : Forall (fun f => snd f = 0%Z) G).
  { apply ln_primes_indep_Z; [|rewrite FG; exact ND|congruence].
    apply (Forall_map fst (fun p => prime p)). rewrite FG. apply Forall_map. exact HP. }
  unfold G in ZG. assert (0 < IZR N)%R by (apply IZR_pos; exact HN). clear HP ND HS HL EG FG G.
  induction HF as [|[p q] z F zs E _ IH]; [constructor|]. cbn [map combine fst] in ZG. inversion ZG as [|? ? Z0 ZR]; subst. cbn [snd] in *. subst z.
  constructor; [|apply IH; exact ZR]. cbn [snd]. apply Q2R_0.
  apply Rmult_integral in E. destruct E as [E|E]; [exact E|lra].
Qed.
