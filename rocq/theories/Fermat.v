(** Fermat's little theorem for the standard library's primes, used to exhibit primes near the end of the
    intmax_t range: multiplication by a permutes the non-zero residues. *)
From Coq Require Import ZArith Znumtheory Lia List Permutation.
Import ListNotations.
Open Scope nat_scope.

Definition zprod (l : list Z) : Z := fold_right Z.mul 1%Z l.

Lemma zprod_perm l l' : Permutation l l' -> zprod l = zprod l'.
Proof.
  induction 1; unfold zprod in *; cbn [fold_right]; try congruence; try ring.
Qed.

Lemma zprod_scale p a l : (p <> 0)%Z ->
  (zprod (map (fun i => (a * i) mod p)%Z l) mod p = (a ^ Z.of_nat (length l) * zprod l) mod p)%Z.
Proof.
  intros Hp. induction l as [|x l IH].
  - reflexivity.
  - cbn [map length]. unfold zprod in *. cbn [fold_right].
    rewrite Z.mul_mod, IH, Z.mod_mod, <- Z.mul_mod by assumption.
    f_equal. rewrite Nat2Z.inj_succ, Z.pow_succ_r by lia. ring.
Qed.

Lemma residues_coprime p l : prime p -> (forall x, In x l -> (0 < x < p)%Z) -> rel_prime (zprod l) p.
Proof.
  intros P H. induction l as [|x l IH].
  - apply rel_prime_1.
  - unfold zprod. cbn [fold_right]. apply rel_prime_sym, rel_prime_mult.
    + apply rel_prime_sym, rel_prime_le_prime; [exact P|]. specialize (H x (or_introl eq_refl)). lia.
    + apply rel_prime_sym, IH. intros y Hy. apply H. right. exact Hy.
Qed.

Lemma fermat_unit (n : nat) (a : Z) : prime (Z.of_nat n) -> ~ (Z.of_nat n | a)%Z ->
  (a ^ (Z.of_nat n - 1) mod Z.of_nat n = 1)%Z.
Proof.
  intros P Ha. set (p := Z.of_nat n) in *. pose proof (prime_ge_2 _ P) as H2.
  assert (P0 : p <> 0%Z) by lia.
  set (L := map Z.of_nat (seq 1 (n - 1))).
  assert (LL : length L = n - 1) by (unfold L; rewrite map_length, seq_length; reflexivity).
  assert (LI : forall x, In x L <-> (0 < x < p)%Z).
  { intros x. unfold L. rewrite in_map_iff. split.
    - intros [i [<- Hi]]. apply in_seq in Hi. lia.
    - intros H. exists (Z.to_nat x). split; [lia|]. apply in_seq. lia. }
  assert (LN : NoDup L).
  { unfold L. apply FinFun.Injective_map_NoDup; [intros x y; apply Nat2Z.inj|apply seq_NoDup]. }
  assert (PM : Permutation (map (fun i => (a * i) mod p)%Z L) L).
  { apply NoDup_Permutation_bis.
    - assert (INJ : forall x y, In x L -> In y L -> ((a * x) mod p = (a * y) mod p)%Z -> x = y).
      { intros x y Hx Hy E. apply LI in Hx. apply LI in Hy.
        assert (D : (p | a * (x - y))%Z).
        { apply Z.mod_divide; [exact P0|]. rewrite Z.mul_sub_distr_l, Zminus_mod, E, Z.sub_diag. apply Z.mod_0_l. exact P0. }
        apply prime_mult in D; [|exact P]. destruct D as [D|[k D]]; [contradiction|].
        assert (k = 0%Z) by nia. nia. }
      clear LI LL. induction LN as [|x l Hx LN IH]; [constructor|]. cbn [map]. constructor.
      + intros H. apply in_map_iff in H. destruct H as [y [E Hy]]. apply Hx.
        rewrite (INJ x y); [exact Hy|left; reflexivity|right; exact Hy|congruence].
      + apply IH. intros u v Hu Hv. apply INJ; right; assumption.
    - rewrite map_length. lia.
    - intros x H. apply in_map_iff in H. destruct H as [i [<- Hi]]. apply LI in Hi. apply LI.
      pose proof (Z.mod_pos_bound (a * i) p ltac:(lia)).
      assert ((a * i) mod p <> 0)%Z; [|lia]. intros E. apply Z.mod_divide in E; [|exact P0].
      apply prime_mult in E; [|exact P]. destruct E as [E|[k E]]; [contradiction|]. assert (0 < k)%Z by nia. nia. }
  pose proof (zprod_scale p a L P0) as S. rewrite (zprod_perm _ _ PM), LL in S.
  replace (Z.of_nat (n - 1)) with (p - 1)%Z in S by lia.
  assert (D : (p | zprod L * (a ^ (p - 1) - 1))%Z).
  { apply Z.mod_divide; [exact P0|]. replace (zprod L * (a ^ (p - 1) - 1))%Z with (a ^ (p - 1) * zprod L - zprod L)%Z by ring.
    rewrite Zminus_mod, <- S, Z.sub_diag. apply Z.mod_0_l. exact P0. }
  assert (C : rel_prime (zprod L) p) by (apply residues_coprime; [exact P|intros x; apply LI]).
  apply Gauss in D; [|apply rel_prime_sym; exact C].
  destruct D as [k D]. replace (a ^ (p - 1))%Z with (1 + k * p)%Z by lia.
  rewrite Z.mod_add by exact P0. apply Z.mod_small. lia.
Qed.

Lemma fermat_Z (p : nat) (a : nat) : prime (Z.of_nat p) ->
  ((Z.of_nat a ^ Z.of_nat p) mod Z.of_nat p = Z.of_nat a mod Z.of_nat p)%Z.
Proof.
  intros P. pose proof (prime_ge_2 _ P) as H2.
  replace (Z.of_nat a ^ Z.of_nat p)%Z with (Z.of_nat a * Z.of_nat a ^ (Z.of_nat p - 1))%Z
    by (rewrite <- Z.pow_succ_r by lia; f_equal; lia).
  destruct (Zdivide_dec (Z.of_nat p) (Z.of_nat a)) as [[k D]|D].
  - rewrite D at 1. rewrite <- Z.mul_assoc, (Z.mul_comm (Z.of_nat p)), Z.mul_assoc, Z.mod_mul by lia.
    symmetry. rewrite D. apply Z.mod_mul. lia.
  - rewrite Z.mul_mod, (fermat_unit p (Z.of_nat a) P D), Z.mul_1_r, Z.mod_mod by lia. reflexivity.
Qed.
